(** Proofs about packing. *)
From Coq Require Import List Arith ZArith Bool Lia.
From Verif Require Import Loc Arr_Model Arr_Spec Arr_Proofs Buf_Model Buf_Spec.
Import ListNotations.
Local Open Scope Z_scope.

(** ** Loops are folds over tuples *)
Lemma seq_shift_z : forall n a s q, map (fun i => a + Z.of_nat i) (seq (s + q) n) = map (fun i => a + Z.of_nat s + Z.of_nat i) (seq q n).
Proof. induction n as [|n IH]; intros a s q; [reflexivity|]. cbn [seq map]. f_equal; [lia|]. rewrite <- Nat.add_succ_r. apply IH. Qed.
Lemma loop_fold : forall (S : Type) n a (f : Z -> S -> S) s, loop n a f s = fold_left (fun s i => f i s) (map (fun i => a + Z.of_nat i) (seq 0 n)) s.
Proof.
  intros S n. induction n as [|n IH]; intros a f s; [reflexivity|]. cbn [loop seq map fold_left]. rewrite IH. change (seq 1 n) with (seq (1 + 0) n); rewrite (seq_shift_z n a 1 0). replace (a + Z.of_nat 0) with a by lia. change (Z.of_nat 1) with 1. reflexivity.
Qed.
Lemma for_fold : forall (S : Type) a b (f : Z -> S -> S) s, for_ a b f s = fold_left (fun s i => f i s) (zrange a b) s.
Proof. intros. apply loop_fold. Qed.
Lemma fold_ext : forall (S X : Type) (f g : S -> X -> S) l s, (forall s x, f s x = g s x) -> fold_left f l s = fold_left g l s.
Proof. intros S X f g l. induction l as [|x l IH]; intros s H; [reflexivity|]. cbn. rewrite H. apply IH, H. Qed.
Lemma fold_flat_map : forall (S X Y : Type) (f : S -> Y -> S) (h : X -> list Y) l s, fold_left f (flat_map h l) s = fold_left (fun s x => fold_left f (h x) s) l s.
Proof. intros S X Y f h l. induction l as [|x l IH]; intros s; [reflexivity|]. cbn [flat_map fold_left]. rewrite fold_left_app. apply IH. Qed.
Lemma fold_map : forall (S X Y : Type) (f : S -> Y -> S) (h : X -> Y) l s, fold_left f (map h l) s = fold_left (fun s x => f s (h x)) l s.
Proof. intros S X Y f h l. induction l as [|x l IH]; intros s; [reflexivity|]. cbn. apply IH. Qed.
(** one loop more *)
Definition over {S} (rs : list (Z * Z)) (body : list Z -> S -> S) (s : S) : S := fold_left (fun s x => body x s) (tuples rs) s.
Lemma over_cons : forall (S : Type) a b rs (body : list Z -> S -> S) s, over ((a, b) :: rs) body s = for_ a b (fun i => over rs (fun x => body (i :: x))) s.
Proof. intros. unfold over. cbn [tuples]. rewrite fold_flat_map, for_fold. apply fold_ext. intros s0 i. rewrite fold_map. reflexivity. Qed.
Lemma for_ext : forall (S : Type) a b (f g : Z -> S -> S) s, (forall i s, f i s = g i s) -> for_ a b f s = for_ a b g s.
Proof. intros. rewrite !for_fold. apply fold_ext. intros; apply H. Qed.
Lemma over3 : forall (S : Type) sk ek sj ej si ei (body : list Z -> S -> S) s,
  for_ sk ek (fun k => for_ sj ej (fun j => for_ si ei (fun i => body [k; j; i]))) s = over [(sk, ek); (sj, ej); (si, ei)] body s.
Proof. intros. rewrite over_cons. apply for_ext. intros k s1. rewrite over_cons. apply for_ext. intros j s2. rewrite over_cons. apply for_ext. intros i s3. reflexivity. Qed.
Lemma over4 : forall (S : Type) sn en sk ek sj ej si ei (body : list Z -> S -> S) s,
  for_ sn en (fun n => for_ sk ek (fun k => for_ sj ej (fun j => for_ si ei (fun i => body [n; k; j; i])))) s = over [(sn, en); (sk, ek); (sj, ej); (si, ei)] body s.
Proof. intros. rewrite over_cons. apply for_ext. intros n s0. rewrite <- over3. reflexivity. Qed.
Lemma over5 : forall (S : Type) sm em sn en sk ek sj ej si ei (body : list Z -> S -> S) s,
  for_ sm em (fun m => for_ sn en (fun n => for_ sk ek (fun k => for_ sj ej (fun j => for_ si ei (fun i => body [m; n; k; j; i]))))) s = over [(sm, em); (sn, en); (sk, ek); (sj, ej); (si, ei)] body s.
Proof. intros. rewrite over_cons. apply for_ext. intros n s0. rewrite <- over4. reflexivity. Qed.

(** ** Packing and unpacking along a list of addresses *)
Definition packb {A} (D : dims) (src : mem A) (x : list Z) (s : mem A * Z) : mem A * Z := (upd (fst s) (snd s) (src (addr D x)), snd s + 1).
Definition unpackb {A} (D : dims) (buf : mem A) (x : list Z) (s : mem A * Z) : mem A * Z := (upd (fst s) (addr D x) (buf (snd s)), snd s + 1).
Lemma pack3_over : forall A D (src : mem A) si ei sj ej sk ek s, PackData3 D src si ei sj ej sk ek s = over [(sk, ek); (sj, ej); (si, ei)] (packb D src) s.
Proof. intros. symmetry. rewrite <- over3. reflexivity. Qed.
Lemma pack4_over : forall A D (src : mem A) sn en si ei sj ej sk ek s, PackData4 D src sn en si ei sj ej sk ek s = over [(sn, en); (sk, ek); (sj, ej); (si, ei)] (packb D src) s.
Proof. intros. symmetry. rewrite <- over4. reflexivity. Qed.
Lemma pack5_over : forall A D (src : mem A) sn en sm em si ei sj ej sk ek s, PackData5 D src sn en sm em si ei sj ej sk ek s = over [(sn, en); (sk, ek); (sj, ej); (si, ei); (sm, em)] (packb D src) s.
Proof. intros. symmetry. rewrite <- over5. reflexivity. Qed.
Lemma unpack3_over : forall A D (buf : mem A) si ei sj ej sk ek s, UnpackData3 buf D si ei sj ej sk ek s = over [(sk, ek); (sj, ej); (si, ei)] (unpackb D buf) s.
Proof. intros. symmetry. rewrite <- over3. reflexivity. Qed.
Lemma unpack4_over : forall A D (buf : mem A) sn en si ei sj ej sk ek s, UnpackData4 buf D sn en si ei sj ej sk ek s = over [(sn, en); (sk, ek); (sj, ej); (si, ei)] (unpackb D buf) s.
Proof. intros. symmetry. rewrite <- over4. reflexivity. Qed.
Lemma unpack5_over : forall A D (buf : mem A) sn en sm em si ei sj ej sk ek s, UnpackData5 buf D sn en sm em si ei sj ej sk ek s = over [(sn, en); (sk, ek); (sj, ej); (si, ei); (sm, em)] (unpackb D buf) s.
Proof. intros. symmetry. rewrite <- over5. reflexivity. Qed.

Lemma pack_list : forall A D (src : mem A) xs s, let s' := fold_left (fun s x => packb D src x s) xs s in
  snd s' = snd s + Z.of_nat (length xs) /\ (forall p, p < snd s \/ snd s' <= p -> fst s' p = fst s p) /\
  (forall k x, nth_error xs k = Some x -> fst s' (snd s + Z.of_nat k) = src (addr D x)).
Proof.
  intros A D src xs. induction xs as [|x xs IH]; intros s; cbn [fold_left length].
  - split; [cbn; lia|]. split; [reflexivity|]. intros [|k] y H; discriminate H.
  - destruct (IH (packb D src x s)) as (E1 & E2 & E3). cbn zeta. set (s' := fold_left _ xs _) in *. unfold packb in E1, E2, E3. cbn [fst snd] in E1, E2, E3.
    split; [lia|]. split.
    + intros p Hp. rewrite E2 by lia. unfold upd. destruct (Z.eqb_spec p (snd s)); [lia|reflexivity].
    + intros [|k] y H; cbn [nth_error] in H.
      * injection H as <-. rewrite E2 by lia. unfold upd. rewrite Z.add_0_r, Z.eqb_refl. reflexivity.
      * rewrite <- (E3 k y H). f_equal. lia.
Qed.
Lemma unpack_list : forall A D (buf : mem A) xs s, NoDup (map (addr D) xs) -> let s' := fold_left (fun s x => unpackb D buf x s) xs s in
  snd s' = snd s + Z.of_nat (length xs) /\ (forall q, (forall x, In x xs -> q <> addr D x) -> fst s' q = fst s q) /\
  (forall k x, nth_error xs k = Some x -> fst s' (addr D x) = buf (snd s + Z.of_nat k)).
Proof.
  intros A D buf xs. induction xs as [|x xs IH]; intros s ND; cbn [fold_left length].
  - split; [cbn; lia|]. split; [reflexivity|]. intros [|k] y H; discriminate H.
  - cbn [map] in ND. inversion ND as [|? ? Hx ND']; subst. destruct (IH (unpackb D buf x s) ND') as (E1 & E2 & E3). cbn zeta. set (s' := fold_left _ xs _) in *. unfold unpackb in E1, E2, E3. cbn [fst snd] in E1, E2, E3.
    split; [lia|]. split.
    + intros q Hq. rewrite E2 by (intros y Hy; apply Hq; right; exact Hy). unfold upd. destruct (Z.eqb_spec q (addr D x)) as [->|]; [contradiction (Hq x (or_introl eq_refl)); reflexivity|reflexivity].
    + intros [|k] y H; cbn [nth_error] in H.
      * injection H as <-. rewrite E2; [unfold upd; rewrite Z.eqb_refl; f_equal; lia|]. intros y Hy E. apply Hx. rewrite E. apply in_map, Hy.
      * rewrite (E3 k y H). f_equal. lia.
Qed.

(** ** Addresses of different tuples differ *)
Lemma within_inr : forall rs x, within rs x <-> inr rs x. Proof. reflexivity. Qed.
Lemma volume_count : forall rs, volume rs = count rs. Proof. reflexivity. Qed.
Lemma within_length : forall rs x, within rs x -> length x = length rs.
Proof. intros rs x H. induction H; cbn; congruence. Qed.
Lemma addr_pad : forall D x, (3 <= length x <= 5)%nat -> addr D x = elem D (pad x).
Proof.
  intros D x H. destruct x as [|a [|b [|c [|d [|e [|f x]]]]]]; cbn [length] in H; try lia; unfold pad; cbn [length repeat app Nat.sub addr elem].
  - apply (fewer_indices D 0 a b c 0).
  - apply (fewer_indices D a b c d 0).
  - apply (fewer_indices D b c d e a).
Qed.
Lemma pad_inj : forall x y, length x = length y -> pad x = pad y -> x = y.
Proof. intros x y L E. unfold pad in E. rewrite L in E. apply app_inv_head in E. exact E. Qed.
Lemma addr_inj : forall D rs, (3 <= length rs <= 5)%nat -> fits D rs -> forall x y, within rs x -> within rs y -> addr D x = addr D y -> x = y.
Proof.
  intros D rs L F x y Hx Hy E. pose proof (within_length _ _ Hx) as Lx. pose proof (within_length _ _ Hy) as Ly. rewrite !addr_pad in E by lia. apply pad_inj; [lia|]. apply (elem_inj D); [apply F, Hx|apply F, Hy|exact E].
Qed.
Lemma NoDup_map_inj : forall (X Y : Type) (f : X -> Y) l, NoDup l -> (forall x y, In x l -> In y l -> f x = f y -> x = y) -> NoDup (map f l).
Proof.
  intros X Y f l ND. induction ND as [|x l Hx ND IH]; intros H; [constructor|]. cbn. constructor.
  - intros Hin. apply in_map_iff in Hin as (y & E & Hy). rewrite <- (H y x (or_intror Hy) (or_introl eq_refl) E) in Hx. contradiction.
  - apply IH. intros a b Ha Hb. apply H; right; assumption.
Qed.
Lemma addr_NoDup : forall D rs, (3 <= length rs <= 5)%nat -> fits D rs -> NoDup (map (addr D) (tuples rs)).
Proof. intros D rs L F. apply NoDup_map_inj; [apply tuples_NoDup|]. intros x y Hx Hy. apply in_tuples in Hx, Hy. apply (addr_inj D rs L F); assumption. Qed.

(** ** Displaced ranges *)
Lemma moved_length : forall rs d, length d = length rs -> length (moved_by rs d) = length rs.
Proof. intros rs d H. unfold moved_by. rewrite map_length, combine_length. lia. Qed.
Lemma moved_within : forall rs d x, length d = length rs -> within rs x -> within (moved_by rs d) (plus x d).
Proof. intros rs d x L H. revert d L. induction H as [|[a b] i rs x Hi H IH]; intros [|e d] L; cbn in L; try lia; [constructor|]. unfold moved_by, plus. cbn [combine map fst snd]. constructor; [cbn in Hi |- *; lia|]. apply IH. lia. Qed.
Lemma moved_back : forall rs d y, length d = length rs -> within (moved_by rs d) y -> exists x, within rs x /\ y = plus x d.
Proof.
  intros rs. induction rs as [|[a b] rs IH]; intros [|e d] y L H; cbn in L; try lia.
  - inversion H. exists []. split; [constructor|reflexivity].
  - unfold moved_by in H. cbn [combine map fst snd] in H. inversion H as [|? i ? y' Hi Hy]; subst. destruct (IH d y' ltac:(lia) Hy) as (x & Hx & ->). exists (i - e :: x). split; [constructor; [cbn in *; lia|exact Hx]|]. unfold plus. cbn. f_equal. lia.
Qed.
Lemma moved_volume : forall rs d, length d = length rs -> volume (moved_by rs d) = volume rs.
Proof. intros rs. induction rs as [|[a b] rs IH]; intros [|e d] L; cbn in L; try lia; [reflexivity|]. unfold moved_by. cbn [combine map fst snd volume fold_right]. f_equal; [f_equal; lia|]. apply IH. lia. Qed.
Lemma moved_tuples : forall rs d, length d = length rs -> tuples (moved_by rs d) = map (fun x => plus x d) (tuples rs).
Proof.
  intros rs. induction rs as [|[a b] rs IH]; intros [|e d] L; cbn in L; try lia; [reflexivity|].
  unfold moved_by. cbn [combine map fst snd tuples]. fold (moved_by rs d). rewrite (IH d) by lia.
  unfold zrange. replace (b + e - (a + e) + 1) with (b - a + 1) by lia. generalize (seq 0 (Z.to_nat (b - a + 1))). intros l. induction l as [|i l IHl]; [reflexivity|].
  cbn [map flat_map]. rewrite map_app, IHl. f_equal. rewrite !map_map. apply map_ext. intros x. unfold plus. cbn. f_equal. lia.
Qed.
Lemma tuples_vol : forall rs, Z.of_nat (length (tuples rs)) = volume rs.
Proof. intros rs. rewrite tuples_length; change (volume rs) with (count rs). pose proof (count_nonneg rs). lia. Qed.

(** ** Round trip of one region *)
Lemma round_trip : forall A D D' (src buf dst : mem A) rs d off, (3 <= length rs <= 5)%nat -> length d = length rs -> fits D' (moved_by rs d) ->
  let b := over rs (packb D src) (buf, off) in let r := over (moved_by rs d) (unpackb D' (fst b)) (dst, off) in
  snd b = off + volume rs /\ snd r = snd b /\ (forall p, p < off \/ snd b <= p -> fst b p = buf p) /\ transferred D D' rs d src dst (fst r).
Proof.
  intros A D D' src buf dst rs d off L Ld F b r. unfold b, r, over.
  destruct (pack_list A D src (tuples rs) (buf, off)) as (P1 & P2 & P3). cbn zeta in *. set (b' := fold_left _ (tuples rs) _) in *.
  pose proof (moved_length rs d Ld) as Lm. assert (L' : (3 <= length (moved_by rs d) <= 5)%nat) by lia.
  destruct (unpack_list A D' (fst b') (tuples (moved_by rs d)) (dst, off) (addr_NoDup D' _ L' F)) as (U1 & U2 & U3). cbn zeta in *. set (r' := fold_left _ (tuples (moved_by rs d)) _) in *.
  rewrite tuples_vol in P1, U1. rewrite (moved_volume rs d Ld) in U1. cbn [fst snd] in *. split; [exact P1|]. split; [lia|]. split; [exact P2|]. split.
  - intros x Hx. pose proof (tuples_nth rs x Hx) as N. set (k := Z.to_nat (pos rs x)) in *.
    assert (N' : nth_error (tuples (moved_by rs d)) k = Some (plus x d)) by (rewrite (moved_tuples rs d Ld), nth_error_map, N; reflexivity).
    rewrite (U3 k _ N'). apply (P3 k x N).
  - intros q Hq. apply U2. intros y Hy. apply in_tuples in Hy. apply (moved_back rs d y Ld) in Hy as (x & Hx & ->). apply Hq, Hx.
Qed.
