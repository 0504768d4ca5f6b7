(** Proofs about block redistribution messages. *)
From Coq Require Import List Arith ZArith Bool Lia.
From Verif Require Import Loc Arr_Model Arr_Spec Arr_Proofs Buf_Model Buf_Spec Buf_Proofs.
Import ListNotations.
Local Open Scope Z_scope.

(** A region, and the displacement from source to destination. *)
Definition xfer := (arr * list (Z * Z) * list Z)%type.
Definition src_of (c : xfer) : piece := (fst (fst c), snd (fst c)).
Definition dst_of (c : xfer) : piece := (fst (fst c), moved_by (snd (fst c)) (snd c)).
Definition copy_of (c : xfer) : copy := (fst (fst c), moved_by (snd (fst c)) (snd c), map Z.opp (snd c)).
Definition okx (dmd : arr -> dims) (c : xfer) : Prop := (3 <= length (snd (fst c)) <= 4)%nat /\ length (snd c) = length (snd (fst c)) /\ fits (dmd (fst (fst c))) (snd (dst_of c)).
Definition total (ps : list piece) : Z := fold_right (fun p n => volume (snd p) + n) 0 ps.

Lemma pack1_over : forall A dm (T : store A) a rs s, (3 <= length rs <= 4)%nat -> pack1 dm T (a, rs) s = over rs (packb (dm a) (T a)) s.
Proof.
  intros A dm T a rs s L. destruct rs as [|[a1 b1] [|[a2 b2] [|[a3 b3] [|[a4 b4] [|r rs]]]]]; cbn [length] in L; try lia; cbn [pack1]; [apply pack3_over|apply pack4_over].
Qed.
Lemma unpack1_over : forall A dm (buf : mem A) a rs s, (3 <= length rs <= 4)%nat -> unpack1 dm buf (a, rs) s = let r := over rs (unpackb (dm a) buf) (fst s a, snd s) in (put (fst s) a (fst r), snd r).
Proof.
  intros A dm T a rs s L. destruct rs as [|[a1 b1] [|[a2 b2] [|[a3 b3] [|[a4 b4] [|r rs]]]]]; cbn [length] in L; try lia; cbn [unpack1]; rewrite <- ?unpack3_over, <- ?unpack4_over; cbn zeta; [destruct (UnpackData3 _ _ _ _ _ _ _ _ _)|destruct (UnpackData4 _ _ _ _ _ _ _ _ _ _ _)]; reflexivity.
Qed.

(** what the buffer holds from offset [o] on *)
Fixpoint holds {A} (dms : arr -> dims) (T : store A) (b : mem A) (o : Z) (cs : list xfer) : Prop :=
  match cs with [] => True | c :: cs => (forall k x, nth_error (tuples (snd (fst c))) k = Some x -> b (o + Z.of_nat k) = T (fst (fst c)) (addr (dms (fst (fst c))) x)) /\ holds dms T b (o + volume (snd (fst c))) cs end.
Lemma volume_nonneg : forall rs, 0 <= volume rs. Proof. intros. apply count_nonneg. Qed.
Lemma pack_all_holds : forall A dms dmd (T : store A) cs s, Forall (okx dmd) cs ->
  let r := fold_left (fun s p => pack1 dms T p s) (map src_of cs) s in
  holds dms T (fst r) (snd s) cs /\ snd r = snd s + total (map src_of cs) /\ (forall p, p < snd s \/ snd r <= p -> fst r p = fst s p).
Proof.
  intros A dms dmd T cs. induction cs as [|[[a rs] d] cs IH]; intros s H; cbn [map fold_left holds].
  - split; [exact I|]. split; [cbn; lia|]. intros; reflexivity.
  - inversion H as [|? ? (L & _) Hc]; subst. cbn [fst snd src_of] in *. destruct (IH (pack1 dms T (a, rs) s) Hc) as (I1 & I2 & I3). cbn zeta. change (src_of (a, rs, d)) with ((a, rs) : piece). set (r := fold_left _ (map src_of cs) _) in *.
    rewrite (pack1_over A dms T a rs s L) in I1, I2, I3. destruct (pack_list A (dms a) (T a) (tuples rs) s) as (P1 & P2 & P3). cbn zeta in *. fold (over rs (packb (dms a) (T a)) s) in *. set (s1 := over rs (packb (dms a) (T a)) s) in *. rewrite tuples_vol in P1.
    assert (0 <= total (map src_of cs)). { clear. induction cs as [|c cs IH]; cbn [map total fold_right]; [lia|]. pose proof (volume_nonneg (snd (src_of c))). unfold total in IH. lia. }
    pose proof (volume_nonneg rs).
    split; [split|].
    + intros k x Hk. rewrite I3; [apply (P3 k x Hk)|]. left. apply nth_lt in Hk. cbn [fst snd] in Hk. rewrite P1, <- tuples_vol. lia.
    + rewrite <- P1. exact I1.
    + change (total ((a, rs) :: map src_of cs)) with (volume rs + total (map src_of cs)). split; [lia|]. intros p Hp. rewrite I3 by lia. apply P2. lia.
Qed.
Lemma arr_eqb_spec : forall a b, arr_eqb a b = true <-> a = b.
Proof. intros [i| |i|i|i] [j| |j|j|j]; cbn; rewrite ?Nat.eqb_eq; split; congruence. Qed.
Lemma put_same : forall A (S : store A) a m, put S a m a = m.
Proof. intros. unfold put. rewrite (proj2 (arr_eqb_spec a a) eq_refl). reflexivity. Qed.
Lemma put_other : forall A (S : store A) a m b, b <> a -> put S a m b = S b.
Proof. intros. unfold put. destruct (arr_eqb b a) eqn:E; [apply arr_eqb_spec in E; contradiction|reflexivity]. Qed.

Definition result {A} (dms dmd : arr -> dims) (T S S' : store A) (cs : list xfer) : Prop :=
  (forall a rs d, In (a, rs, d) cs -> transferred (dms a) (dmd a) rs d (T a) (S a) (S' a)) /\ (forall a, ~ In a (map (fun c => fst (fst c)) cs) -> S' a = S a).
Lemma result_cons : forall A dms dmd (T S S1 S' : store A) a rs d cs, ~ In a (map (fun c => fst (fst c)) cs) ->
  (forall b, b <> a -> S1 b = S b) -> transferred (dms a) (dmd a) rs d (T a) (S a) (S1 a) -> result dms dmd T S1 S' cs -> result dms dmd T S S' ((a, rs, d) :: cs).
Proof.
  intros A dms dmd T S S1 S' a rs d cs Na H1 HT (R1 & R2). split.
  - intros a' rs' d' [E|Hin].
    + injection E as <- <- <-. rewrite (R2 a Na). exact HT.
    + assert (a' <> a) by (intros ->; apply Na, in_map_iff; exists (a, rs', d'); split; [reflexivity|exact Hin]). rewrite <- (H1 a' H). apply (R1 a' rs' d' Hin).
  - intros b Hb. cbn [map fst] in Hb. rewrite (R2 b) by (intros X; apply Hb; right; exact X). apply H1. intros ->. apply Hb. left. reflexivity.
Qed.
Lemma unpack_all_result : forall A dms dmd (T : store A) b cs s, Forall (okx dmd) cs -> NoDup (map (fun c => fst (fst c)) cs) -> holds dms T b (snd s) cs ->
  let r := fold_left (fun s p => unpack1 dmd b p s) (map dst_of cs) s in
  snd r = snd s + total (map src_of cs) /\ result dms dmd T (fst s) (fst r) cs.
Proof.
  intros A dms dmd T b cs. induction cs as [|[[a rs] d] cs IH]; intros s H ND Hh; cbn [map fold_left].
  - split; [cbn; lia|]. split; [intros a rs d []|reflexivity].
  - inversion H as [|? ? (L & Ld & F) Hc]; subst. cbn [map fst] in ND. inversion ND as [|? ? Na ND']; subst. cbn [holds fst snd] in *. destruct Hh as [Hk Hh].
    unfold dst_of in F. cbn [fst snd] in F. pose proof (moved_length rs d Ld) as Lm.
    change (dst_of (a, rs, d)) with ((a, moved_by rs d) : piece). cbn zeta. rewrite (unpack1_over A dmd b a (moved_by rs d) s) by lia.
    destruct (unpack_list A (dmd a) b (tuples (moved_by rs d)) (fst s a, snd s) (addr_NoDup (dmd a) (moved_by rs d) ltac:(lia) F)) as (U1 & U2 & U3). cbn zeta in *. fold (over (moved_by rs d) (unpackb (dmd a) b) (fst s a, snd s)) in *.
    set (s1 := over (moved_by rs d) (unpackb (dmd a) b) (fst s a, snd s)) in *. rewrite tuples_vol, (moved_volume rs d Ld) in U1. cbn [fst snd] in U1, U2, U3.
    destruct (IH (put (fst s) a (fst s1), snd s1) Hc ND') as (I1 & I2); [cbn [snd]; rewrite U1; exact Hh|]. cbn zeta in *. set (r := fold_left _ (map dst_of cs) _) in *. cbn [fst snd] in I1, I2.
    change (total (src_of (a, rs, d) :: map src_of cs)) with (volume rs + total (map src_of cs)). split; [lia|].
    apply (result_cons A dms dmd T (fst s) (put (fst s) a (fst s1)) (fst r) a rs d cs Na); [intros b0 Hb; apply put_other, Hb| |exact I2]. rewrite put_same. split.
    + intros x Hx. pose proof (tuples_nth rs x Hx) as N. set (k := Z.to_nat (pos rs x)) in *.
      assert (N' : nth_error (tuples (moved_by rs d)) k = Some (plus x d)) by (rewrite (moved_tuples rs d Ld), nth_error_map, N; reflexivity).
      rewrite (U3 k _ N'). apply (Hk k x N).
    + intros q Hq. apply U2. intros y Hy. apply in_tuples in Hy. apply (moved_back rs d y Ld) in Hy as (x & Hx & ->). apply Hq, Hx.
Qed.
(** copies within a rank *)
Definition copyb {A} (D D' : dims) (d : list Z) (src : mem A) (x : list Z) (m : mem A) : mem A := upd m (addr D x) (src (addr D' (plus x d))).
Lemma copyb_list : forall A D D' d (src : mem A) xs m, NoDup (map (addr D) xs) -> let m' := fold_left (fun m x => copyb D D' d src x m) xs m in
  (forall q, (forall x, In x xs -> q <> addr D x) -> m' q = m q) /\ (forall x, In x xs -> m' (addr D x) = src (addr D' (plus x d))).
Proof.
  intros A D D' d src xs. induction xs as [|x xs IH]; intros m ND; cbn [fold_left].
  - split; [reflexivity|intros x []].
  - cbn [map] in ND. inversion ND as [|? ? Hx ND']; subst. destruct (IH (copyb D D' d src x m) ND') as (E1 & E2). cbn zeta. set (m' := fold_left _ xs _) in *. split.
    + intros q Hq. rewrite E1 by (intros y Hy; apply Hq; right; exact Hy). unfold copyb, upd. destruct (Z.eqb_spec q (addr D x)) as [->|]; [contradiction (Hq x (or_introl eq_refl)); reflexivity|reflexivity].
    + intros y [<-|Hy]; [|apply E2, Hy]. rewrite E1; [unfold copyb, upd; rewrite Z.eqb_refl; reflexivity|]. intros z Hz E. apply Hx. rewrite E. apply in_map, Hz.
Qed.
Lemma plus_opp : forall x d, length d = length x -> plus (plus x d) (map Z.opp d) = x.
Proof. intros x. induction x as [|i x IH]; intros [|e d] L; cbn in L; try lia; [reflexivity|]. unfold plus in *. cbn. f_equal; [lia|]. apply IH. lia. Qed.
Lemma copy1_over : forall A dmd dms (T : store A) a rs ds S, (3 <= length rs <= 4)%nat -> length ds = length rs -> copy1 dmd dms T (a, rs, ds) S = put S a (over rs (copyb (dmd a) (dms a) ds (T a)) (S a)).
Proof.
  intros A dmd dms T a rs ds S L Ld. destruct rs as [|[a1 b1] [|[a2 b2] [|[a3 b3] [|[a4 b4] [|r rs]]]]]; cbn [length] in L, Ld; try lia; destruct ds as [|d1 [|d2 [|d3 [|d4 [|d5 ds]]]]]; cbn [length] in Ld; try lia; cbn [copy1]; f_equal; [rewrite <- over3|rewrite <- over4]; reflexivity.
Qed.
Lemma copy_all_result : forall A dms dmd (T : store A) cs S, Forall (okx dmd) cs -> NoDup (map (fun c => fst (fst c)) cs) ->
  result dms dmd T S (copy_all dmd dms T (map copy_of cs) S) cs.
Proof.
  intros A dms dmd T cs. unfold copy_all. induction cs as [|[[a rs] d] cs IH]; intros S H ND; cbn [map fold_left].
  - split; [intros a rs d []|reflexivity].
  - inversion H as [|? ? (L & Ld & F) Hc]; subst. cbn [map fst] in ND. inversion ND as [|? ? Na ND']; subst. unfold dst_of in F. cbn [fst snd] in *. pose proof (moved_length rs d Ld) as Lm.
    change (copy_of (a, rs, d)) with ((a, moved_by rs d, map Z.opp d) : copy). rewrite (copy1_over A dmd dms T a (moved_by rs d) (map Z.opp d) S) by (rewrite ?map_length; lia).
    destruct (copyb_list A (dmd a) (dms a) (map Z.opp d) (T a) (tuples (moved_by rs d)) (S a) (addr_NoDup (dmd a) (moved_by rs d) ltac:(lia) F)) as (E1 & E2). cbn zeta in *. fold (over (moved_by rs d) (copyb (dmd a) (dms a) (map Z.opp d) (T a)) (S a)) in *. set (m1 := over _ _ _) in *.
    apply (result_cons A dms dmd T S (put S a m1) _ a rs d cs Na); [intros b0 Hb; apply put_other, Hb| |apply IH; assumption]. rewrite put_same. split.
    + intros x Hx. rewrite E2; [|apply in_tuples, moved_within; assumption]. rewrite plus_opp; [reflexivity|]. rewrite (within_length rs x Hx). exact Ld.
    + intros q Hq. apply E1. intros y Hy. apply in_tuples in Hy. apply (moved_back rs d y Ld) in Hy as (x & Hx & ->). apply Hq, Hx.
Qed.

(** ** The lists of regions *)
Fixpoint ixfers {X} (f : nat -> X -> list xfer) (i : nat) (l : list X) : list xfer := match l with [] => [] | x :: l => f i x ++ ixfers f (S i) l end.
Definition xfers (B : bsz) (V : vars) (il iu jl ju kl ku di dj dk : Z) : list xfer :=
  ixfers (fun i n => [(Cc i, [(0, n - 1); (kl, ku); (jl, ju); (il, iu)], [0; dk; dj; di])]) 0 (ncc V)
  ++ match nrad V with Some n => [(Rad, [(kl, ku); (jl, ju); (il, iu); (0, n - 1)], [dk; dj; di; 0])] | None => [] end
  ++ ixfers (fun i _ => [(X1f i, [(kl, ku); (jl, ju); (il, iu + 1)], [dk; dj; di]); (X2f i, [(kl, ku); (jl, ju + f2 B); (il, iu)], [dk; dj; di]); (X3f i, [(kl, ku + f3 B); (jl, ju); (il, iu)], [dk; dj; di])]) 0 (repeat tt (nfc V)).
Lemma ix_pieces : forall X (h : xfer -> piece) (f : nat -> X -> list xfer) (g : nat -> X -> list piece), (forall i x, map h (f i x) = g i x) -> forall l i, indexed g i l = map h (ixfers f i l).
Proof. intros X h f g Hf l. induction l as [|x l IH]; intros i; cbn [ixfers indexed]; [reflexivity|]. rewrite map_app, Hf, IH. reflexivity. Qed.
Lemma ix_copies : forall X (h : xfer -> copy) (f : nat -> X -> list xfer) (g : nat -> X -> list copy), (forall i x, map h (f i x) = g i x) -> forall l i, icopies g i l = map h (ixfers f i l).
Proof. intros X h f g Hf l. induction l as [|x l IH]; intros i; cbn [ixfers icopies]; [reflexivity|]. rewrite map_app, Hf, IH. reflexivity. Qed.
Lemma send_xfers : forall B V il iu jl ju kl ku di dj dk, send_list B V il iu jl ju kl ku = map src_of (xfers B V il iu jl ju kl ku di dj dk).
Proof.
  intros. unfold send_list, xfers. rewrite !map_app. f_equal; [|f_equal].
  - apply ix_pieces. reflexivity.
  - destruct (nrad V); reflexivity.
  - apply ix_pieces. reflexivity.
Qed.
Lemma recv_xfers : forall B V il iu jl ju kl ku di dj dk, recv_list B V (il + di) (iu + di) (jl + dj) (ju + dj) (kl + dk) (ku + dk) = map dst_of (xfers B V il iu jl ju kl ku di dj dk).
Proof.
  intros. unfold recv_list, xfers. rewrite !map_app. f_equal; [|f_equal].
  - apply ix_pieces. intros i n. unfold dst_of, moved_by. cbn. rewrite Z.add_0_r. reflexivity.
  - destruct (nrad V); [|reflexivity]. unfold dst_of, moved_by. cbn. rewrite Z.add_0_r. reflexivity.
  - apply ix_pieces. intros i n. unfold dst_of, moved_by. cbn [map fst snd combine]. repeat (f_equal; try lia).
Qed.
Lemma copy_xfers : forall B V il iu jl ju kl ku di dj dk, copy_list B V (il + di) (iu + di) (jl + dj) (ju + dj) (kl + dk) (ku + dk) (- di) (- dj) (- dk) = map copy_of (xfers B V il iu jl ju kl ku di dj dk).
Proof.
  intros. unfold copy_list, xfers. rewrite !map_app. f_equal; [|f_equal].
  - apply ix_copies. intros i n. unfold copy_of, moved_by. cbn. rewrite Z.add_0_r. reflexivity.
  - destruct (nrad V); [|reflexivity]. unfold copy_of, moved_by. cbn. rewrite Z.add_0_r. reflexivity.
  - apply ix_copies. intros i n. unfold copy_of, moved_by. cbn [map fst snd combine]. repeat (f_equal; try lia).
Qed.

Lemma in_ixfers : forall X (f : nat -> X -> list xfer) l i c, In c (ixfers f i l) <-> exists k x, nth_error l k = Some x /\ In c (f (i + k)%nat x).
Proof.
  intros X f l. induction l as [|y l IH]; intros i c; cbn [ixfers].
  - split; [intros []|intros ([|k] & x & H & _); discriminate H].
  - rewrite in_app_iff, IH. split.
    + intros [H|(k & x & H1 & H2)]; [exists 0%nat, y; rewrite Nat.add_0_r; split; [reflexivity|exact H]|exists (S k), x; split; [exact H1|]]. rewrite Nat.add_succ_r. exact H2.
    + intros ([|k] & x & H1 & H2); cbn [nth_error] in H1; [left; injection H1 as ->; rewrite Nat.add_0_r in H2; exact H2|right; exists k, x; split; [exact H1|]]. rewrite Nat.add_succ_r in H2. exact H2.
Qed.
Lemma nth_repeat_tt : forall n k, nth_error (repeat tt n) k = Some tt <-> (k < n)%nat.
Proof. intros n k. split; [intros H; apply nth_lt in H; rewrite repeat_length in H; exact H|]. intros H. destruct (nth_error (repeat tt n) k) as [[]|] eqn:E; [reflexivity|]. apply nth_error_None in E. rewrite repeat_length in E. lia. Qed.
Section X.
Variables (B : bsz) (V : vars) (il iu jl ju kl ku di dj dk : Z).
Local Notation XS := (xfers B V il iu jl ju kl ku di dj dk).
Lemma in_xfers : forall a rs d, In (a, rs, d) XS <->
  match a with
  | Cc m => exists nv, nth_error (ncc V) m = Some nv /\ rs = [(0, nv - 1); (kl, ku); (jl, ju); (il, iu)] /\ d = [0; dk; dj; di]
  | Rad => exists nv, nrad V = Some nv /\ rs = [(kl, ku); (jl, ju); (il, iu); (0, nv - 1)] /\ d = [dk; dj; di; 0]
  | X1f m => (m < nfc V)%nat /\ rs = [(kl, ku); (jl, ju); (il, iu + 1)] /\ d = [dk; dj; di]
  | X2f m => (m < nfc V)%nat /\ rs = [(kl, ku); (jl, ju + f2 B); (il, iu)] /\ d = [dk; dj; di]
  | X3f m => (m < nfc V)%nat /\ rs = [(kl, ku + f3 B); (jl, ju); (il, iu)] /\ d = [dk; dj; di]
  end.
Proof.
  intros a rs d. unfold xfers. rewrite !in_app_iff, !in_ixfers. split.
  - intros [(k & n & Hn & [E|[]])|[H|(k & [] & Hn & Hin)]].
    + injection E as <- <- <-. exists n. repeat split. exact Hn.
    + destruct (nrad V) as [n|]; [|contradiction H]. destruct H as [E|[]]. injection E as <- <- <-. exists n. repeat split.
    + apply nth_repeat_tt in Hn. destruct Hin as [E|[E|[E|[]]]]; injection E as <- <- <-; repeat split; exact Hn.
  - destruct a as [m| |m|m|m].
    + intros (nv & Hn & -> & ->). left. exists m, nv. split; [exact Hn|left; reflexivity].
    + intros (nv & -> & -> & ->). right. left. left. reflexivity.
    + intros (Hm & -> & ->). right. right. exists m, tt. split; [apply nth_repeat_tt, Hm|left; reflexivity].
    + intros (Hm & -> & ->). right. right. exists m, tt. split; [apply nth_repeat_tt, Hm|right; left; reflexivity].
    + intros (Hm & -> & ->). right. right. exists m, tt. split; [apply nth_repeat_tt, Hm|right; right; left; reflexivity].
Qed.
Definition disp (a : arr) : list Z := match a with Cc _ => [0; dk; dj; di] | Rad => [dk; dj; di; 0] | _ => [dk; dj; di] end.
Ltac fall := repeat match goal with H : Forall2 _ (_ :: _) _ |- _ => inversion H; clear H; subst | H : Forall2 _ [] _ |- _ => inversion H; clear H; subst end; cbn [fst snd] in *.
Lemma region : forall a x, in_cells B V il iu jl ju kl ku a x <-> exists rs, In (a, rs, disp a) XS /\ within rs x.
Proof.
  intros a x. split.
  - unfold in_cells. intros H. destruct a as [m| |m|m|m]; repeat match goal with x : list Z |- _ => destruct x; try contradiction end.
    + destruct H as (nv & Hn & H0 & H1 & H2 & H3). eexists. rewrite in_xfers. split; [exists nv; repeat split; exact Hn|]. repeat constructor; cbn [fst snd]; lia.
    + destruct H as (nv & Hn & H0 & H1 & H2 & H3). eexists. rewrite in_xfers. split; [exists nv; repeat split; exact Hn|]. repeat constructor; cbn [fst snd]; lia.
    + destruct H as (Hn & H1 & H2 & H3). eexists. rewrite in_xfers. split; [repeat split; exact Hn|]. repeat constructor; cbn [fst snd]; lia.
    + destruct H as (Hn & H1 & H2 & H3). eexists. rewrite in_xfers. split; [repeat split; exact Hn|]. repeat constructor; cbn [fst snd]; lia.
    + destruct H as (Hn & H1 & H2 & H3). eexists. rewrite in_xfers. split; [repeat split; exact Hn|]. repeat constructor; cbn [fst snd]; lia.
  - intros (rs & Hin & Hw). apply in_xfers in Hin. unfold within in Hw. destruct a as [m| |m|m|m].
    + destruct Hin as (nv & Hn & -> & _). fall. cbn [in_cells]. exists nv. repeat split; try lia. exact Hn.
    + destruct Hin as (nv & Hn & -> & _). fall. cbn [in_cells]. exists nv. repeat split; try lia. exact Hn.
    + destruct Hin as (Hn & -> & _). fall. cbn [in_cells]. repeat split; lia.
    + destruct Hin as (Hn & -> & _). fall. cbn [in_cells]. repeat split; lia.
    + destruct Hin as (Hn & -> & _). fall. cbn [in_cells]. repeat split; lia.
Qed.
Lemma xfers_disp : forall a rs d, In (a, rs, d) XS -> d = disp a.
Proof. intros a rs d H. apply in_xfers in H. destruct a; [destruct H as (? & _ & _ & ->)|destruct H as (? & _ & _ & ->)|destruct H as (_ & _ & ->)..]; reflexivity. Qed.
Lemma NoDup_ix : forall X (f : nat -> X -> list xfer) l i, (forall i x, NoDup (map (fun c => fst (fst c)) (f i x))) -> (forall i j x y a, i <> j -> In a (map (fun c => fst (fst c)) (f i x)) -> In a (map (fun c => fst (fst c)) (f j y)) -> False) ->
  NoDup (map (fun c => fst (fst c)) (ixfers f i l)).
Proof.
  intros X f l i H1 H2. revert i. induction l as [|y l IH]; intros i; cbn [ixfers map]; [constructor|]. rewrite map_app. apply NoDup_app_; [apply H1|apply IH|].
  intros a Ha Hb. apply in_map_iff in Hb as (c & <- & Hc). apply in_ixfers in Hc as (k & x & _ & Hc). apply (H2 i (S i + k)%nat y x (fst (fst c))); [lia|exact Ha|apply in_map_iff; exists c; split; [reflexivity|exact Hc]].
Qed.
Lemma xfers_NoDup : NoDup (map (fun c => fst (fst c)) XS).
Proof.
  unfold xfers. rewrite !map_app. assert (HF : forall a, In a (map (fun c : xfer => fst (fst c)) (ixfers (fun i (_ : unit) => [(X1f i, [(kl, ku); (jl, ju); (il, iu + 1)], [dk; dj; di]); (X2f i, [(kl, ku); (jl, ju + f2 B); (il, iu)], [dk; dj; di]); (X3f i, [(kl, ku + f3 B); (jl, ju); (il, iu)], [dk; dj; di])]) 0 (repeat tt (nfc V)))) -> match a with Cc _ | Rad => False | _ => True end).
  { intros a Ha. apply in_map_iff in Ha as (c & <- & Hc). apply in_ixfers in Hc as (k & x & _ & [<-|[<-|[<-|[]]]]); exact I. }
  apply NoDup_app_; [|apply NoDup_app_|].
  - apply NoDup_ix; [intros i x; cbn; repeat constructor; intros []|]. intros i j x y a Hij [<-|[]] [E|[]]. cbn in E. congruence.
  - destruct (nrad V); repeat constructor; intros [].
  - apply NoDup_ix; [intros i x; cbn; repeat constructor; cbn; intuition discriminate|]. intros i j x y a Hij Ha Hb. cbn in Ha, Hb. destruct Ha as [<-|[<-|[<-|[]]]], Hb as [E|[E|[E|[]]]]; congruence.
  - intros a Ha Hb. apply HF in Hb. destruct (nrad V); [destruct Ha as [<-|[]]; exact Hb|contradiction Ha].
  - intros a Ha Hb. apply in_map_iff in Ha as (c & <- & Hc). apply in_ixfers in Hc as (k & x & _ & [<-|[]]). apply in_app_iff in Hb as [Hb|Hb]; [|apply HF in Hb; exact Hb]. destruct (nrad V); [destruct Hb as [E|[]]; discriminate E|contradiction Hb].
Qed.
Lemma arr_dec : forall a b : arr, {a = b} + {a <> b}. Proof. repeat decide equality. Defined.
(** the result in terms of cells *)
Lemma result_written : forall A dms dmd (T S S' : store A) (R : arr -> list Z -> list Z -> Prop), (forall a x y, in_cells B V il iu jl ju kl ku a x -> (R a x y <-> y = plus x (disp a))) ->
  result dms dmd T S S' XS -> written dmd dms (in_cells B V il iu jl ju kl ku) R T S S'.
Proof.
  intros A dms dmd T S S' R HR (H1 & H2). split.
  - intros a x y Hx Hy. apply (HR a x y Hx) in Hy as ->. apply region in Hx as (rs & Hin & Hw). apply (H1 a rs (disp a) Hin), Hw.
  - intros a q Hq. destruct (in_dec arr_dec a (map (fun c => fst (fst c)) XS)) as [Hin|Hn]; [|rewrite (H2 a Hn); reflexivity].
    apply in_map_iff in Hin as ([[a' rs] d] & E & Hin). cbn in E. subst a'. pose proof (xfers_disp a rs d Hin) as ->. apply (H1 a rs (disp a) Hin). intros x Hx. assert (Hc : in_cells B V il iu jl ju kl ku a x) by (apply region; exists rs; split; assumption). apply (Hq x); [exact Hc|]. apply (HR a x _ Hc). reflexivity.
Qed.
End X.
(** sizes *)
Lemma total_app : forall p q, total (p ++ q) = total p + total q.
Proof. intros p q. induction p as [|x p IH]; [reflexivity|]. change (volume (snd x) + total (p ++ q) = volume (snd x) + total p + total q). rewrite IH. lia. Qed.
Lemma total_cc : forall n1 n2 n3 (rs : list (Z * Z)) l i, Forall (fun n => 0 <= n) l -> volume rs = n1 * n2 * n3 -> total (indexed (fun i n => [(Cc i, (0, n - 1) :: rs)]) i l) = n1 * n2 * n3 * fold_right Z.add 0 l.
Proof.
  intros n1 n2 n3 rs l i H Hv. revert i. induction H as [|n l Hn H IH]; intros i; cbn [indexed fold_right]; [cbn; lia|]. rewrite total_app, IH. change (total [(Cc i, (0, n - 1) :: rs)]) with (Z.max 0 (n - 1 - 0 + 1) * volume rs + 0). rewrite Hv. rewrite Z.max_r by lia. lia.
Qed.
Lemma total_fc : forall (f : nat -> list piece) v n i, (forall i, total (f i) = v) -> total (indexed (fun i (_ : unit) => f i) i (repeat tt n)) = Z.of_nat n * v.
Proof. intros f v n. induction n as [|n IH]; intros i H; cbn [repeat indexed]; [cbn; lia|]. rewrite total_app, H, IH by exact H. lia. Qed.
Lemma send_total : forall B V il iu jl ju kl ku n1 n2 n3, Forall (fun n => 0 <= n) (ncc V) -> (forall n, nrad V = Some n -> 0 <= n) -> 0 <= f2 B -> 0 <= f3 B -> 0 <= n1 -> 0 <= n2 -> 0 <= n3 -> iu = il + n1 - 1 -> ju = jl + n2 - 1 -> ku = kl + n3 - 1 ->
  total (send_list B V il iu jl ju kl ku) = n1 * n2 * n3 * nx4_tot V + Z.of_nat (nfc V) * ((n1 + 1) * n2 * n3 + n1 * (n2 + f2 B) * n3 + n1 * n2 * (n3 + f3 B)).
Proof.
  intros B V il iu jl ju kl ku n1 n2 n3 HV HR F2 F3 H1 H2 H3 -> -> ->. unfold send_list, nx4_tot. rewrite !total_app.
  rewrite (total_cc n1 n2 n3); [|exact HV|unfold volume; cbn [fold_right fst snd]; rewrite !Z.max_r by lia; ring].
  rewrite (total_fc _ ((n1 + 1) * n2 * n3 + n1 * (n2 + f2 B) * n3 + n1 * n2 * (n3 + f3 B))); [|intros i; unfold total, volume; cbn [fold_right fst snd]; rewrite !Z.max_r by lia; ring].
  destruct (nrad V) as [n|] eqn:En; [|cbn; lia]. specialize (HR n eq_refl). unfold total at 1, volume. cbn [fold_right fst snd]. rewrite !Z.max_r by lia. ring.
Qed.
Lemma recv_send : forall B V il iu jl ju kl ku, recv_list B V il iu jl ju kl ku = send_list B V il iu jl ju kl ku. Proof. reflexivity. Qed.
