From Coq Require Import List Arith ZArith Bool Lia.
From Verif Require Import Arr_Model Arr_Spec.
Import ListNotations.
Local Open Scope Z_scope.

(** ** Enumeration *)
Lemma zrange_length : forall a b, length (zrange a b) = Z.to_nat (b - a + 1).
Proof. intros. unfold zrange. rewrite map_length, seq_length. reflexivity. Qed.
Lemma zrange_nth : forall a b k, (k < Z.to_nat (b - a + 1))%nat -> nth_error (zrange a b) k = Some (a + Z.of_nat k).
Proof.
  intros a b k H. unfold zrange. rewrite nth_error_map. rewrite (nth_error_nth' _ 0%nat) by (rewrite seq_length; exact H). rewrite seq_nth by exact H. cbn. do 2 f_equal. 
Qed.
Lemma in_zrange : forall a b x, In x (zrange a b) <-> a <= x <= b.
Proof.
  intros a b x. unfold zrange. rewrite in_map_iff. split.
  - intros (k & <- & Hk). apply in_seq in Hk. lia.
  - intros H. exists (Z.to_nat (x - a)). split; [lia|]. apply in_seq. lia.
Qed.
Lemma flat_map_nth : forall {A B} (f : A -> list B) n (l : list A) k r x,
  (forall a, In a l -> length (f a) = n) -> nth_error l k = Some x -> (r < n)%nat -> nth_error (flat_map f l) (k * n + r) = nth_error (f x) r.
Proof.
  intros A B f n l. induction l as [|y l IH]; intros k r x HL Hk Hr; [destruct k; discriminate Hk|]. cbn [flat_map]. pose proof (HL y (or_introl eq_refl)) as Ly. destruct k as [|k].
  - cbn in Hk. injection Hk as ->. rewrite nth_error_app1 by lia. reflexivity.
  - rewrite nth_error_app2 by (rewrite Ly; nia). rewrite Ly. replace (S k * n + r - n)%nat with (k * n + r)%nat by nia. apply IH; [intros a Ha; apply HL; right; exact Ha|exact Hk|exact Hr].
Qed.
Lemma flat_map_len : forall {A B} (f : A -> list B) n (l : list A), (forall a, In a l -> length (f a) = n) -> length (flat_map f l) = (length l * n)%nat.
Proof. intros A B f n l. induction l as [|y l IH]; intros HL; [reflexivity|]. cbn [flat_map length]. rewrite app_length, HL by (left; reflexivity). rewrite IH by (intros a Ha; apply HL; right; exact Ha). lia. Qed.
Definition count (rs : list (Z * Z)) : Z := fold_right (fun r n => Z.max 0 (snd r - fst r + 1) * n) 1 rs.
Lemma count_nonneg : forall rs, 0 <= count rs.
Proof. induction rs as [|[a b] rs IH]; cbn [count fold_right]; [lia|]. unfold count in IH. cbn. nia. Qed.
Lemma tuples_length : forall rs, length (tuples rs) = Z.to_nat (count rs).
Proof.
  induction rs as [|[a b] rs IH]; [reflexivity|]. cbn [tuples]. rewrite (flat_map_len _ (Z.to_nat (count rs))) by (intros; rewrite map_length; exact IH). rewrite zrange_length. pose proof (count_nonneg rs). change (count ((a, b) :: rs)) with (Z.max 0 (b - a + 1) * count rs). rewrite Z2Nat.inj_mul by lia. f_equal. lia.
Qed.
(** position of a tuple *)
Fixpoint pos (rs : list (Z * Z)) (x : list Z) : Z := match rs, x with (a, b) :: rs, i :: x => (i - a) * count rs + pos rs x | _, _ => 0 end.
Definition inr (rs : list (Z * Z)) (x : list Z) : Prop := Forall2 (fun r i => fst r <= i <= snd r) rs x.
Lemma pos_range : forall rs x, inr rs x -> 0 <= pos rs x < count rs.
Proof.
  intros rs x H. induction H as [|[a b] i rs x Hi H IH]; [cbn; lia|]. cbn [pos]. change (count ((a, b) :: rs)) with (Z.max 0 (b - a + 1) * count rs). cbn in Hi. rewrite Z.max_r by lia. nia.
Qed.
Lemma tuples_nth : forall rs x, inr rs x -> nth_error (tuples rs) (Z.to_nat (pos rs x)) = Some x.
Proof.
  intros rs x H. induction H as [|[a b] i rs x Hi H IH]; [reflexivity|]. cbn [pos tuples]. cbn in Hi. pose proof (pos_range rs x H) as P.
  rewrite Z2Nat.inj_add by nia. rewrite Z2Nat.inj_mul by lia. rewrite (flat_map_nth _ (Z.to_nat (count rs)) _ _ _ i).
  - rewrite nth_error_map, IH. reflexivity.
  - intros y _. rewrite map_length. apply tuples_length.
  - rewrite zrange_nth by lia. f_equal. lia.
  - lia.
Qed.
Lemma in_tuples : forall rs x, In x (tuples rs) <-> inr rs x.
Proof.
  induction rs as [|[a b] rs IH]; intros x; cbn [tuples].
  - split; [intros [<-|[]]; constructor|intros H; inversion H; left; reflexivity].
  - rewrite in_flat_map. split.
    + intros (i & Hi & Hx). apply in_map_iff in Hx as (y & <- & Hy). constructor; [apply in_zrange in Hi; exact Hi|apply IH, Hy].
    + intros H. inversion H as [|? i ? y Hi Hy]; subst. exists i. split; [apply in_zrange; exact Hi|]. apply in_map, IH, Hy.
Qed.
Lemma NoDup_app_ : forall {A} (l m : list A), NoDup l -> NoDup m -> (forall x, In x l -> In x m -> False) -> NoDup (l ++ m).
Proof.
  intros A l m Hl Hm HD. induction Hl as [|x l Hx Hl IH]; [exact Hm|]. cbn. constructor; [|apply IH; intros y Hy; apply HD; right; exact Hy].
  rewrite in_app_iff. intros [H|H]; [contradiction|]. apply (HD x); [left; reflexivity|exact H].
Qed.
Lemma NoDup_cons_map : forall (l : list Z) (t : list (list Z)), NoDup l -> NoDup t -> NoDup (flat_map (fun x => map (cons x) t) l).
Proof.
  intros l t Hl Ht. induction Hl as [|x l Hx Hl IH]; [constructor|]. cbn [flat_map]. apply NoDup_app_; [|exact IH|].
  - clear - Ht. induction Ht as [|y t Hy Ht IH]; [constructor|]. cbn. constructor; [|exact IH]. rewrite in_map_iff. intros (z & E & Hz). injection E as ->. contradiction.
  - intros y Hy Hf. apply in_map_iff in Hy as (z & <- & Hz). apply in_flat_map in Hf as (w & Hw & Hz'). apply in_map_iff in Hz' as (z' & E & _). injection E as -> _. contradiction.
Qed.
Lemma zrange_NoDup : forall a b, NoDup (zrange a b).
Proof. intros a b. unfold zrange. generalize (seq_NoDup (Z.to_nat (b - a + 1)) 0). generalize (seq 0 (Z.to_nat (b - a + 1))). intros l H. induction H as [|x l Hx H IH]; [constructor|]. cbn. constructor; [|exact IH]. rewrite in_map_iff. intros (y & E & Hy). assert (x = y) by lia. congruence. Qed.
Lemma tuples_NoDup : forall rs, NoDup (tuples rs).
Proof. induction rs as [|[a b] rs IH]; cbn [tuples]; [constructor; [intros []|constructor]|]. apply NoDup_cons_map; [apply zrange_NoDup|exact IH]. Qed.
Lemma pos_inj : forall rs x y, inr rs x -> inr rs y -> pos rs x = pos rs y -> x = y.
Proof. intros rs x y Hx Hy E. pose proof (tuples_nth rs x Hx) as A. pose proof (tuples_nth rs y Hy) as B. rewrite E in A. congruence. Qed.

(** ** Offsets *)
Lemma inr_from0 : forall ns x, inr (from0 ns) x <-> Forall2 (fun i n => 0 <= i < n) x ns.
Proof.
  intros ns. induction ns as [|n ns IH]; intros x; cbn [from0 map]; split; intros H; inversion H; subst; constructor; cbn in *; try lia; try (apply IH; assumption).
Qed.
Definition horner (ns x : list Z) : Z := fold_left (fun acc r => acc * fst r + snd r) (combine ns x) 0.
Lemma count_from0 : forall ns, Forall (fun n => 0 <= n) ns -> count (from0 ns) = fold_right Z.mul 1 ns.
Proof. intros ns H. induction H as [|n ns Hn H IH]; [reflexivity|]. cbn [from0 map]. change (count ((0, n - 1) :: map (fun n => (0, n - 1)) ns)) with (Z.max 0 (n - 1 - 0 + 1) * count (from0 ns)). rewrite IH. cbn [fold_right]. rewrite Z.max_r by lia. f_equal. lia. Qed.
Lemma pos6 : forall D p m n k j i, inr (from0 (extents D)) [p; m; n; k; j; i] -> pos (from0 (extents D)) [p; m; n; k; j; i] = at6 D p m n k j i.
Proof.
  intros [a b c d e f] p m n k j i H. apply inr_from0 in H. unfold extents in *. cbn [nx1 nx2 nx3 nx4 nx5 nx6] in *. repeat match goal with H : Forall2 _ (_ :: _) _ |- _ => inversion H; clear H; subst end.
  cbn [from0 map pos]. rewrite !Z.sub_0_r.
  unfold count. cbn [fold_right fst snd]. rewrite !Z.max_r by lia. unfold at6. cbn [nx1 nx2 nx3 nx4 nx5]. ring.
Qed.
Lemma size_count : forall D, nonneg D -> size D = count (from0 (extents D)).
Proof. intros [a b c d e f] (H1 & H2 & H3 & H4 & H5 & H6). cbn [nx1 nx2 nx3 nx4 nx5 nx6] in *. unfold extents. cbn [nx1 nx2 nx3 nx4 nx5 nx6]. rewrite count_from0 by (repeat constructor; assumption). unfold size. cbn. ring. Qed.
Lemma elem_pos : forall D x, inrange D x -> elem D x = pos (from0 (extents D)) x.
Proof.
  intros D x H. pose proof (proj2 (inr_from0 _ _) H) as H'. unfold inrange, extents in H. repeat match goal with H : Forall2 _ _ (_ :: _) |- _ => inversion H; clear H; subst end. match goal with H : Forall2 _ _ [] |- _ => inversion H; subst end.
  cbn [elem]. symmetry. apply pos6. exact H'.
Qed.
Lemma inrange_nonneg : forall D x, inrange D x -> nonneg D.
Proof. intros [a b c d e f] x H. unfold inrange, extents in H. cbn in H. repeat match goal with H : Forall2 _ _ (_ :: _) |- _ => inversion H; clear H; subst end. unfold nonneg. cbn. lia. Qed.
Lemma elem_nth : forall D x, inrange D x -> 0 <= elem D x < size D /\ nth_error (tuples (from0 (extents D))) (Z.to_nat (elem D x)) = Some x.
Proof.
  intros D x H. rewrite (elem_pos D x H), (size_count D (inrange_nonneg D x H)). pose proof (proj2 (inr_from0 _ _) H) as H'. split; [apply pos_range, H'|apply tuples_nth, H'].
Qed.
Lemma elem_inj : forall D x y, inrange D x -> inrange D y -> elem D x = elem D y -> x = y.
Proof. intros D x y Hx Hy E. destruct (elem_nth D x Hx) as [_ A]. destruct (elem_nth D y Hy) as [_ B]. rewrite E in A. congruence. Qed.
Lemma elem_surj : forall D e, nonneg D -> 0 <= e < size D -> exists x, inrange D x /\ elem D x = e.
Proof.
  intros D e HD He. destruct (nth_error (tuples (from0 (extents D))) (Z.to_nat e)) as [x|] eqn:E.
  - exists x. assert (Hx : inrange D x) by (apply inr_from0, in_tuples, (nth_error_In _ _ E)). split; [exact Hx|]. destruct (elem_nth D x Hx) as [R N].
    assert (Z.to_nat (elem D x) = Z.to_nat e); [|lia]. pose proof (tuples_NoDup (from0 (extents D))) as ND. rewrite NoDup_nth_error in ND. apply ND; [apply nth_error_Some; congruence|congruence].
  - apply nth_error_None in E. rewrite tuples_length, <- (size_count D HD) in E. lia.
Qed.

(** ** Slices *)
Lemma slice_elem : forall D dim indx nvar, 1 <= dim <= 6 -> 0 <= indx -> indx + nvar <= extent D dim -> nonneg D -> 
  exists d D', slice D dim indx nvar = Some (d, D') /\ extent D' dim = nvar /\
   (forall dim', 1 <= dim' <= 6 -> dim' < dim -> extent D' dim' = extent D dim') /\ (forall dim', 1 <= dim' <= 6 -> dim < dim' -> extent D' dim' = 1) /\
   forall x, inrange D' x -> d + elem D' x = elem D (bump dim indx x).
Proof.
  intros [a b c d e f] dim indx nvar Hd Hi Hn HD. assert (Hc : dim = 1 \/ dim = 2 \/ dim = 3 \/ dim = 4 \/ dim = 5 \/ dim = 6) by lia.
  destruct Hc as [->|[->|[->|[->|[->| ->]]]]]; do 2 eexists; (split; [reflexivity|]); (split; [reflexivity|]); (split; [|split]).
  all: try (intros dim' R L; assert (Hc : dim' = 1 \/ dim' = 2 \/ dim' = 3 \/ dim' = 4 \/ dim' = 5 \/ dim' = 6) by lia; destruct Hc as [->|[->|[->|[->|[->| ->]]]]]; reflexivity || lia).
  all: intros x H; unfold inrange, extents in H; cbn [nx1 nx2 nx3 nx4 nx5 nx6] in H; repeat match goal with H : Forall2 _ _ (_ :: _) |- _ => inversion H; clear H; subst end; match goal with H : Forall2 _ _ [] |- _ => inversion H; subst end.
  all: cbn [elem bump Z.eqb Pos.eqb]; unfold at6; cbn [nx1 nx2 nx3 nx4 nx5 nx6].
  all: repeat match goal with H : 0 <= ?i < 1 |- _ => assert (i = 0) by lia; clear H; subst i end; ring.
Qed.
Lemma pencil_elem : forall D k j il n i, fst (pencil D k j il n) + at1 (snd (pencil D k j il n)) i = at3 D k j (il + i).
Proof. intros. unfold pencil, at1, at3. cbn. ring. Qed.
Lemma fewer_indices : forall D n k j i m, at1 D i = at6 D 0 0 0 0 0 i /\ at2 D j i = at6 D 0 0 0 0 j i /\ at3 D k j i = at6 D 0 0 0 k j i /\ at4 D n k j i = at6 D 0 0 n k j i /\ at5 D m n k j i = at6 D 0 m n k j i.
Proof. intros. unfold at1, at2, at3, at4, at5, at6. repeat split; ring. Qed.

(** ** Ownership *)
Lemma set_length : forall {A} (l : list A) n x, length (set l n x) = length l.
Proof. intros A l. induction l as [|y l IH]; intros [|n] x; cbn; [reflexivity|reflexivity|reflexivity|]. rewrite IH. reflexivity. Qed.
Lemma set_same : forall {A} (l : list A) n x, (n < length l)%nat -> nth_error (set l n x) n = Some x.
Proof. intros A l. induction l as [|y l IH]; intros [|n] x H; cbn in *; [lia|lia|reflexivity|]. apply IH. lia. Qed.
Lemma set_other : forall {A} (l : list A) n x k, k <> n -> nth_error (set l n x) k = nth_error l k.
Proof. intros A l. induction l as [|y l IH]; intros [|n] x [|k] H; cbn; try reflexivity; [congruence|]. apply IH. congruence. Qed.
Lemma nth_lt : forall {A} (l : list A) n x, nth_error l n = Some x -> (n < length l)%nat.
Proof. intros. apply nth_error_Some. congruence. Qed.
Lemma set_cases : forall {A} (l : list A) n x k y, (n < length l)%nat -> nth_error (set l n x) k = Some y -> (k = n /\ y = x) \/ (k <> n /\ nth_error l k = Some y).
Proof. intros A l n x k y Hn H. destruct (Nat.eq_dec k n) as [->|Hk]; [rewrite set_same in H by exact Hn; left; split; congruence|rewrite set_other in H by exact Hk; right; split; assumption]. Qed.
Lemma app_cases : forall {A} (l : list A) x k y, nth_error (l ++ [x]) k = Some y -> (k = length l /\ y = x) \/ ((k < length l)%nat /\ nth_error l k = Some y).
Proof.
  intros A l x k y H. destruct (Nat.lt_ge_cases k (length l)) as [Hk|Hk]; [rewrite nth_error_app1 in H by exact Hk; right; split; assumption|].
  rewrite nth_error_app2 in H by exact Hk. left. destruct (k - length l)%nat as [|r] eqn:E; [cbn in H; split; [lia|congruence]|destruct r; discriminate H].
Qed.
Lemma app_last : forall {A} (l : list A) x, nth_error (l ++ [x]) (length l) = Some x.
Proof. intros. rewrite nth_error_app2 by lia. rewrite Nat.sub_diag. reflexivity. Qed.
Lemma app_old : forall {A} (l : list A) x k y, nth_error l k = Some y -> nth_error (l ++ [x]) k = Some y.
Proof. intros A l x k y H. rewrite nth_error_app1 by (apply (nth_lt _ _ _ H)). exact H. Qed.

Definition okobj (h : list (option Z)) (o : obj) : Prop :=
  match st o with
  | Sempty => pdata o = Pnull
  | Sslice => pdata o <> Pindet
  | Salloc => exists b, pdata o = Pto b 0 /\ nth_error h b = Some (Some (size (ext o)))
  | Sindet => False
  end.
Definition own (w : world) (i b : nat) : Prop := exists o, nth_error (objs w) i = Some (Some o) /\ st o = Salloc /\ pdata o = Pto b 0.
Definition Inv (w : world) : Prop :=
  (forall i o, nth_error (objs w) i = Some (Some o) -> okobj (heap w) o) /\
  (forall b n, nth_error (heap w) b = Some (Some n) -> exists i, own w i b) /\
  (forall i j b, own w i b -> own w j b -> i = j).
Lemma Inv_own : forall w, Inv w -> ownership w.
Proof.
  intros w (I1 & I2 & I3). assert (OB : forall i b, own w i b -> owns_block w i b).
  { intros i b (o & H1 & H2 & H3). exists o. split; [exact H1|]. split; [exact H2|]. split; [exact H3|]. specialize (I1 i o H1). unfold okobj in I1. rewrite H2 in I1. destruct I1 as (b' & E & Hb). rewrite E in H3. injection H3 as ->. exact Hb. }
  assert (BO : forall i b, owns_block w i b -> own w i b) by (intros i b (o & H1 & H2 & H3 & _); exists o; repeat split; assumption).
  split; [|split].
  - intros b n H. destruct (I2 b n H) as (i & Hi). exists i. apply OB, Hi.
  - intros i j b Hi Hj. apply (I3 i j b); apply BO; assumption.
  - intros i o Ho HO. pose proof (I1 i o Ho) as K. unfold okobj in K. rewrite HO in K. destruct K as (b & E & _). exists b. apply OB. exists o. repeat split; assumption.
Qed.
Lemma getobj_nth : forall w i o, getobj w i = Some o <-> nth_error (objs w) i = Some (Some o).
Proof. intros w i o. unfold getobj. destruct (nth_error (objs w) i) as [[o'|]|]; split; congruence. Qed.
