(** Trees, paths and locations. *)
From Coq Require Import List Arith ZArith Bool Lia.
From Verif Require Import Loc AMR_Spec AMR_Proofs AMR_Proofs2 Tree_Model Tree_Spec.
Import ListNotations.
Local Open Scope nat_scope.

Section TreeInd.
  Variable P : tree -> Prop.
  Hypothesis HN : P Null.
  Hypothesis HL : forall g, P (Leaf g).
  Hypothesis HD : forall g ch, Forall P ch -> P (Node g ch).
  Fixpoint tree_ind' (t : tree) : P t :=
    match t with
    | Null => HN
    | Leaf g => HL g
    | Node g ch => HD g ch ((fix go ch : Forall P ch := match ch with [] => Forall_nil _ | c :: ch => Forall_cons _ (tree_ind' c) (go ch) end) ch)
    end.
End TreeInd.

(** ** Paths *)
Inductive kd := KNull | KLeaf (g : Z) | KNode.
Definition kind (t : tree) : kd := match t with Null => KNull | Leaf g => KLeaf g | Node _ _ => KNode end.
Lemma sub_null : forall p, sub Null p = Null.
Proof. intros [|n p]; reflexivity. Qed.
Lemma sub_app : forall p q t, sub t (p ++ q) = sub (sub t p) q.
Proof. induction p as [|n p IH]; intros q t; [reflexivity|]. cbn [app sub]. destruct t; try (symmetry; apply sub_null). apply IH. Qed.
Lemma upd_nth_length : forall ch n f, length (upd_nth n ch f) = length ch.
Proof. induction ch as [|c ch IH]; intros n f; [reflexivity|]. destruct n; cbn; [reflexivity|]. rewrite IH. reflexivity. Qed.
Lemma nth_upd_same : forall ch n f, n < length ch -> nth n (upd_nth n ch f) Null = f (nth n ch Null).
Proof. induction ch as [|c ch IH]; intros n f H; cbn [length] in H; [lia|]. destruct n; cbn; [reflexivity|]. apply IH. lia. Qed.
Lemma nth_upd_other : forall ch n m f, m <> n -> nth m (upd_nth n ch f) Null = nth m ch Null.
Proof.
  induction ch as [|c ch IH]; intros n m f H; [reflexivity|]. destruct n, m; cbn; try reflexivity; try lia. apply IH. lia.
Qed.
Lemma nth_nonnull : forall ch n, nth n ch Null <> Null -> n < length ch.
Proof. intros ch n H. destruct (Nat.lt_ge_cases n (length ch)) as [|Hge]; [assumption|]. rewrite nth_overflow in H by exact Hge. contradiction. Qed.
Lemma sub_nonnull_prefix : forall p q t, sub t (p ++ q) <> Null -> sub t p <> Null.
Proof. intros p q t H E. rewrite sub_app, E, sub_null in H. contradiction. Qed.
Lemma upd_below : forall p r t f, sub t p <> Null -> sub (upd t p f) (p ++ r) = sub (f (sub t p)) r.
Proof.
  induction p as [|n p IH]; intros r t f H; [reflexivity|]. cbn [app sub upd] in *. destruct t as [|g|g ch]; try contradiction.
  cbn [sub]. assert (Hn : n < length ch).
  { apply nth_nonnull. intros E. rewrite E, sub_null in H. contradiction. }
  rewrite nth_upd_same by exact Hn. apply IH. exact H.
Qed.
Lemma upd_at : forall p t f, sub t p <> Null -> sub (upd t p f) p = f (sub t p).
Proof. intros p t f H. pose proof (upd_below p [] t f H) as E. rewrite app_nil_r in E. exact E. Qed.
Lemma upd_kind : forall p q t f, (forall r, q <> p ++ r) -> kind (sub (upd t p f) q) = kind (sub t q).
Proof.
  induction p as [|n p IH]; intros q t f H; [exfalso; apply (H q); reflexivity|].
  destruct t as [|g|g ch]; try reflexivity. cbn [upd]. destruct q as [|m q]; [reflexivity|]. cbn [sub].
  destruct (Nat.eq_dec m n) as [->|Hmn].
  - destruct (Nat.lt_ge_cases n (length ch)) as [Hl|Hl].
    + rewrite nth_upd_same by exact Hl. apply IH. intros r E. apply (H r). cbn. rewrite E. reflexivity.
    + rewrite !nth_overflow; [reflexivity|exact Hl|rewrite upd_nth_length; exact Hl].
  - rewrite nth_upd_other by exact Hmn. reflexivity.
Qed.
(** a node strictly above keeps the number of its children *)
Lemma upd_len : forall p q t f g ch', (forall r, q <> p ++ r) -> sub (upd t p f) q = Node g ch' ->
  exists ch, sub t q = Node g ch /\ length ch' = length ch.
Proof.
  induction p as [|n p IH]; intros q t f g ch' H E; [exfalso; apply (H q); reflexivity|].
  destruct t as [|g0|g0 ch]; cbn [upd] in E.
  - rewrite sub_null in E. discriminate E.
  - exists ch'. split; [exact E|reflexivity].
  - destruct q as [|m q].
    + cbn [sub] in *. injection E as -> <-. exists ch. split; [reflexivity|]. apply upd_nth_length.
    + cbn [sub] in *. destruct (Nat.eq_dec m n) as [->|Hmn].
      * destruct (Nat.lt_ge_cases n (length ch)) as [Hl|Hl].
        -- rewrite nth_upd_same in E by exact Hl. apply (IH q _ f); [|exact E]. intros r E'. apply (H r). cbn. rewrite E'. reflexivity.
        -- rewrite nth_overflow, sub_null in E; [discriminate E|rewrite upd_nth_length; exact Hl].
      * rewrite nth_upd_other in E by exact Hmn. exists ch'. split; [exact E|reflexivity].
Qed.

Definition shape (n : nat) (t : tree) : Prop := forall p g ch, sub t p = Node g ch -> length ch = n.
Lemma prefix_dec : forall p q : list nat, (exists r, q = p ++ r) \/ (forall r, q <> p ++ r).
Proof.
  induction p as [|n p IH]; intros q; [left; exists q; reflexivity|]. destruct q as [|m q]; [right; intros r E; discriminate E|].
  destruct (Nat.eq_dec m n) as [->|Hmn]; [|right; intros r E; injection E as E _; contradiction].
  destruct (IH q) as [(r & ->)|H]; [left; exists r; reflexivity|right; intros r E; injection E as E; apply (H r), E].
Qed.
Lemma shape_upd : forall n t p f, shape n t -> sub t p <> Null -> shape n (f (sub t p)) -> shape n (upd t p f).
Proof.
  intros n t p f H Hp Hf q g ch E. destruct (prefix_dec p q) as [(r & ->)|Hq].
  - rewrite upd_below in E by exact Hp. exact (Hf _ _ _ E).
  - destruct (upd_len p q t f g ch Hq E) as (ch0 & E0 & ->). exact (H _ _ _ E0).
Qed.
Lemma shape_leaf : forall n g, shape n (Leaf g).
Proof. intros n g p h ch E. destruct p; discriminate E. Qed.
Lemma shape_sub : forall n t p, shape n t -> shape n (sub t p).
Proof. intros n t p H q g ch E. rewrite <- sub_app in E. exact (H _ _ _ E). Qed.
Lemma shape_node : forall n g ch, length ch = n -> (forall i, i < n -> shape n (nth i ch Null)) -> shape n (Node g ch).
Proof.
  intros n g ch Hl H p h ch' E. destruct p as [|i p]; cbn [sub] in E; [injection E as <- <-; exact Hl|].
  destruct (Nat.lt_ge_cases i n) as [Hi|Hi]; [exact (H i Hi _ _ _ E)|].
  rewrite nth_overflow, sub_null in E by lia. discriminate E.
Qed.
Lemma shape_path : forall n t p, shape n t -> sub t p <> Null -> Forall (fun i => i < n) p.
Proof.
  intros n t p. revert t. induction p as [|i p IH]; intros t H Hp; [constructor|]. cbn [sub] in Hp. destruct t as [|g|g ch]; try contradiction.
  pose proof (H [] g ch eq_refl) as Hl. constructor.
  - rewrite <- Hl. apply nth_nonnull. intros E. rewrite E, sub_null in Hp. contradiction.
  - apply (IH (nth i ch Null)); [|exact Hp]. exact (shape_sub n (Node g ch) [i] H).
Qed.

(** ** Locations and paths *)
Definition canon (x : loc) : Prop := forall d, d < 3 -> (0 <= coord d x < 2 ^ Z.of_nat (level x))%Z.
Definition descend (l : loc) (p : list nat) : loc := fold_left child p l.
Lemma testbit_2b : forall x n i k, Z.testbit (2 * x + bit n i) (Z.of_nat (S k)) = Z.testbit x (Z.of_nat k).
Proof.
  intros x n i k. rewrite Nat2Z.inj_succ. unfold bit. destruct (Nat.testbit n i).
  - apply Z.testbit_odd_succ. lia.
  - rewrite Z.add_0_r. apply Z.testbit_even_succ. lia.
Qed.
Lemma testbit_2b0 : forall x n i, Z.testbit (2 * x + bit n i) 0 = Nat.testbit n i.
Proof. intros x n i. unfold bit. destruct (Nat.testbit n i); [apply Z.testbit_odd_0|rewrite Z.add_0_r; apply Z.testbit_even_0]. Qed.
Lemma idx_child : forall l n k, k < level l -> idx (child l n) k = idx l k.
Proof.
  intros l n k H. unfold idx, child. cbn [level lx1 lx2 lx3]. replace (S (level l) - k - 1) with (S (level l - k - 1)) by lia.
  rewrite !testbit_2b. reflexivity.
Qed.
Lemma idx_last : forall l n, n < 8 -> idx (child l n) (level l) = n.
Proof.
  intros l n H. unfold idx, child. cbn [level lx1 lx2 lx3]. replace (S (level l) - level l - 1) with 0 by lia.
  change (Z.of_nat 0) with 0%Z. rewrite !testbit_2b0.
  destruct n as [|[|[|[|[|[|[|[|n]]]]]]]]; try reflexivity; lia.
Qed.
Lemma idx_lt : forall l k, idx l k < 8.
Proof. intros l k. unfold idx. repeat destruct (Z.testbit _ _); cbn; lia. Qed.
Lemma path_child : forall l n, n < 8 -> path (child l n) = path l ++ [n].
Proof.
  intros l n H. unfold path. change (level (child l n)) with (S (level l)). rewrite seq_S, map_app. cbn [plus map]. rewrite idx_last by exact H.
  f_equal. apply map_ext_in. intros k Hk. apply in_seq in Hk. apply idx_child. lia.
Qed.
Lemma path_length : forall l, length (path l) = level l.
Proof. intros l. unfold path. rewrite map_length, seq_length. reflexivity. Qed.
Lemma path_lt : forall l, Forall (fun i => i < 8) (path l).
Proof. intros l. apply Forall_forall. intros i Hi. apply in_map_iff in Hi as (k & <- & _). apply idx_lt. Qed.
Lemma level_descend : forall p l, level (descend l p) = level l + length p.
Proof. induction p as [|n p IH]; intros l; cbn [descend fold_left length]; [lia|]. unfold descend in IH. rewrite IH. cbn [child level]. lia. Qed.
Lemma path_descend : forall p l, Forall (fun i => i < 8) p -> path (descend l p) = path l ++ p.
Proof.
  induction p as [|n p IH]; intros l H; [symmetry; apply app_nil_r|]. inversion_clear H. cbn [descend fold_left]. unfold descend in IH.
  rewrite IH by assumption. rewrite path_child by assumption. rewrite <- app_assoc. reflexivity.
Qed.
Lemma descend_app : forall p q l, descend l (p ++ q) = descend (descend l p) q.
Proof. intros p q l. apply fold_left_app. Qed.
Lemma coord_child : forall d l n, coord d (child l n) = (2 * coord d l + bit n (if Nat.ltb d 2 then d else 2))%Z.
Proof. intros [|[|d]] l n; reflexivity. Qed.
Lemma pow2_S : forall k, (2 ^ Z.of_nat (S k) = 2 * 2 ^ Z.of_nat k)%Z.
Proof. intros k. rewrite Nat2Z.inj_succ, Z.pow_succ_r by lia. reflexivity. Qed.
Lemma canon_child : forall l n, canon l -> canon (child l n).
Proof.
  intros l n H d Hd. specialize (H d Hd). rewrite coord_child. cbn [child level]. rewrite pow2_S.
  pose proof (bit_range n (if Nat.ltb d 2 then d else 2)). lia.
Qed.
Lemma canon_root : canon rootloc.
Proof. intros d Hd. destruct d as [|[|d]]; cbn; lia. Qed.
Lemma canon_descend : forall p l, canon l -> canon (descend l p).
Proof. induction p as [|n p IH]; intros l H; [exact H|]. cbn [descend fold_left]. apply IH, canon_child, H. Qed.
Lemma canon_level0 : forall x, canon x -> level x = 0 -> x = rootloc.
Proof.
  intros [v x y z] H E. cbn [level] in E. subst v. pose proof (H 0 ltac:(lia)) as H0. pose proof (H 1 ltac:(lia)) as H1. pose proof (H 2 ltac:(lia)) as H2.
  cbn in *. unfold rootloc. f_equal; lia.
Qed.
Lemma coord_anc : forall d k l, coord d (anc k l) = (coord d l / 2 ^ Z.of_nat k)%Z.
Proof. intros [|[|d]] k l; reflexivity. Qed.
Lemma child_of : forall x, 1 <= level x -> x = child (anc 1 x) (idx x (level x - 1)).
Proof.
  intros [v x y z] H. cbn [level] in H. unfold anc, child. cbn [level lx1 lx2 lx3]. change (2 ^ Z.of_nat 1)%Z with 2%Z.
  assert (Hb : forall w, w = (2 * (w / 2) + (if Z.testbit w 0 then 1 else 0))%Z).
  { intros w. rewrite Z.bit0_odd, <- Zmod_odd. apply Z.div_mod. lia. }
  unfold idx. cbn [level lx1 lx2 lx3]. replace (v - (v - 1) - 1) with 0 by lia. change (Z.of_nat 0) with 0%Z.
  pose proof (Hb x) as Hx. pose proof (Hb y) as Hy. pose proof (Hb z) as Hz.
  f_equal; [lia| | |]; destruct (Z.testbit x 0), (Z.testbit y 0), (Z.testbit z 0); cbn [plus mult]; unfold bit; cbn [Nat.testbit Nat.odd Nat.even Nat.div2 negb plus mult]; assumption.
Qed.
Lemma path_anc1 : forall x, 1 <= level x -> path x = path (anc 1 x) ++ [idx x (level x - 1)].
Proof. intros x H. rewrite (child_of x H) at 1. apply path_child, idx_lt. Qed.
Lemma canon_anc : forall k x, canon x -> k <= level x -> canon (anc k x).
Proof.
  intros k x H Hk d Hd. specialize (H d Hd). rewrite coord_anc. cbn [anc level]. pose proof (pow2_pos k). split.
  - apply Z.div_pos; lia.
  - apply Z.div_lt_upper_bound; [lia|]. rewrite <- Z.pow_add_r by lia. replace (Z.of_nat k + Z.of_nat (level x - k))%Z with (Z.of_nat (level x)) by lia. lia.
Qed.
Lemma descend_path : forall n x, level x = n -> canon x -> descend rootloc (path x) = x.
Proof.
  induction n as [|n IH]; intros x Hl H.
  - rewrite (canon_level0 x H Hl). reflexivity.
  - rewrite path_anc1, descend_app by lia. rewrite (IH (anc 1 x)); [|cbn [anc level]; lia|apply canon_anc; [exact H|lia]].
    cbn [descend fold_left]. symmetry. apply child_of. lia.
Qed.
Lemma path_inj : forall a b, canon a -> canon b -> path a = path b -> a = b.
Proof. intros a b Ha Hb E. rewrite <- (descend_path _ a eq_refl Ha), <- (descend_path _ b eq_refl Hb), E. reflexivity. Qed.
Lemma path_anc : forall k x, k <= level x -> exists r, path x = path (anc k x) ++ r /\ length r = k.
Proof.
  induction k as [|k IH]; intros x H.
  - exists []. rewrite anc_0, app_nil_r. split; reflexivity.
  - destruct (IH x ltac:(lia)) as (r & E & Hr). exists (idx (anc k x) (level (anc k x) - 1) :: r). split; [|cbn; lia].
    rewrite E, path_anc1 by (cbn [anc level]; lia). rewrite anc_anc, <- app_assoc. replace (k + 1) with (S k) by lia. reflexivity.
Qed.
Lemma path_rootloc : path rootloc = [].
Proof. reflexivity. Qed.
Lemma prefix_contains : forall a x r, canon a -> canon x -> path x = path a ++ r -> contains a x.
Proof.
  intros a x r Ha Hx E. assert (Hl : level x = level a + length r) by (rewrite <- (path_length x), E, app_length, path_length; reflexivity).
  split; [lia|]. destruct (path_anc (level x - level a) x ltac:(lia)) as (r' & E' & Hr').
  apply path_inj; [exact Ha|apply canon_anc; [exact Hx|lia]|]. rewrite E in E'.
  assert (Hlen : length (path a) = length (path (anc (level x - level a) x))) by (rewrite !path_length; cbn [anc level]; lia).
  revert E' Hlen. generalize (path a), (path (anc (level x - level a) x)). clear. intros p. induction p as [|i p IH]; intros [|j q] E H; cbn in *; try lia; [reflexivity|].
  injection E as -> E. f_equal. apply IH; [exact E|lia].
Qed.
Lemma contains_prefix : forall a x, contains a x -> exists r, path x = path a ++ r.
Proof. intros a x [H E]. destruct (path_anc (level x - level a) x ltac:(lia)) as (r & E' & _). exists r. rewrite <- E in E'. exact E'. Qed.
Lemma canon_flat_anc_eq : forall k x, ancl (level x - k) x = anc k x \/ level x < k.
Proof.
  intros k x. destruct (Nat.lt_ge_cases (level x) k) as [|H]; [right; assumption|left]. unfold ancl, anc.
  replace (level x - (level x - k)) with k by lia. rewrite !Z.shiftr_div_pow2 by lia. reflexivity.
Qed.
Lemma ancl_anc : forall k x, k <= level x -> ancl k x = anc (level x - k) x.
Proof. intros k x H. destruct (canon_flat_anc_eq (level x - k) x) as [E|E]; [|lia]. rewrite <- E. f_equal. lia. Qed.
