(** Well-formed trees; root grid; refinement as a sequence of splits. *)
From Coq Require Import List Arith ZArith Bool Lia.
From Verif Require Import Loc AMR_Spec AMR_Proofs AMR_Proofs2 Tree_Model Tree_Spec Tree_Proofs1.
Import ListNotations.
Local Open Scope nat_scope.

Definition K (t : tree) (x : loc) : kd := kind (sub t (path x)).
Record wf (g : grid) (t : tree) : Prop := mkWf {
  wf_shape : shape (nleaf (gdim g)) t;
  wf_dom : forall x, canon x -> K t x <> KNull -> in_domain g x;
  wf_low : forall x, in_domain g x -> level x < groot g -> K t x = KNode;
  wf_root : forall x, in_domain g x -> level x <= groot g -> K t x <> KNull;
  wf_child : forall x j, canon x -> K t x = KNode -> groot g <= level x -> j < nleaf (gdim g) -> K t (child x j) <> KNull }.
Definition ext (t t' : tree) : Prop := forall x, canon x -> (K t x <> KNull -> K t' x <> KNull) /\ (K t x = KNode -> K t' x = KNode).
Lemma ext_refl : forall t, ext t t.
Proof. intros t x _. split; trivial. Qed.
Lemma ext_trans : forall a b c, ext a b -> ext b c -> ext a c.
Proof. intros a b c H1 H2 x Hx. destruct (H1 x Hx), (H2 x Hx). split; auto. Qed.

(** ** The domain *)
Section Domain.
Variable g : grid.
Hypothesis Vg : valid_grid g.
Lemma nleaf8 : nleaf (gdim g) <= 8.
Proof. apply nleaf_le. Qed.
Lemma dom_canon : forall x, in_domain g x -> canon x.
Proof.
  intros x H d Hd. destruct (H d Hd) as (H0 & H1 & H2). split; [exact H0|]. pose proof (pow2_pos (level x)). pose proof (pow2_pos (groot g)).
  destruct (Nat.lt_ge_cases d (gdim g)) as [Hdd|Hdd]; [|rewrite (H2 Hdd); lia]. specialize (H1 Hdd).
  destruct Vg as (_ & Hn & _). specialize (Hn d Hd). nia.
Qed.
Lemma dom_flat : forall x, in_domain g x -> flat (gdim g) x.
Proof. intros x H. split; intros Hd; [apply (H 1)|apply (H 2)]; lia. Qed.
Lemma dom_anc : forall k x, in_domain g x -> k <= level x -> in_domain g (anc k x).
Proof.
  intros k x H Hk d Hd. destruct (H d Hd) as (H0 & H1 & H2). rewrite coord_anc. pose proof (pow2_pos k). split; [apply Z.div_pos; lia|].
  split; intros Hdd.
  - specialize (H1 Hdd). cbn [anc level]. replace (level x) with (level x - k + k) in H1 by lia. rewrite Nat2Z.inj_add, Z.pow_add_r in H1 by lia.
    apply (Z.mul_lt_mono_pos_r (2 ^ Z.of_nat k)); [lia|]. pose proof (Z.mul_div_le (coord d x) (2 ^ Z.of_nat k) ltac:(lia)). pose proof (pow2_pos (groot g)). nia.
  - rewrite (H2 Hdd). apply Z.div_0_l. lia.
Qed.
Lemma bit_high : forall j i, j < 8 -> (j < 2 -> i = 1 -> bit j i = 0%Z) /\ (j < 4 -> i = 2 -> bit j i = 0%Z).
Proof. intros j i H. split; intros Hj ->; destruct j as [|[|[|[|j]]]]; try lia; reflexivity. Qed.
Lemma dom_child : forall x j, in_domain g x -> groot g <= level x -> j < nleaf (gdim g) -> in_domain g (child x j).
Proof.
  intros x j H Hr Hj d Hd. destruct (H d Hd) as (H0 & H1 & H2). rewrite coord_child. pose proof (bit_range j (if Nat.ltb d 2 then d else 2)) as Hb.
  split; [lia|]. split; intros Hdd.
  - specialize (H1 Hdd). cbn [child level]. rewrite pow2_S. pose proof (pow2_pos (groot g)).
    replace (level x) with (level x - groot g + groot g) in * by lia. rewrite Nat2Z.inj_add, Z.pow_add_r in * by lia.
    assert (coord d x < gnrb g d * 2 ^ Z.of_nat (level x - groot g))%Z by nia. nia.
  - rewrite (H2 Hdd). pose proof nleaf8. pose proof (bit_high j (if Nat.ltb d 2 then d else 2) ltac:(lia)) as [B1 B2].
    destruct Vg as (Hg & _). destruct (gdim g) as [|[|[|[|n]]]]; try lia.
    + cbn [nleaf] in Hj. destruct d as [|[|d]]; [lia| |]; cbn [Nat.ltb Nat.leb] in *; [rewrite B1 by lia|rewrite B2 by lia]; lia.
    + cbn [nleaf] in Hj. destruct d as [|[|d]]; [lia|lia|]. cbn [Nat.ltb Nat.leb] in *. rewrite B2 by lia. lia.
Qed.
Lemma dom_root : in_domain g rootloc.
Proof.
  intros d Hd. destruct Vg as (_ & Hn & _). specialize (Hn d Hd). assert (E : coord d rootloc = 0%Z) by (destruct d as [|[|d]]; reflexivity). rewrite E.
  split; [lia|]. split; [|reflexivity]. intros _. cbn [rootloc level]. change (2 ^ Z.of_nat 0)%Z with 1%Z. lia.
Qed.
Lemma dom_child_of : forall x, in_domain g x -> 1 <= level x -> exists j, j < nleaf (gdim g) /\ x = child (anc 1 x) j.
Proof. intros x H Hl. apply (child_exists (gdim g)); [apply dom_flat, H|cbn [anc level]; lia|reflexivity]. Qed.
(** the first child of a position in the domain is in the domain *)
Lemma dom_child0 : forall x, in_domain g x -> in_domain g (child x 0).
Proof.
  intros x H d Hd. destruct (H d Hd) as (H0 & H1 & H2). rewrite coord_child. assert (E : bit 0 (if Nat.ltb d 2 then d else 2) = 0%Z) by (destruct d as [|[|d]]; reflexivity).
  rewrite E. split; [lia|]. split; intros Hdd; [|rewrite (H2 Hdd); lia]. specialize (H1 Hdd). cbn [child level]. rewrite pow2_S. lia.
Qed.

(** ** K and tree structure *)
Lemma K_child : forall t x j, j < 8 -> K t (child x j) = match sub t (path x) with Node _ ch => kind (nth j ch Null) | _ => KNull end.
Proof. intros t x j Hj. unfold K. rewrite path_child, sub_app by exact Hj. destruct (sub t (path x)); reflexivity. Qed.
Lemma K_child_parent : forall t x j, j < 8 -> K t (child x j) <> KNull -> K t x = KNode.
Proof. intros t x j Hj H. rewrite K_child in H by exact Hj. unfold K. destruct (sub t (path x)); try contradiction. reflexivity. Qed.
Lemma K_parent : forall t x, 1 <= level x -> K t x <> KNull -> K t (anc 1 x) = KNode.
Proof. intros t x Hl H. rewrite (child_of x Hl) in H. apply K_child_parent in H; [exact H|apply idx_lt]. Qed.
Lemma K_anc : forall t k x, k <= level x -> 1 <= k -> K t x <> KNull -> K t (anc k x) = KNode.
Proof.
  intros t k x Hk H1 H. induction k as [|k IH]; [lia|]. destruct (Nat.eq_dec k 0) as [->|Hk0]; [apply K_parent; [lia|exact H]|].
  replace (S k) with (k + 1) by lia. rewrite <- anc_anc. apply K_parent; [cbn [anc level]; lia|]. rewrite IH by lia. discriminate.
Qed.
Lemma wf_contains_leaf : forall t a x z, K t a = KLeaf z -> contains a x -> K t x <> KNull -> a = x.
Proof.
  intros t a x z Ha [Hl E] Hx. destruct (Nat.eq_dec (level a) (level x)) as [El|El].
  - rewrite El, Nat.sub_diag, anc_0 in E. exact E.
  - assert (H : K t a = KNode) by (rewrite E; apply K_anc; [lia|lia|exact Hx]). congruence.
Qed.

(** ** Splitting one leaf *)
Definition split_at (t : tree) (l : loc) (z : Z) : tree := upd t (path l) (fun _ => Node z (repeat (Leaf z) (nleaf (gdim g)))).
Lemma nth_rep : forall j n z, nth j (repeat (Leaf z) n) Null = if Nat.ltb j n then Leaf z else Null.
Proof. induction j as [|j IH]; intros [|n] z; try reflexivity. cbn [repeat nth]. rewrite IH. reflexivity. Qed.
Lemma K_nonnull_sub : forall t x, K t x <> KNull -> sub t (path x) <> Null.
Proof. unfold K. intros t x H E. rewrite E in H. contradiction. Qed.
Lemma split_l : forall t l z, K t l <> KNull -> K (split_at t l z) l = KNode.
Proof. intros t l z H. unfold K, split_at. rewrite upd_at by (apply K_nonnull_sub, H). reflexivity. Qed.
Lemma split_child : forall t l z j, K t l <> KNull -> j < nleaf (gdim g) -> K (split_at t l z) (child l j) = KLeaf z.
Proof.
  intros t l z j H Hj. pose proof nleaf8. unfold K, split_at. rewrite path_child by lia. rewrite upd_below by (apply K_nonnull_sub, H). cbn [sub].
  rewrite nth_rep. apply Nat.ltb_lt in Hj. rewrite Hj. reflexivity.
Qed.
Lemma split_other : forall t l z z' x, K t l = KLeaf z' -> canon l -> canon x -> x <> l -> (forall j, j < nleaf (gdim g) -> x <> child l j) ->
  K (split_at t l z) x = K t x.
Proof.
  intros t l z z' x H Hl Hx Hxl Hc. unfold K in *. destruct (prefix_dec (path l) (path x)) as [(r & E)|Hn].
  - unfold split_at. rewrite E, upd_below by (apply K_nonnull_sub; unfold K; congruence). rewrite sub_app.
    destruct r as [|j r]; [rewrite app_nil_r in E; apply path_inj in E; [contradiction|exact Hx|exact Hl]|].
    destruct (sub t (path l)) as [|z0|]; try discriminate H. cbn [sub]. rewrite nth_rep. destruct (Nat.ltb_spec j (nleaf (gdim g))) as [Hj|Hj]; [|rewrite sub_null; reflexivity].
    destruct r as [|i r]; [|reflexivity]. exfalso. apply (Hc j Hj). apply path_inj; [exact Hx|apply canon_child, Hl|].
    pose proof nleaf8. rewrite path_child by lia. exact E.
  - unfold split_at. apply upd_kind. exact Hn.
Qed.
Lemma is_child_dec : forall x l, (exists j, j < nleaf (gdim g) /\ x = child l j) \/ (forall j, j < nleaf (gdim g) -> x <> child l j).
Proof.
  intros x l. destruct (in_dec loc_eq_dec x (map (child l) (seq 0 (nleaf (gdim g))))) as [H|H].
  - left. apply in_map_iff in H as (j & <- & Hj). apply in_seq in Hj. exists j. split; [lia|reflexivity].
  - right. intros j Hj ->. apply H. apply in_map_iff. exists j. split; [reflexivity|]. apply in_seq. lia.
Qed.
Lemma shape_split : forall z n, shape n (Node z (repeat (Leaf z) n)).
Proof.
  intros z n. apply shape_node; [apply repeat_length|]. intros i Hi. rewrite nth_rep. apply Nat.ltb_lt in Hi. rewrite Hi. apply shape_leaf.
Qed.
Lemma split_ext : forall t l z, K t l = KLeaf z -> canon l -> ext t (split_at t l z).
Proof.
  intros t l z H Hl x Hx. destruct (loc_eq_dec x l) as [->|Hxl]; [rewrite split_l by congruence; split; congruence|].
  destruct (is_child_dec x l) as [(j & Hj & ->)|Hc].
  - rewrite split_child by (assumption || congruence). split; [discriminate|]. intros E. exfalso. assert (K t l = KNode) by (apply (K_child_parent t l j); [pose proof nleaf8; lia|congruence]). congruence.
  - rewrite (split_other t l z z) by assumption. split; trivial.
Qed.
Lemma wf_split : forall t l z, wf g t -> K t l = KLeaf z -> canon l -> groot g <= level l -> wf g (split_at t l z).
Proof.
  intros t l z W H Hl Hr. pose proof (split_ext t l z H Hl) as He. constructor.
  - apply shape_upd; [apply W|apply K_nonnull_sub; congruence|]. apply shape_split.
  - intros x Hx Hk. destruct (loc_eq_dec x l) as [->|Hxl]; [apply (wf_dom g t W); [exact Hl|congruence]|].
    destruct (is_child_dec x l) as [(j & Hj & ->)|Hc].
    + apply dom_child; [apply (wf_dom g t W); [exact Hl|congruence]|exact Hr|exact Hj].
    + rewrite (split_other t l z z) in Hk by assumption. apply (wf_dom g t W); assumption.
  - intros x Hx Hlv. apply He; [apply dom_canon, Hx|]. apply (wf_low g t W); assumption.
  - intros x Hx Hlv. apply He; [apply dom_canon, Hx|]. apply (wf_root g t W); assumption.
  - intros x j Hx Hk Hlv Hj. destruct (loc_eq_dec x l) as [->|Hxl]; [rewrite split_child by (assumption || congruence); discriminate|].
    destruct (is_child_dec x l) as [(i & Hi & ->)|Hc]; [rewrite split_child in Hk by (assumption || congruence); discriminate Hk|].
    rewrite (split_other t l z z) in Hk by assumption. apply He; [apply canon_child, Hx|]. apply (wf_child g t W); assumption.
Qed.
(** ** Changing a stored id *)
Lemma setgid_kind : forall t p z q, kind (sub t p) = KNode -> kind (sub (upd t p (set_gid z)) q) = kind (sub t q).
Proof.
  intros t p z q H. destruct (prefix_dec p q) as [(r & ->)|Hq]; [|apply upd_kind, Hq].
  rewrite upd_below by (intros E; rewrite E in H; discriminate H). rewrite sub_app. destruct (sub t p) as [| |z' ch]; try discriminate H.
  destruct r as [|j r]; reflexivity.
Qed.
Lemma setgid_K : forall t l z x, K t l = KNode -> K (upd t (path l) (set_gid z)) x = K t x.
Proof. intros t l z x H. apply setgid_kind. exact H. Qed.
Lemma K_wf : forall t t', (forall x, K t' x = K t x) -> shape (nleaf (gdim g)) t' -> wf g t -> wf g t'.
Proof.
  intros t t' E S W. constructor.
  - exact S.
  - intros x. rewrite E. apply (wf_dom g t W).
  - intros x. rewrite E. apply (wf_low g t W).
  - intros x. rewrite E. apply (wf_root g t W).
  - intros x j. rewrite !E. apply (wf_child g t W).
Qed.
Lemma setgid_shape : forall t l z, shape (nleaf (gdim g)) t -> K t l = KNode -> shape (nleaf (gdim g)) (upd t (path l) (set_gid z)).
Proof.
  intros t l z S H. apply shape_upd; [exact S|apply K_nonnull_sub; congruence|]. unfold K in H. pose proof (shape_sub _ _ (path l) S) as Ss.
  destruct (sub t (path l)) as [| |z' ch]; try discriminate H. cbn [set_gid]. intros q z2 ch2 E. destruct q as [|j q].
  - injection E as <- <-. apply (Ss [] z' ch eq_refl).
  - apply (Ss (j :: q) z2 ch2 E).
Qed.
Lemma wf_setgid : forall t l z, wf g t -> K t l = KNode -> wf g (upd t (path l) (set_gid z)).
Proof. intros t l z W H. apply (K_wf t); [intros x; apply setgid_K, H|apply setgid_shape; [apply W|exact H]|exact W]. Qed.

(** ** Sequences of splits *)
Inductive splits (Q : loc -> Prop) : tree -> tree -> nat -> Prop :=
| sp_refl : forall t, splits Q t t 0
| sp_split : forall t l z t' k, canon l -> K t l = KLeaf z -> Q l -> splits Q (split_at t l z) t' k -> splits Q t t' (S k)
| sp_gid : forall t l t' k, K t l = KNode -> splits Q (upd t (path l) (set_gid (-1))) t' k -> splits Q t t' k.
Lemma splits_trans : forall Q a b k, splits Q a b k -> forall c m, splits Q b c m -> splits Q a c (k + m).
Proof.
  intros Q a b k H. induction H as [t|t l z t' k Hl Hk HQ H IH|t l t' k Hk H IH]; intros c m Hc.
  - exact Hc.
  - cbn [plus]. apply (sp_split Q t l z); auto.
  - apply (sp_gid Q t l); auto.
Qed.
Lemma splits_one_gid : forall Q a b l k, splits Q a b k -> K b l = KNode -> splits Q a (upd b (path l) (set_gid (-1))) k.
Proof. intros Q a b l k H Hl. rewrite <- (Nat.add_0_r k). apply (splits_trans Q a b k H). apply (sp_gid Q b l); [exact Hl|constructor]. Qed.
Lemma splits_inv : forall (Inv : tree -> Prop) (Q : loc -> Prop),
  (forall t l z, Inv t -> canon l -> K t l = KLeaf z -> Q l -> Inv (split_at t l z)) ->
  (forall t l, Inv t -> K t l = KNode -> Inv (upd t (path l) (set_gid (-1)))) ->
  forall a b k, splits Q a b k -> Inv a -> Inv b.
Proof. intros Inv Q H1 H2 a b k H. induction H as [t|t l z t' k Hl Hk HQ H IH|t l t' k Hk H IH]; intros Ha; [exact Ha| |]; apply IH; [apply H1|apply H2]; assumption. Qed.
Lemma splits_weaken : forall (Q Q' : loc -> Prop) a b k, (forall x, Q x -> Q' x) -> splits Q a b k -> splits Q' a b k.
Proof. intros Q Q' a b k HQ H. induction H as [t|t l z t' k Hl Hk Hq H IH|t l t' k Hk H IH]; [constructor|apply (sp_split Q' t l z); auto|apply (sp_gid Q' t l); auto]. Qed.
Lemma splits_ext : forall Q a b k, splits Q a b k -> ext a b.
Proof.
  intros Q a b k H. apply (splits_inv (fun t => ext a t) Q) in H; [exact H| | |apply ext_refl].
  - intros t l z He Hl Hk _. apply (ext_trans _ t _ He). apply split_ext; assumption.
  - intros t l He Hk. apply (ext_trans _ t _ He). intros x _. rewrite setgid_K by exact Hk. split; trivial.
Qed.
Lemma splits_wf : forall (Q : loc -> Prop) a b k, (forall x, Q x -> groot g <= level x) -> splits Q a b k -> wf g a -> wf g b.
Proof.
  intros Q a b k HQ H W. apply (splits_inv (wf g) Q) in H; [exact H| | |exact W].
  - intros t l z Wt Hl Hk Hq. apply wf_split; auto.
  - intros t l Wt Hk. apply wf_setgid; assumption.
Qed.
End Domain.
