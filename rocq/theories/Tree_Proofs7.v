(** Groups of siblings, the refinement and derefinement phases of one update. *)
From Coq Require Import List Arith ZArith Bool Lia Permutation.
From Verif Require Import Loc AMR_Spec AMR_Proofs AMR_Proofs2 Tree_Model Tree_Spec Tree_Proofs1 Tree_Proofs2 Tree_Proofs3 Tree_Proofs4 Tree_Proofs5 Tree_Proofs6.
Import ListNotations.
Local Open Scope nat_scope.

(** ** Sibling groups *)
Definition shiftl_ (n : loc) (o : Z * Z * Z) : loc := let '(i, j, k) := o in mkLoc (level n) (lx1 n + i) (lx2 n + j) (lx3 n + k).
Lemma matches_le : forall n os rest, matches n os rest <= length os.
Proof.
  intros n os. induction os as [|[[i j] k] os IH]; intros rest; [reflexivity|]. destruct rest as [|r rest]; cbn [matches length]; [lia|]. specialize (IH rest).
  destruct (_ && _); cbn; lia.
Qed.
Lemma matches_full : forall n os rest, matches n os rest = length os -> exists post, rest = map (shiftl_ n) os ++ post.
Proof.
  intros n os. induction os as [|[[i j] k] os IH]; intros rest H; [exists rest; reflexivity|]. destruct rest as [|r rest]; cbn [matches length] in H; [discriminate H|].
  pose proof (matches_le n os rest) as Hl. destruct (_ && _) eqn:E in H; [|cbn in H; lia]. destruct (IH rest) as (post & ->); [cbn in H; lia|]. exists post. cbn [map app]. f_equal.
  rewrite !andb_true_iff in E. destruct E as (((E1 & E2) & E3) & E4). apply Z.eqb_eq in E1, E2, E3. apply Nat.eqb_eq in E4. destruct r as [v x y z]. cbn [shiftl_ level lx1 lx2 lx3] in *. congruence.
Qed.
Lemma matches_exact : forall n os post, matches n os (map (shiftl_ n) os ++ post) = length os.
Proof.
  intros n os post. induction os as [|[[i j] k] os IH]; [destruct post; reflexivity|]. cbn [matches map app shiftl_ length level lx1 lx2 lx3]. rewrite !Z.eqb_refl, Nat.eqb_refl, IH. reflexivity.
Qed.
Lemma sib_length : forall g, valid_grid g -> length (sibling_offsets g) = nleaf (gdim g).
Proof. intros g (Hd & _). unfold sibling_offsets. destruct (gdim g) as [|[|[|[|n]]]]; try lia; reflexivity. Qed.
Lemma half_even : forall x, Z.testbit x 0 = false -> (2 * Z.shiftr x 1 = x)%Z.
Proof. intros x H. rewrite Z.shiftr_div_pow2 by lia. change (2 ^ 1)%Z with 2%Z. pose proof (Z.div_mod x 2 ltac:(lia)) as E. rewrite Zmod_odd, <- Z.bit0_odd, H in E. lia. Qed.
Lemma sib_children : forall g n, valid_grid g -> even_loc n = true -> 1 <= level n -> map (shiftl_ n) (sibling_offsets g) = children (gdim g) (loc_parent n).
Proof.
  intros g [v x y z] (Hd & _) He Hv. unfold even_loc in He. rewrite !andb_true_iff, !negb_true_iff in He. cbn [lx1 lx2 lx3 level] in *. destruct He as ((E1 & E2) & E3).
  assert (C : forall j, child (loc_parent (mkLoc v x y z)) j = mkLoc v (x + bit j 0) (y + bit j 1) (z + bit j 2)).
  { intros j. unfold child, loc_parent. cbn [level lx1 lx2 lx3]. rewrite !half_even by assumption. f_equal. lia. }
  unfold children. rewrite (map_ext _ _ C). unfold sibling_offsets. destruct (gdim g) as [|[|[|[|n]]]]; try lia; reflexivity.
Qed.
Lemma even_child0 : forall l, even_loc (child l 0) = true.
Proof.
  intros l. unfold even_loc, child. cbn [lx1 lx2 lx3]. change (bit 0 0) with 0%Z. change (bit 0 1) with 0%Z. change (bit 0 2) with 0%Z. rewrite !Z.add_0_r, !Z.testbit_even_0. reflexivity.
Qed.
Lemma parent_child : forall l j, loc_parent (child l j) = l.
Proof.
  intros [v x y z] j. unfold loc_parent, child. cbn [level lx1 lx2 lx3]. rewrite !Z.shiftr_div_pow2 by lia. change (2 ^ 1)%Z with 2%Z.
  pose proof (bit_range j 0). pose proof (bit_range j 1). pose proof (bit_range j 2).
  f_equal; [lia| | |]; symmetry; [apply (Z.div_unique _ _ _ (bit j 0))|apply (Z.div_unique _ _ _ (bit j 1))|apply (Z.div_unique _ _ _ (bit j 2))]; lia.
Qed.
Lemma children_cons : forall dim l, exists cs, children dim l = child l 0 :: cs.
Proof. intros dim l. unfold children. destruct dim as [|[|[|d]]]; cbn [nleaf seq map]; eexists; reflexivity. Qed.
Lemma groups_spec : forall g ls l, valid_grid g -> (forall n, In n ls -> 1 <= level n) -> (In l (groups g ls) <-> exists pre post, ls = pre ++ children (gdim g) l ++ post).
Proof.
  intros g ls l Vg. induction ls as [|n ls IH]; intros Hl.
  - split; [intros []|]. intros (pre & post & E). destruct (children_cons (gdim g) l) as (cs & Ec). rewrite Ec in E. destruct pre; discriminate E.
  - cbn [groups]. rewrite in_app_iff, IH by (intros m Hm; apply Hl; right; exact Hm). split.
    + intros [H|(pre & post & ->)]; [|exists (n :: pre), post; reflexivity].
      destruct (even_loc n) eqn:He; [|destruct H]. cbn [andb] in H. destruct (Nat.eqb_spec (matches n (sibling_offsets g) (n :: ls)) (nleaf (gdim g))) as [E|]; [|destruct H].
      destruct H as [<-|[]]. rewrite <- sib_length in E by exact Vg. destruct (matches_full _ _ _ E) as (post & Ep). exists [], post. cbn [app].
      rewrite <- sib_children by (assumption || (apply Hl; left; reflexivity)). exact Ep.
    + intros (pre & post & E). destruct pre as [|p pre].
      * left. cbn [app] in E. destruct (children_cons (gdim g) l) as (cs & Ec). rewrite Ec in E. cbn [app] in E. injection E as -> E.
        rewrite even_child0. cbn [andb]. assert (Em : matches (child l 0) (sibling_offsets g) (child l 0 :: ls) = nleaf (gdim g)).
        { rewrite <- sib_length by exact Vg. rewrite <- (matches_exact (child l 0) (sibling_offsets g) post). f_equal.
          rewrite sib_children by (assumption || apply even_child0 || (cbn [child level]; lia)). rewrite parent_child, Ec, E. reflexivity. }
        rewrite Em, Nat.eqb_refl, parent_child. left. reflexivity.
      * right. injection E as _ E. exists pre, post. exact E.
Qed.
Lemma in_children : forall dim l c, In c (children dim l) <-> exists j, j < nleaf dim /\ c = child l j.
Proof.
  intros dim l c. unfold children. rewrite in_map_iff. split.
  - intros (j & <- & Hj). apply in_seq in Hj. exists j. split; [lia|reflexivity].
  - intros (j & Hj & ->). exists j. split; [reflexivity|apply in_seq; lia].
Qed.
Lemma groups_children : forall g ls l, valid_grid g -> (forall n, In n ls -> 1 <= level n) -> In l (groups g ls) -> forall c, In c (children (gdim g) l) -> In c ls.
Proof. intros g ls l Vg Hl H c Hc. apply groups_spec in H as (pre & post & ->); try assumption. rewrite !in_app_iff. tauto. Qed.
Lemma groups_first : forall g ls l, valid_grid g -> (forall n, In n ls -> 1 <= level n) -> In l (groups g ls) -> In (child l 0) ls.
Proof. intros g ls l Vg Hl H. apply (groups_children g ls l Vg Hl H). apply in_children. exists 0. split; [pose proof (nleaf_pos (gdim g)); lia|reflexivity]. Qed.
Lemma groups_nodup : forall g ls, valid_grid g -> (forall n, In n ls -> 1 <= level n) -> NoDup ls -> NoDup (groups g ls).
Proof.
  intros g ls Vg. induction ls as [|n ls IH]; intros Hl Hnd; [constructor|]. inversion Hnd as [|? ? Hni Hnd' E1]; subst. cbn [groups].
  assert (Hl' : forall m, In m ls -> 1 <= level m) by (intros m Hm; apply Hl; right; exact Hm). specialize (IH Hl' Hnd').
  destruct (even_loc n) eqn:He; [|exact IH]. cbn [andb]. destruct (Nat.eqb _ _) eqn:E; [|exact IH]. cbn [app]. constructor; [|exact IH]. intros Hin.
  apply groups_first in Hin; try assumption. apply Hni. assert (Ec : n = child (loc_parent n) 0); [|rewrite Ec; exact Hin].
  apply Nat.eqb_eq in E. rewrite <- sib_length in E by exact Vg. destruct (matches_full _ _ _ E) as (post & Ep).
  rewrite (sib_children g n Vg He (Hl n (or_introl eq_refl))) in Ep. destruct (children_cons (gdim g) (loc_parent n)) as (cs & Ec). rewrite Ec in Ep. injection Ep as Ep _. exact Ep.
Qed.
Lemma child_inj : forall l l' j j', j < 8 -> j' < 8 -> child l j = child l' j' -> l = l' /\ j = j'.
Proof.
  intros l l' j j' Hj Hj' E. assert (El : l = l') by (rewrite <- (parent_child l j), E; apply parent_child). subst l'. split; [reflexivity|].
  unfold child in E. injection E as E1 E2 E3. apply child_bits_inj; try assumption; lia.
Qed.
Lemma children_nodup : forall dim l, NoDup (children dim l).
Proof.
  intros dim l. unfold children. apply NoDup_map_inj; [apply seq_NoDup|]. intros a b Ha Hb E. apply in_seq in Ha, Hb. pose proof (nleaf_le dim). apply child_inj in E; [tauto|lia|lia].
Qed.
Lemma children_length : forall dim l, length (children dim l) = nleaf dim.
Proof. intros. unfold children. rewrite map_length, seq_length. reflexivity. Qed.
Lemma families_nodup : forall dim ps, NoDup ps -> NoDup (flat_map (children dim) ps).
Proof.
  intros dim ps. induction ps as [|p ps IH]; intros H; [constructor|]. inversion H as [|? ? Hni Hnd E]; subst. cbn [flat_map]. apply NoDup_app2; [apply children_nodup|apply IH, Hnd|].
  intros c Hc Hc'. apply in_flat_map in Hc' as (q & Hq & Hcq). apply in_children in Hc as (j & Hj & ->). apply in_children in Hcq as (j' & Hj' & E). pose proof (nleaf_le dim).
  apply child_inj in E; [|lia|lia]. destruct E as [-> _]. contradiction.
Qed.
Lemma families_length : forall dim ps, length (flat_map (children dim) ps) = length ps * nleaf dim.
Proof. intros dim ps. induction ps as [|p ps IH]; [reflexivity|]. cbn [flat_map]. rewrite app_length, children_length, IH. cbn [length]. lia. Qed.
(** The array of groups never overflows. *)
Lemma groups_capacity : forall g ls, valid_grid g -> (forall n, In n ls -> 1 <= level n) -> NoDup ls -> length (groups g ls) <= length ls / nleaf (gdim g).
Proof.
  intros g ls Vg Hl Hnd. pose proof (nleaf_pos (gdim g)). apply Nat.div_le_lower_bound; [lia|]. rewrite Nat.mul_comm, <- families_length.
  apply NoDup_incl_length; [apply families_nodup, groups_nodup; assumption|]. intros c Hc. apply in_flat_map in Hc as (l & Hl' & Hc). exact (groups_children g ls l Vg Hl Hl' c Hc).
Qed.

(** ** Blocks below a node are contiguous in the list *)
Lemma leaves_sub : forall p t l, Forall (fun i => i < 8) p -> sub t p <> Null -> exists pre post, leaves t l = pre ++ leaves (sub t p) (descend l p) ++ post.
Proof.
  induction p as [|n p IH]; intros t l F H; [exists [], []; cbn [app sub descend]; rewrite app_nil_r; reflexivity|]. cbn [sub] in *.
  destruct t as [|z|z ch]; [contradiction|contradiction|]. rewrite leaves_node. inversion F as [|? ? Hn F']; subst.
  destruct (nth_split ch Null (n := n)) as (c1 & c2 & Ec & Lc); [apply nth_nonnull; intros E; apply H; rewrite E; apply sub_null|].
  destruct (IH (nth n ch Null) (child l n) F' H) as (pre & post & E). set (c := nth n ch Null) in *. rewrite Ec, golv_app. cbn [golv]. rewrite Lc, Nat.add_0_l, E.
  exists (golv l c1 0 ++ pre), (post ++ golv l c2 (S n)). cbn [descend fold_left]. fold (descend (child l n) p). rewrite !app_assoc. reflexivity.
Qed.
Lemma golv_leaves : forall l ch n, (forall j, j < length ch -> exists z, nth j ch Null = Leaf z) -> map fst (golv l ch n) = map (child l) (seq n (length ch)).
Proof.
  intros l ch. induction ch as [|c ch IH]; intros n H; [reflexivity|]. cbn [golv length seq map]. fold (golv l). destruct (H 0 ltac:(cbn; lia)) as (z & E). cbn [nth] in E. subst c. cbn [leaves app map fst]. f_equal.
  apply IH. intros j Hj. apply (H (S j)). cbn. lia.
Qed.
Section Update.
Variable g : grid.
Hypothesis Vg : valid_grid g.
Let nl := nleaf (gdim g).
Lemma siblings_contiguous : forall t l, wf g t -> canon l -> K t l = KNode -> leaf_children g t l -> exists pre post, blocks t = pre ++ children (gdim g) l ++ post.
Proof.
  intros t l W Cl Hk HL. destruct (leaves_sub (path l) t rootloc (path_lt l)) as (pre & post & E); [apply K_nonnull_sub; congruence|].
  rewrite (descend_path (level l) l eq_refl Cl) in E. exists (map fst pre), (map fst post). unfold blocks, GetMeshBlockList. cbn [fst]. rewrite E, !map_app. f_equal. f_equal.
  pose proof (shape_sub _ _ (path l) (wf_shape g t W)) as Sl. pose proof (nleaf_le (gdim g)) as H8.
  assert (HL' : forall j, j < nl -> exists z, sub (sub t (path l)) [j] = Leaf z).
  { intros j Hj. destruct (HL j Hj) as (z & Ez). exists z. unfold K in Ez. unfold nl in Hj. rewrite path_child, sub_app in Ez by lia. destruct (sub (sub t (path l)) [j]); try discriminate Ez. injection Ez as ->. reflexivity. }
  unfold K in Hk. destruct (sub t (path l)) as [|z|z ch]; try discriminate Hk. rewrite leaves_node. unfold children. pose proof (Sl [] z ch eq_refl) as Hlen. fold nl in Hlen. rewrite golv_leaves, Hlen; [reflexivity|].
  intros j Hj. rewrite Hlen in Hj. exact (HL' j Hj).
Qed.
(** ** Refinement phase *)
Lemma refines_ok : forall Q : loc -> Prop, (forall x, Q x -> groot g <= level x) ->
  (forall l m k, in_domain g l -> Q l -> In m (nlocs g l) -> groot g <= k < level m -> Q (ancl k m)) ->
  forall ls t n, wf g t -> (forall l, In l ls -> in_domain g l /\ K t l <> KNull /\ Q l) ->
  exists t' k, foldo (Refine g) (t, n) ls = Some (t', n + k * (nl - 1)) /\ result g Q t t' k /\ forall l, In l ls -> K t' l = KNode.
Proof.
  intros Q Qr Qn ls. induction ls as [|l ls IH]; intros t n W H.
  - exists t, 0. split; [cbn [foldo]; f_equal; f_equal; lia|]. split; [|intros l []]. split; [constructor|apply newbal_refl].
  - destruct (H l (or_introl eq_refl)) as (Dl & Kl & Ql). destruct (Refine_spec g Vg Q Qr Qn t n l W Dl Kl (Qr l Ql) Ql) as (t1 & k1 & E1 & R1 & N1).
    assert (W1 : wf g t1) by (apply (splits_wf g Vg Q t t1 k1 Qr); [apply R1|exact W]). assert (X1 : ext t t1) by (apply (splits_ext g Q t t1 k1), R1).
    destruct (IH t1 (n + k1 * (nl - 1)) W1) as (t2 & k2 & E2 & R2 & N2).
    { intros m Hm. destruct (H m (or_intror Hm)) as (Dm & Km & Qm). split; [exact Dm|]. split; [|exact Qm]. apply X1; [apply (dom_canon g Vg), Dm|exact Km]. }
    exists t2, (k1 + k2). split; [|split].
    + cbn [foldo]. rewrite E1. fold nl. rewrite E2. f_equal. f_equal. lia.
    + eapply (result_trans g Vg Q Qr); eassumption.
    + intros m [<-|Hm]; [|exact (N2 m Hm)]. apply (splits_ext g Q t1 t2 k2); [apply R2|apply (dom_canon g Vg), Dl|exact N1].
Qed.
(** ** Derefinement phase *)
Inductive merges (M : loc -> Prop) : tree -> tree -> nat -> Prop :=
| m_refl : forall t, merges M t t 0
| m_step : forall t a l z k, merges M t a k -> M l -> in_domain g l -> groot g <= level l -> K a l = KNode -> leaf_children g a l -> K a (child l 0) = KLeaf z -> merges M t (collapse a l z) (S k).
Lemma merges_trans : forall M b c m, merges M b c m -> forall a k, merges M a b k -> merges M a c (k + m).
Proof. intros M b c m H. induction H; intros a0 k0 Ha; [rewrite Nat.add_0_r; exact Ha|]. rewrite Nat.add_succ_r. apply m_step; auto. Qed.
Lemma merges_wf : forall M a b k, merges M a b k -> wf g a -> wf g b.
Proof. intros M a b k H. induction H; intros W; [exact W|]. apply wf_collapse; auto. apply (dom_canon g Vg). assumption. Qed.
Lemma merges_count : forall M a b k, merges M a b k -> wf g a -> count b + k * (nl - 1) = count a.
Proof.
  intros M a b k H. induction H; intros W; [lia|]. pose proof (count_collapse g a l z (merges_wf _ _ _ _ H W) H3 H4) as E. fold nl in E. specialize (IHmerges W). lia.
Qed.
Lemma derefs_spec : forall cld t n t' n', wf g t -> (forall l, In l cld -> in_domain g l /\ groot g <= level l) -> foldo (Derefine g) (t, n) cld = Some (t', n') ->
  exists k, n' = n + k * (nl - 1) /\ merges (fun l => In l cld) t t' k.
Proof.
  intros cld. assert (G : forall (M : loc -> Prop) cld t n t' n', (forall l, In l cld -> M l) -> wf g t -> (forall l, In l cld -> in_domain g l /\ groot g <= level l) -> foldo (Derefine g) (t, n) cld = Some (t', n') ->
    exists k, n' = n + k * (nl - 1) /\ merges M t t' k).
  { clear cld. intros M cld. induction cld as [|l cld IH]; intros t n t' n' HM W H E; cbn [foldo] in E.
    - injection E as <- <-. exists 0. split; [lia|constructor].
    - destruct (Derefine g (t, n) l) as [[t1 n1]|] eqn:E1; [|discriminate E]. destruct (H l (or_introl eq_refl)) as [Dl Rl].
      assert (S1 : exists k1, n1 = n + k1 * (nl - 1) /\ merges M t t1 k1).
      { destruct (Derefine_cases g Vg t n l t1 n1 W Dl Rl E1) as [Hk [[-> ->]|(HL & z & Ez & -> & ->)]]; [exists 0; split; [lia|constructor]|].
        exists 1. split; [fold nl; lia|]. apply m_step; try assumption; [constructor|apply HM; left; reflexivity]. }
      destruct S1 as (k1 & -> & M1). destruct (IH t1 (n + k1 * (nl - 1)) t' n' (fun m Hm => HM m (or_intror Hm)) (merges_wf _ _ _ _ M1 W) (fun m Hm => H m (or_intror Hm)) E) as (k2 & -> & M2).
      exists (k1 + k2). split; [lia|]. apply (merges_trans M t1 t' k2 M2 t k1 M1). }
  intros t n t' n' W H E. apply (G _ cld t n t' n' (fun l Hl => Hl) W H E).
Qed.
Lemma derefs_B : no_pole g -> forall cld t n t' n', wf g t -> B g t -> (forall l, In l cld -> in_domain g l /\ groot g <= level l) -> foldo (Derefine g) (t, n) cld = Some (t', n') -> B g t'.
Proof.
  intros NP cld. induction cld as [|l cld IH]; intros t n t' n' W Bt H E; cbn [foldo] in E; [injection E as <- <-; exact Bt|].
  destruct (Derefine g (t, n) l) as [[t1 n1]|] eqn:E1; [|discriminate E]. destruct (H l (or_introl eq_refl)) as [Dl Rl].
  assert (W1 : wf g t1). { destruct (derefs_spec [l] t n t1 n1 W) as (k & _ & Mk); [intros m [<-|[]]; split; assumption|cbn [foldo]; rewrite E1; reflexivity|apply (merges_wf _ _ _ _ Mk W)]. }
  apply (IH t1 n1 t' n' W1 (Derefine_B g Vg NP t n l t1 n1 W Bt Dl Rl E1) (fun m Hm => H m (or_intror Hm)) E).
Qed.
Lemma derefs_total : no_pole g -> no_shear g -> forall cld t n, wf g t -> B g t -> NoDup cld -> (forall l, In l cld -> in_domain g l /\ groot g <= level l /\ K t l = KNode) ->
  exists t' n', foldo (Derefine g) (t, n) cld = Some (t', n').
Proof.
  intros NP NS cld. induction cld as [|l cld IH]; intros t n W Bt Hnd H; [exists t, n; reflexivity|]. cbn [foldo].
  destruct (H l (or_introl eq_refl)) as (Dl & Rl & Kl). inversion Hnd as [|? ? Hni Hnd' E]; subst.
  destruct (Derefine_total g Vg NP NS t n l W Bt Dl Rl Kl) as (t1 & n1 & E1). rewrite E1.
  destruct (Derefine_cases g Vg t n l t1 n1 W Dl Rl E1) as [Hk [[-> ->]|(HL & z & Ez & -> & ->)]]; [apply IH; try assumption; intros m Hm; apply H; right; exact Hm|].
  apply IH; [apply wf_collapse; try assumption; apply (dom_canon g Vg), Dl|exact (Derefine_B g Vg NP t n l _ _ W Bt Dl Rl E1)|exact Hnd'|].
  intros m Hm. destruct (H m (or_intror Hm)) as (Dm & Rm & Km). split; [exact Dm|]. split; [exact Rm|]. rewrite (collapse_other g); try assumption; [apply (wf_shape g t W)|congruence|apply (dom_canon g Vg), Dl|apply (dom_canon g Vg), Dm|intros ->; contradiction|].
  intros j Hj ->. destruct (HL j Hj) as (z' & Ez'). congruence.
Qed.
End Update.

(** ** How the new tree sits over the old one *)
Inductive Rel (nl : nat) : tree -> tree -> Prop :=
| RNull : Rel nl Null Null
| RLeaf : forall z, Rel nl (Leaf z) (Leaf z)
| RSplit : forall z z', Rel nl (Leaf z) (Node z' (repeat (Leaf z) nl))
| RMerge : forall z0 zs, length zs = nl -> Rel nl (Node z0 (map Leaf zs)) (Leaf (hd 0%Z zs))
| RNode : forall z z' ch ch', length ch = nl -> length ch' = nl -> (forall i, i < nl -> Rel nl (nth i ch Null) (nth i ch' Null)) -> Rel nl (Node z ch) (Node z' ch').
Lemma Rel_refl : forall nl t, shape nl t -> Rel nl t t.
Proof.
  intros nl. induction t as [|z|z ch IH] using tree_ind'; intros S; [constructor|constructor|]. pose proof (S [] z ch eq_refl) as L. constructor; [exact L|exact L|].
  intros i Hi. rewrite Forall_forall in IH. apply IH; [apply nth_In; lia|]. intros p z' ch' E. apply (S (i :: p) z' ch' E).
Qed.
Lemma nth_repeat_leaf : forall z n i, nth i (repeat (Leaf z) n) Null = Leaf z \/ nth i (repeat (Leaf z) n) Null = Null.
Proof. intros z n. induction n as [|n IH]; intros i; [right; destruct i; reflexivity|]. destruct i; [left; reflexivity|apply IH]. Qed.
Lemma Rel_sub : forall nl p t0 t, Rel nl t0 t -> sub t0 p <> Null -> sub t p <> Null -> Rel nl (sub t0 p) (sub t p).
Proof.
  intros nl p. induction p as [|n p IH]; intros t0 t R H0 H; [exact R|]. cbn [sub] in *.
  inversion R as [|z|z z'|z0 zs|z z' ch ch' L L' HR]; subst; try contradiction.
  apply IH; try assumption. apply HR. apply nth_nonnull. intros E. apply H0. rewrite E. apply sub_null.
Qed.
Lemma Rel_upd : forall nl p t0 t f, Rel nl t0 t -> sub t0 p <> Null -> sub t p <> Null -> Rel nl (sub t0 p) (f (sub t p)) -> Rel nl t0 (upd t p f).
Proof.
  intros nl p. induction p as [|n p IH]; intros t0 t f R H0 H HR; [exact HR|]. cbn [sub upd] in *.
  inversion R as [|z|z z'|z0 zs|z z' ch ch' L L' HRi]; subst; try contradiction.
  assert (Hn : n < length ch) by (apply nth_nonnull; intros E; apply H0; rewrite E; apply sub_null).
  constructor; [reflexivity|rewrite upd_nth_length; exact L'|]. intros i Hi. destruct (Nat.eq_dec i n) as [->|Hne].
  - rewrite nth_upd_same by lia. apply IH; try assumption. apply HRi, Hn.
  - rewrite nth_upd_other by exact Hne. apply HRi, Hi.
Qed.
Lemma Rel_node : forall nl p t0 t z ch, Rel nl t0 t -> sub t p = Node z ch -> sub t0 p <> Null.
Proof.
  intros nl p. induction p as [|n p IH]; intros t0 t z ch R E; cbn [sub] in *; [subst t; inversion R; discriminate|].
  inversion R as [|z1|z1 z'|z0 zs|z1 z' ch1 ch' L L' HRi]; subst; try discriminate E.
  - exfalso. destruct (nth_repeat_leaf z1 nl n) as [E'|E']; rewrite E' in E; [destruct p; discriminate E|rewrite sub_null in E; discriminate E].
  - apply (IH _ (nth n ch' Null) z ch); [|exact E]. apply HRi. rewrite <- L'. apply nth_nonnull. intros E'. rewrite E', sub_null in E. discriminate E.
Qed.
Lemma Rel_setgid : forall nl t0 t p z, Rel nl t0 t -> kind (sub t p) = KNode -> Rel nl t0 (upd t p (set_gid z)).
Proof.
  intros nl t0 t p z R H. destruct (sub t p) as [|z1|z1 ch] eqn:E; try discriminate H. pose proof (Rel_node nl p t0 t z1 ch R E) as H0.
  apply Rel_upd; try assumption; [congruence|]. pose proof (Rel_sub nl p t0 t R H0 ltac:(congruence)) as Rs. rewrite E in *. cbn [set_gid]. inversion Rs; subst; [apply RSplit|apply RNode; assumption || reflexivity].
Qed.
Lemma Rel_splits : forall g (Q : loc -> Prop) t0 t1 k, wf g t0 -> (forall x, Q x -> K t0 x <> KNull) -> splits g Q t0 t1 k ->
  Rel (nleaf (gdim g)) t0 t1 /\ (forall x, K t0 x = KNode -> K t1 x = KNode).
Proof.
  intros g Q t0 t1 k W HQ S. apply (splits_inv g (fun t => Rel (nleaf (gdim g)) t0 t /\ (forall x, K t0 x = KNode -> K t x = KNode)) Q) with (a := t0) (k := k); [| |exact S|split; [apply Rel_refl, (wf_shape g t0 W)|intros x Hx; exact Hx]].
  - intros t l z [R X] Cl Hk Ql. pose proof (HQ l Ql) as H0. unfold K in Hk, H0. destruct (sub t (path l)) as [|z1|z1 ch] eqn:E; try discriminate Hk. injection Hk as ->.
    assert (Hn0 : sub t0 (path l) <> Null) by (intros E0; apply H0; rewrite E0; reflexivity).
    pose proof (Rel_sub _ (path l) t0 t R Hn0 ltac:(congruence)) as Rs. rewrite E in Rs.
    assert (E0 : sub t0 (path l) = Leaf z).
    { destruct (sub t0 (path l)) as [|z2|z2 ch2] eqn:E0; [contradiction|inversion Rs; reflexivity|]. exfalso. specialize (X l). unfold K in X. rewrite E0, E in X. discriminate (X eq_refl). }
    split.
    + unfold split_at. apply Rel_upd; try assumption; [congruence|]. rewrite E0. constructor.
    + intros x Hx. specialize (X x Hx). unfold split_at. assert (Hkl : K t l <> KNull) by (unfold K; rewrite E; discriminate).
      destruct (prefix_dec (path l) (path x)) as [(r & Er)|Hn]; [|unfold K; rewrite upd_kind by exact Hn; exact X].
      unfold K in X |- *. rewrite Er, upd_below by (apply K_nonnull_sub, Hkl). destruct r as [|j r]; [reflexivity|]. exfalso. rewrite Er, sub_app, E in X. discriminate X.
  - intros t l [R X] Hk. split; [apply Rel_setgid; assumption|]. intros x Hx. rewrite setgid_K by exact Hk. apply X, Hx.
Qed.
Lemma leaves_list : forall ch, (forall j, j < length ch -> exists z, nth j ch Null = Leaf z) -> exists zs, ch = map Leaf zs.
Proof.
  induction ch as [|c ch IH]; intros H; [exists []; reflexivity|]. destruct (H 0 ltac:(cbn; lia)) as (z & E). cbn [nth] in E. destruct IH as (zs & ->); [intros j Hj; apply (H (S j)); cbn; lia|].
  exists (z :: zs). cbn [map]. congruence.
Qed.
Lemma kids_leaves : forall g t l, wf g t -> K t l = KNode -> leaf_children g t l -> exists z zs, sub t (path l) = Node z (map Leaf zs) /\ length zs = nleaf (gdim g).
Proof.
  intros g t l W Hk HL. pose proof (shape_sub _ _ (path l) (wf_shape g t W)) as Sl. pose proof (nleaf_le (gdim g)) as H8.
  assert (HL' : forall j, j < nleaf (gdim g) -> exists z, sub (sub t (path l)) [j] = Leaf z).
  { intros j Hj. destruct (HL j Hj) as (z & Ez). exists z. unfold K in Ez. rewrite path_child, sub_app in Ez by lia. destruct (sub (sub t (path l)) [j]); try discriminate Ez. injection Ez as ->. reflexivity. }
  unfold K in Hk. destruct (sub t (path l)) as [|z|z ch]; try discriminate Hk. pose proof (Sl [] z ch eq_refl) as Hlen.
  destruct (leaves_list ch) as (zs & ->); [intros j Hj; rewrite Hlen in Hj; exact (HL' j Hj)|]. exists z, zs. split; [reflexivity|]. rewrite map_length in Hlen. exact Hlen.
Qed.
Lemma Rel_leaf_leaf : forall nl a b, Rel nl (Leaf a) (Leaf b) -> a = b.
Proof. intros nl a b R. inversion R. reflexivity. Qed.
Lemma Rel_merges : forall g (Vg : valid_grid g) (M : loc -> Prop) t0 t t' k, wf g t0 -> wf g t -> (forall l, M l -> K t0 l = KNode /\ leaf_children g t0 l) -> Rel (nleaf (gdim g)) t0 t -> merges g M t t' k ->
  Rel (nleaf (gdim g)) t0 t'.
Proof.
  intros g Vg M t0 t t' k W0 W HM R S. induction S as [|t a l z k S IH Ml Dl Rl Hk HL Ez]; [exact R|]. specialize (IH W R). destruct (HM l Ml) as [Hk0 HL0].
  pose proof (merges_wf g Vg M t a k S W) as Wa. destruct (kids_leaves g t0 l W0 Hk0 HL0) as (z0 & zs0 & E0 & L0). destruct (kids_leaves g a l Wa Hk HL) as (z1 & zs & E & L).
  assert (Rs : Rel (nleaf (gdim g)) (Node z0 (map Leaf zs0)) (Node z1 (map Leaf zs))). { rewrite <- E0, <- E. apply Rel_sub; [exact IH|congruence|congruence]. }
  assert (Ezs : zs0 = zs).
  { inversion Rs as [| | | |? ? ? ? _ _ HR]; subst. apply (nth_ext zs0 zs 0%Z 0%Z); [lia|]. intros i Hi. specialize (HR i ltac:(lia)).
    rewrite (nth_indep (map Leaf zs0) Null (Leaf 0)), (nth_indep (map Leaf zs) Null (Leaf 0)), !map_nth in HR by (rewrite map_length; lia). apply Rel_leaf_leaf in HR. exact HR. }
  subst zs. unfold collapse. apply Rel_upd; [exact IH|congruence|congruence|]. rewrite E0. assert (Ehd : z = hd 0%Z zs0); [|rewrite Ehd; constructor; exact L0].
  rewrite K_child, E in Ez by (pose proof (nleaf_le (gdim g)); lia). pose proof (nleaf_pos (gdim g)). destruct zs0 as [|zz zs0]; [cbn in L0; lia|]. cbn [map nth kind] in Ez. injection Ez as ->. reflexivity.
Qed.
