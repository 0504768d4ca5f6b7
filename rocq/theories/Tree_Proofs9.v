(** Histories, one update step, restart. *)
From Coq Require Import List Arith ZArith Bool Lia Permutation.
From Verif Require Import Loc AMR_Spec AMR_Proofs AMR_Proofs2 Tree_Model Tree_Spec Tree_Proofs1 Tree_Proofs2 Tree_Proofs3 Tree_Proofs4 Tree_Proofs5 Tree_Proofs6 Tree_Proofs7 Tree_Proofs8 Tree_Restart.
Import ListNotations.
Local Open Scope nat_scope.

Section Hist.
Variable g : grid.
Hypothesis Vg : valid_grid g.
Let nl := nleaf (gdim g).

(** ** AddMeshBlock *)
Lemma add_low : forall rf l t n, wf g t -> in_domain g l -> level l <= groot g -> add_with rf (t, n) l = Some (t, n).
Proof.
  intros rf l t n W D Hl. unfold add_with.
  assert (E : forall ks, (forall k, In k ks -> k < level l) -> foldo (fun s k => match FindMeshBlock (fst s) (ancl k l) with Null => None | Leaf _ => rf s (ancl k l) | Node _ _ => Some s end) (t, n) ks = Some (t, n)).
  { induction ks as [|k ks IH]; intros H; [reflexivity|]. cbn [foldo fst]. specialize (H k (or_introl eq_refl)) as Hk.
    assert (Ek : K t (ancl k l) = KNode). { apply (wf_low g t W); [apply dom_ancl; assumption || lia|rewrite ancl_level; lia]. }
    unfold K in Ek. unfold FindMeshBlock. destruct (sub t (path (ancl k l))); try discriminate Ek. apply IH. intros j Hj. apply H. right. exact Hj. }
  rewrite E by (intros k Hk; apply in_seq in Hk; lia). cbn [fst]. unfold FindMeshBlock. pose proof (wf_root g t W l D Hl) as Hn. apply K_nonnull_sub in Hn. destruct (sub t (path l)); [contradiction|reflexivity|reflexivity].
Qed.
Lemma Add_spec : forall t n l, wf g t -> in_domain g l -> exists t' k, AddMeshBlock g (t, n) l = Some (t', n + k * (nl - 1)) /\
  splits g (fun x => groot g <= level x) t t' k /\ newbal g t t' /\ K t' l <> KNull.
Proof.
  intros t n l W D. destruct (Nat.le_gt_cases (groot g) (level l)) as [Hl|Hl].
  - destruct (add_ok g Vg (fun x => groot g <= level x) (fun x Hx => Hx) (refine g (level l)) l t n) as (t' & k & E & [S N] & Hk); try assumption.
    + apply refine_spec; [exact Vg|intros x Hx; exact Hx|]. intros a m k _ _ _ [Hk _]. rewrite ancl_level. exact Hk.
    + intros k Hk. rewrite ancl_level. lia.
    + exists t', k. split; [exact E|]. split; [exact S|]. split; [exact N|exact Hk].
  - exists t, 0. unfold AddMeshBlock. rewrite add_low by (assumption || lia). split; [f_equal; f_equal; lia|]. split; [constructor|]. split; [apply newbal_refl|]. apply (wf_root g t W); [exact D|lia].
Qed.
Lemma renumbered_wf : forall t, wf g t -> wf g (renumbered t).
Proof. intros t W. unfold renumbered, GetMeshBlockList. cbn [snd]. apply (same_wf g t); [apply renumber_same|apply renumber_shape, (wf_shape g t W)|exact W]. Qed.
Lemma same_B : forall t t', same t t' -> B g t -> B g t'.
Proof.
  intros t t' S Bt x m Cx Hx Hr Hm. unfold K in *. intros E. apply (same_null t t' (path m) S) in E. revert E. apply (Bt x m Cx); [|exact Hr|exact Hm]. apply (same_node t t' (path x) S), Hx.
Qed.
Theorem hist_wf : forall t, history g t -> wf g t.
Proof.
  intros t H. induction H as [|t l n t' n' H W D E|t H W|t H W|t fr fd t' nnew ndel H W Hf Hu].
  - apply root_wf, Vg.
  - destruct (Add_spec t n l W D) as (t1 & k & E1 & S & _). rewrite E1 in E. injection E as -> _. apply (splits_wf g Vg _ t t' k (fun x Hx => Hx) S W).
  - apply renumbered_wf, W.
  - destruct (restart_same g Vg t W) as [S E]. apply (same_wf g t _ E S W).
  - apply (may_update_inv g Vg) in Hu as [Hu|(cld & Hc & Hu)]; try assumption; [injection Hu as -> _ _; exact W|].
    destruct (update_general g Vg t fr fd cld t' nnew ndel W Hf Hc (eq_sym Hu)) as (t1 & k & k' & _ & W' & _). exact W'.
Qed.
Theorem hist_B : no_pole g -> forall t, history g t -> B g t.
Proof.
  intros NP t H. induction H as [|t l n t' n' H Bt D E|t H Bt|t H Bt|t fr fd t' nnew ndel H Bt Hf Hu].
  - apply root_B; assumption.
  - pose proof (hist_wf t H) as W. destruct (Add_spec t n l W D) as (t1 & k & E1 & S & N & _). rewrite E1 in E. injection E as -> _.
    apply (newbal_B g Vg t t' W); [apply (splits_wf g Vg _ t t' k (fun x Hx => Hx) S W)|apply (splits_ext g _ t t' k S)|exact N|exact Bt].
  - apply (same_B t); [apply renumber_same|exact Bt].
  - apply (same_B t); [apply (restart_same g Vg t (hist_wf t H))|exact Bt].
  - pose proof (hist_wf t H) as W. apply (may_update_inv g Vg) in Hu as [Hu|(cld & Hc & Hu)]; try assumption; [injection Hu as -> _ _; exact Bt|].
    destruct (update_general g Vg t fr fd cld t' nnew ndel W Hf Hc (eq_sym Hu)) as (t1 & k & k' & W1 & W' & S & N & M & _ & _ & E2).
    apply (derefs_B g Vg NP cld t1 0 t' ndel W1); [|intros l Hl; destruct Hc as [_ Hg]; destruct (group_facts g Vg t fd l W Hf (Hg l Hl)) as (D & R & _); split; assumption|exact E2].
    apply (newbal_B g Vg t t1 W W1 (splits_ext g _ t t1 k S) N Bt).
Qed.

(** ** One update, no poles *)
Hypothesis NP : no_pole g.
Lemma Q0_closed : forall t, wf g t -> B g t -> forall l m k, in_domain g l -> (K t l <> KNull /\ groot g <= level l) -> In m (nlocs g l) -> groot g <= k < level m ->
  K t (ancl k m) <> KNull /\ groot g <= level (ancl k m).
Proof.
  intros t W Bt l m k D [Hk Hr] Hm [Hk1 Hk2]. rewrite ancl_level. split; [|exact Hk1]. destruct (nlocs_dom g Vg l m D Hr Hm) as [Dm Lm].
  apply (nlocs_spec g NP) in Hm as (o & Hnb & _). pose proof (B_parent g Vg NP t l o m W Bt (dom_canon g Vg l D) Hk ltac:(lia) Hnb) as Hp.
  rewrite ancl_anc by lia. destruct (Nat.eq_dec (level m - k) 1) as [->|Hne]; [exact Hp|].
  assert (E : anc (level m - k) m = anc (level m - k - 1) (anc 1 m)). { rewrite anc_anc by (cbn [anc level]; lia). f_equal. lia. }
  rewrite E, (K_anc t (level m - k - 1) (anc 1 m)); [discriminate|cbn [anc level]; lia|lia|exact Hp].
Qed.
Record step_facts (t t' : tree) (fr fd : loc -> bool) (nnew ndel : nat) : Prop := mkStep {
  sf_wf : wf g t'; sf_B : B g t'; sf_rel : Rel nl t t'; sf_count : count t' + ndel = count t + nnew;
  sf_ref : forall l, In l (blocks t) -> fr l = true -> K t' l = KNode;
  sf_merge : forall l z, canon l -> K t l = KNode -> K t' l = KLeaf z -> forall c, In c (children (gdim g) l) -> In c (blocks t) /\ fd c = true }.
Lemma update_step : forall t fr fd cld t' nnew ndel, wf g t -> B g t -> (forall x, fd x = true -> groot g < level x) -> good_cld g t fd cld -> update_with g t (flagged fr t) cld = Some (t', nnew, ndel) ->
  step_facts t t' fr fd nnew ndel.
Proof.
  intros t fr fd cld t' nnew ndel W Bt Hf Hc H. pose proof Hc as [Hnd Hg]. unfold update_with in H. set (Q0 := fun x => K t x <> KNull /\ groot g <= level x).
  destruct (refines_ok g Vg Q0 (fun x Hx => proj2 Hx) (Q0_closed t W Bt) (flagged fr t) t 0 W) as (t1 & k & E1 & [S1 N1] & R1).
  { intros l Hl. destruct (lref_facts g t fr l W Hl) as (D & R & (z & Ez) & _). split; [exact D|]. split; [congruence|]. split; [congruence|exact R]. }
  rewrite E1 in H. destruct (foldo (Derefine g) (t1, 0) cld) as [[t2 nd]|] eqn:E2; [|discriminate H]. assert (t2 = t') by congruence. subst t2. assert (nnew = 0 + k * (nl - 1)) by (unfold nl; congruence). subst nnew. assert (nd = ndel) by congruence. subst nd. clear H.
  assert (W1 : wf g t1) by (apply (splits_wf g Vg _ t t1 k (fun x Hx => proj2 Hx) S1 W)).
  assert (B1 : B g t1) by (apply (newbal_B g Vg t t1 W W1 (splits_ext g _ t t1 k S1) N1 Bt)).
  assert (Hdom : forall l, In l cld -> in_domain g l /\ groot g <= level l). { intros l Hl. destruct (group_facts g Vg t fd l W Hf (Hg l Hl)) as (D & R & _). split; assumption. }
  destruct (derefs_spec g Vg cld t1 0 t' ndel W1 Hdom E2) as (k' & Ek & M1).
  destruct (Rel_splits g Q0 t t1 k W (fun x Hx => proj1 Hx) S1) as [Rl X1].
  constructor.
  - apply (merges_wf g Vg _ _ _ _ M1 W1).
  - apply (derefs_B g Vg NP cld t1 0 t' ndel W1 B1 Hdom E2).
  - apply (Rel_merges g Vg (fun l => In l cld) t t1 t' k' W W1); try assumption. intros l Hl. destruct (group_facts g Vg t fd l W Hf (Hg l Hl)) as (_ & _ & Hk & HL & _). split; assumption.
  - pose proof (merges_count g Vg _ t1 t' k' M1 W1) as A1. pose proof (count_splits g Q0 t t1 k S1) as A2. fold nl in A1, A2. lia.
  - intros l Hl Hfl. assert (Hin : In l (flagged fr t)) by (apply filter_In; split; assumption). apply (merges_node g Vg (fun l => In l cld) t1 t' k' l M1 W1); [apply (in_blocks g t l W), Hl|apply R1, Hin|].
    intros Hcl. destruct (group_facts g Vg t fd l W Hf (Hg l Hcl)) as (_ & _ & Hk & _). apply (in_blocks g t l W) in Hl as [_ (z & Ez)]. congruence.
  - intros l z Cl Hk Hk'. destruct (in_dec loc_eq_dec l cld) as [Hin|Hni]; [apply (group_facts g Vg t fd l W Hf (Hg l Hin))|]. exfalso.
    rewrite (merges_node g Vg (fun l => In l cld) t1 t' k' l M1 W1 Cl (X1 l Hk) Hni) in Hk'. discriminate Hk'.
Qed.
Lemma update_facts : forall t fr fd t' nnew ndel, wf g t -> B g t -> (forall x, fd x = true -> groot g < level x) -> may_update g t (flagged fr t) (flagged fd t) (Some (t', nnew, ndel)) ->
  step_facts t t' fr fd nnew ndel.
Proof.
  intros t fr fd t' nnew ndel W Bt Hf Hu. pose proof Hu as Hu'. apply (may_update_inv g Vg) in Hu as [Hu|(cld & Hc & Hu)]; try assumption; [|apply (update_step t fr fd cld); try assumption; symmetry; exact Hu].
  injection Hu as -> -> ->. constructor; [exact W|exact Bt|apply Rel_refl, (wf_shape g t W)|lia| |].
  - intros l Hl Hfl. unfold may_update in Hu'. destruct (Nat.eqb_spec (length (flagged fr t)) 0) as [E0|Hne].
    + exfalso. assert (Hin : In l (flagged fr t)) by (apply filter_In; split; assumption). destruct (flagged fr t); [destruct Hin|discriminate E0].
    + cbn [andb] in Hu'. destruct Hu' as (cld & Hp & E). assert (Hc : good_cld g t fd cld).
      { assert (Hm : may_update g t (flagged fr t) (flagged fd t) (update_with g t (flagged fr t) cld)).
        { unfold may_update. destruct (Nat.eqb_spec (length (flagged fr t)) 0); [contradiction|]. cbn [andb]. exists cld. split; [exact Hp|reflexivity]. }
        destruct (Nat.leb _ _).
        - split; [apply (Permutation_NoDup (Permutation_sym Hp)), groups_nodup; [exact Vg| |apply (flagged_nodup g t fd W)]|intros x Hx; apply (Permutation_in x Hp Hx)].
          intros n Hn. apply filter_In in Hn as [_ Hn]. specialize (Hf n Hn). lia.
        - apply Permutation_sym, Permutation_nil in Hp. subst cld. split; [constructor|intros x []]. }
      exact (sf_ref _ _ _ _ _ _ (update_step t fr fd cld t 0 0 W Bt Hf Hc (eq_sym E)) l Hl Hfl).
  - intros l z Cl Hk Hk'. congruence.
Qed.
Lemma update_total : no_shear g -> forall t fr fd cld, wf g t -> B g t -> (forall x, fd x = true -> groot g < level x) -> good_cld g t fd cld ->
  exists t' nnew ndel, update_with g t (flagged fr t) cld = Some (t', nnew, ndel).
Proof.
  intros NS t fr fd cld W Bt Hf [Hnd Hg]. unfold update_with. set (Q0 := fun x => K t x <> KNull /\ groot g <= level x).
  destruct (refines_ok g Vg Q0 (fun x Hx => proj2 Hx) (Q0_closed t W Bt) (flagged fr t) t 0 W) as (t1 & k & E1 & [S1 N1] & R1).
  { intros l Hl. destruct (lref_facts g t fr l W Hl) as (D & R & (z & Ez) & _). split; [exact D|]. split; [congruence|]. split; [congruence|exact R]. }
  rewrite E1. assert (W1 : wf g t1) by (apply (splits_wf g Vg _ t t1 k (fun x Hx => proj2 Hx) S1 W)).
  assert (B1 : B g t1) by (apply (newbal_B g Vg t t1 W W1 (splits_ext g _ t t1 k S1) N1 Bt)).
  destruct (derefs_total g Vg NP NS cld t1 0 W1 B1 Hnd) as (t2 & n2 & E2).
  - intros l Hl. destruct (group_facts g Vg t fd l W Hf (Hg l Hl)) as (D & R & Hk & _). split; [exact D|]. split; [exact R|]. apply (splits_ext g _ t t1 k S1); [apply (dom_canon g Vg), D|exact Hk].
  - rewrite E2. exists t2, (0 + k * (nl - 1)), n2. reflexivity.
Qed.
(** in the words of the specification *)
Theorem step_pieces : forall t t' fr fd nnew ndel, wf g t -> step_facts t t' fr fd nnew ndel -> exists ps,
  blocks t = old_blocks (gdim g) ps /\ blocks t' = new_blocks (gdim g) ps /\
  (old_ids t = map Z.of_nat (seq 0 (length (blocks t))) -> old_ids t' = map Z.of_nat (new2old (gdim g) 0 ps)) /\
  (forall l, In (Merge l) ps -> forall c, In c (children (gdim g) l) -> fd c = true) /\
  (forall l, In l (blocks t) -> fr l = true -> In (Split l) ps).
Proof.
  intros t t' fr fd nnew ndel W F. exists (pieces t t' rootloc). destruct (Rel_fits (gdim g) t t' rootloc (sf_rel _ _ _ _ _ _ F)) as (A1 & A2 & A3).
  split; [exact A1|]. split; [exact A2|]. split; [|split].
  - intros Hi. apply A3. unfold ids_from. unfold old_ids, blocks, GetMeshBlockList in Hi. cbn [fst] in Hi. rewrite map_length in Hi. exact Hi.
  - intros l Hl c Hc. apply in_pieces in Hl as (p & Ep & Hk & (z & Ez)). cbn [piece_at] in *.
    assert (Fp : Forall (fun i => i < 8) p). { apply (Forall_lt8 (nleaf (gdim g))); [apply nleaf_le|]. apply (shape_path _ t); [apply (wf_shape g t W)|]. destruct (sub t p); [discriminate Hk|discriminate|discriminate]. }
    assert (El : path l = p) by (subst l; rewrite path_descend by exact Fp; reflexivity).
    apply (sf_merge _ _ _ _ _ _ F l z); [subst l; apply canon_descend, canon_root|unfold K; rewrite El; exact Hk|unfold K; rewrite El, Ez; reflexivity|exact Hc].
  - intros l Hl Hfl. pose proof (sf_ref _ _ _ _ _ _ F l Hl Hfl) as Hk. pose proof (proj1 (in_blocks g t l W) Hl) as [Cl (z & Ez)]. change (In l (map fst (leaves t rootloc))) in Hl. rewrite A1 in Hl.
    unfold old_blocks in Hl. apply in_flat_map in Hl as (q & Hq & Hlq). pose proof (in_pieces _ _ _ _ Hq) as (p & Hp).
    assert (Fp : forall z1, sub t p = Leaf z1 \/ kind (sub t p) = KNode -> Forall (fun i => i < 8) p). { intros z1 Hz. apply (Forall_lt8 (nleaf (gdim g))); [apply nleaf_le|]. apply (shape_path _ t); [apply (wf_shape g t W)|]. destruct Hz as [Hz|Hz]; destruct (sub t p); discriminate || congruence. }
    destruct q as [x|x|x]; cbn [piece_at piece_old] in *.
    + destruct Hlq as [->|[]]. destruct Hp as (Ep & (z1 & E1) & (z2 & E2)). exfalso. assert (El : path l = p) by (subst l; rewrite path_descend by (apply (Fp z1); left; exact E1); reflexivity). unfold K in Hk. rewrite El, E2 in Hk. discriminate Hk.
    + destruct Hlq as [->|[]]. exact Hq.
    + exfalso. destruct Hp as (Ep & Hx & (z2 & E2)). assert (Ex : path x = p) by (subst x; rewrite path_descend by (apply (Fp 0%Z); right; exact Hx); reflexivity).
      apply in_children in Hlq as (j & Hj & ->). pose proof (nleaf_le (gdim g)). assert (Hn : K t' x = KNode) by (apply (K_child_parent t' x j); [lia|congruence]). unfold K in Hn. rewrite Ex, E2 in Hn. discriminate Hn.
Qed.
Lemma disjoint_of_tiling : forall t, wf g t -> disjoint_blocks (gdim g) (blocks t).
Proof.
  intros t W. destruct (wf_tiling g Vg t W) as (Hnd & Hdom & Hov & _). split.
  - intros l Hl. apply (dom_flat g), Hdom, Hl.
  - intros i j a b Ha Hb Ho. pose proof (Hov a b (nth_error_In _ _ Ha) (nth_error_In _ _ Hb) Ho) as ->. apply (proj1 (NoDup_nth_error (blocks t)) Hnd); [apply nth_error_Some; congruence|congruence].
Qed.
Lemma contains_both : forall a b x, contains a x -> contains b x -> level a <= level b -> contains a b.
Proof.
  intros a b x [La Ea] [Lb Eb] H. split; [exact H|]. transitivity (anc (level b - level a) (anc (level x - level b) x)); [rewrite anc_anc; rewrite Ea at 1; f_equal; lia|rewrite <- Eb; reflexivity].
Qed.
Theorem step_levels : forall t t' fr fd nnew ndel, wf g t -> step_facts t t' fr fd nnew ndel -> forall a b, In a (blocks t) -> In b (blocks t') -> overlap a b ->
  level a <= level b + 1 /\ level b <= level a + 1 /\ (level b < level a -> In a (children (gdim g) b) /\ forall c, In c (children (gdim g) b) -> In c (blocks t) /\ fd c = true).
Proof.
  intros t t' fr fd nnew ndel W F a b Ha Hb Ho. destruct (step_pieces t t' fr fd nnew ndel W F) as (ps & E1 & E2 & _ & HM & _).
  destruct (wf_tiling g Vg t W) as (_ & Hdom & Hov & _). rewrite E2 in Hb. unfold new_blocks in Hb. apply in_flat_map in Hb as (q & Hq & Hbq).
  assert (Hold : forall x, In x (piece_old (gdim g) q) -> In x (blocks t)) by (intros x Hx; rewrite E1; unfold old_blocks; apply in_flat_map; exists q; split; assumption).
  destruct q as [l|l|l]; cbn [piece_old piece_new] in *.
  - destruct Hbq as [<-|[]]. assert (a = l) by (apply Hov; [exact Ha|apply Hold; left; reflexivity|exact Ho]). subst a. repeat split; lia.
  - apply in_children in Hbq as (j & Hj & ->). assert (Hl : In l (blocks t)) by (apply Hold; left; reflexivity).
    assert (Hlb : contains l (child l j)) by (split; [cbn [child level]; lia|cbn [child level]; replace (S (level l) - level l) with 1 by lia; symmetry; apply anc_child]).
    assert (a = l). { apply Hov; [exact Ha|exact Hl|]. destruct Ho as [Ho|Ho].
      - destruct (Nat.le_ge_cases (level a) (level l)); [left|right]; eapply contains_both; eassumption.
      - right. eapply contains_trans; eassumption. }
    subst a. cbn [child level]. repeat split; lia.
  - destruct Hbq as [<-|[]]. assert (Hc0 : forall c, In c (children (gdim g) l) -> In c (blocks t)) by exact Hold.
    assert (Hcc : forall j, contains l (child l j)) by (intros j; split; [cbn [child level]; lia|cbn [child level]; replace (S (level l) - level l) with 1 by lia; symmetry; apply anc_child]).
    pose proof (nleaf_pos (gdim g)) as Hp. assert (H0 : In (child l 0) (children (gdim g) l)) by (apply in_children; exists 0; split; [lia|reflexivity]).
    assert (Hal : contains l a /\ level l < level a).
    { assert (Hno : ~ contains a l). { intros Hcal. assert (a = child l 0). { apply Hov; [exact Ha|apply Hc0, H0|]. left. eapply contains_trans; [exact Hcal|apply Hcc]. }
        subst a. destruct Hcal as [Hcal _]. cbn [child level] in Hcal. lia. }
      destruct Ho as [Ho|Ho]; [contradiction|]. split; [exact Ho|]. destruct Ho as [L A]. destruct (Nat.eq_dec (level l) (level a)) as [E|]; [|lia]. exfalso. apply Hno. split; [lia|]. rewrite E, Nat.sub_diag, anc_0 in A. subst l. rewrite Nat.sub_diag, anc_0. reflexivity. }
    destruct Hal as [[L A] Hlt]. pose proof (proj1 (Hdom a Ha)) as Da. set (c := anc (level a - S (level l)) a).
    assert (Lc : level c = S (level l)) by (unfold c; cbn [anc level]; lia). assert (Dc : in_domain g c) by (apply (dom_anc g); [exact Da|lia]).
    assert (Ec : anc 1 c = l). { unfold c. rewrite anc_anc. transitivity (anc (level a - level l) a); [f_equal; lia|symmetry; exact A]. }
    destruct (dom_child_of g c Dc ltac:(lia)) as (j & Hj & Ej). rewrite Ec in Ej.
    assert (Hcin : In c (children (gdim g) l)) by (apply in_children; exists j; split; assumption).
    assert (a = c). { apply Hov; [exact Ha|apply Hc0, Hcin|]. right. split; [lia|]. unfold c at 1. rewrite Lc. reflexivity. }
    rewrite <- H in Hcin, Lc. split; [lia|]. split; [lia|]. intros _. split; [exact Hcin|]. intros c' Hc'. split; [apply Hc0, Hc'|apply (HM l Hq c' Hc')].
Qed.
End Hist.
