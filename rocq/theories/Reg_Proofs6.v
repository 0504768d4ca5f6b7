(** Unchanged blocks, bounds, independence of ranks; uniform meshes. *)
From Coq Require Import List Arith ZArith Bool Reals Lia Lra.
From Verif Require Import Loc LB_Spec AMR_Model AMR_Spec AMR_Proofs AMR_Proofs2 Tree_Model Tree_Spec Nbr_Model Nbr_Spec Buf_Model Fv_Model Fv_Spec Fv_Proofs Fv_Proofs2 Gho_Model Gho_Spec Gho_Proofs Con_Model Con_Spec Fgh_Model2 Reg_Model Reg_Spec Reg_Proofs Reg_Proofs2 Reg_Proofs3 Reg_Proofs4 Reg_Proofs5.
From Verif Require Ref_Model Ref_Spec Ref_Proofs Ref_Proofs2 Ref_Proofs4 Ref_Props.
Import ListNotations.
Local Open Scope Z_scope.

Lemma child_neq : forall l j, l <> child l j.
Proof. intros l j E. apply (f_equal level) in E. rewrite child_level in E. lia. Qed.
Lemma leaf0 : forall dim, (0 < nleaf dim)%nat.
Proof. intros dim. pose proof (nleaf_ge dim). lia. Qed.
(** Where a new block comes from. *)
Lemma origin : forall nr ps a, redistribution nr ps a -> forall n b, nth_error (newloc a) n = Some b -> exists q1 p q2 i, ps = q1 ++ p :: q2 /\ n = (length (new_blocks (a_dim a) q1) + i)%nat /\
  ((p = Keep b /\ i = 0%nat) \/ (exists l, p = Split l /\ (i < nleaf (a_dim a))%nat /\ b = child l i) \/ (p = Merge b /\ i = 0%nat)).
Proof.
  intros nr ps a RD n b H. pose proof RD as (_ & _ & _ & _ & En & _). assert (Hn : (n < length (new_blocks (a_dim a) ps))%nat) by (rewrite <- En; apply nth_error_Some; congruence).
  destruct (find_new _ _ _ Hn) as (q1 & p & q2 & i & E & En' & Hi). exists q1, p, q2, i. split; [exact E|]. split; [exact En'|]. destruct (at_piece a nr ps RD q1 p q2 E) as (_ & HN & _). rewrite En' in H. destruct p as [l|l|l]; cbn [nlen] in Hi.
  - destruct i; [|lia]. rewrite (HN 0%nat l eq_refl) in H. injection H as ->. left. auto.
  - right. left. exists l. rewrite (HN i (child l i) (nth_error_children _ _ _ Hi)) in H. injection H as <-. auto.
  - destruct i; [|lia]. rewrite (HN 0%nat l eq_refl) in H. injection H as ->. right. right. auto.
Qed.

Section Block.
Variables (B : bsz) (nl nu : Z) (vol : loc -> Fv_Model.arr) (xc xf : loc -> Ref_Model.pos) (a : amr) (U C : nat -> arr4 (A := R)) (fresh freshc : arr4 (A := R)).
Variables (nr : nat) (ps : list AMR_Spec.piece).
Hypothesis RD : redistribution nr ps a.
Hypothesis RB : refinable (a_dim a) B.
Notation NB := (NewBlock B nl nu vol xc xf a U C fresh freshc).
Notation dim := (a_dim a).
Lemma D1 : (1 <= dim <= 3)%nat. Proof using RD. clear RB. apply RD. Qed.
Lemma own_range : forall x, own B dim false x <-> forall d, (d < 3)%nat -> s_ B d <= x d <= e_ B d.
Proof using RD RB.
  intros x. unfold own. split; intros H d Hd; specialize (H d Hd); destruct (dir_facts dim B D1 RB d Hd) as [F|F]; lia.
Qed.
Lemma unchanged : forall n o l m (x : cell), nth_error (newloc a) n = Some l -> nth_error (oldloc a) o = Some l -> nl <= m <= nu -> own B dim false x -> value (NB n) m x = value (U o) m x.
Proof using RD RB.
  intros n o l m x Hn Ho Hm Hx. destruct (origin nr ps a RD n l Hn) as (q1 & p & q2 & i & E & En & HC). destruct (at_piece a nr ps RD q1 p q2 E) as (Hi & HN & HO).
  pose proof RD as (_ & _ & (_ & HD) & _). destruct HC as [[-> ->]|[(l' & -> & Hi' & El)|[-> ->]]].
  - specialize (HO 0%nat l eq_refl). assert (Eo : o = (length (old_blocks dim q1) + 0)%nat) by (apply (HD _ _ _ _ Ho HO); left; apply contains_refl). subst o.
    apply (new_keep B nl nu vol xc xf a U C fresh freshc D1 RB n _ l); [rewrite En, (Hi 0%nat ltac:(cbn [nlen]; lia)); lia|apply locs_at_nth, Ho|apply locs_at_nth, Hn|exact Hm|apply own_range, Hx].
  - exfalso. specialize (HO 0%nat l' eq_refl). assert (Eo : (length (old_blocks dim q1) + 0)%nat = o) by (apply (HD _ _ _ _ HO Ho); left; rewrite El; apply contains_child). rewrite Eo, Ho in HO. injection HO as HO. apply (child_neq l' i). congruence.
  - exfalso. specialize (HO 0%nat (child l 0) (nth_error_children _ _ _ (leaf0 _))). assert (Eo : o = (length (old_blocks dim q1) + 0)%nat) by (apply (HD _ _ _ _ Ho HO); left; apply contains_child). rewrite <- Eo, Ho in HO. injection HO as HO. apply (child_neq l 0 HO).
Qed.
(** The three kinds of new block, cell by cell. *)
Lemma kinds : forall n b m (x : cell), nth_error (newloc a) n = Some b -> nl <= m <= nu -> own B dim false x ->
  (exists o, nth_error (oldloc a) o = Some b /\ value (NB n) m x = value (U o) m x) \/
  (exists l on j w q, nth_error (oldloc a) on = Some l /\ b = child l j /\ (j < nleaf dim)%nat /\ coarse_own B dim q /\ In (pt_of x) (Ref_Spec.cells (block_dims B) (coarse_offs B) q) /\ on = AMR_Model.at_ (newtoold a) n /\
     parent_values B a b (U on m) w /\ value (NB n) m x = at_ (Ref_Model.ProlongateCC (block_dims B) (coarse_offs B) (xc b) (xf b) (coarse_box B 3) w (fresh m)) (pt_of x)) \/
  (exists on j q, nth_error (oldloc a) (on + j) = Some (child b j) /\ (j < nleaf dim)%nat /\ coarse_own B dim q /\ pt_of x = in_parent B dim (child b j) q /\ on = AMR_Model.at_ (newtoold a) n /\
     value (NB n) m x = at_ (Ref_Model.RestrictCC (block_dims B) (coarse_offs B) (vol (child b j)) (U (on + j)%nat m) (coarse_box B 3) (C (on + j)%nat m)) q).
Proof using RD RB.
  intros n b m x Hn Hm Hx. destruct (origin nr ps a RD n b Hn) as (q1 & p & q2 & i & E & En & HC). destruct (at_piece a nr ps RD q1 p q2 E) as (Hi & HN & HO). destruct HC as [[-> ->]|[(l & -> & Hi' & El)|[-> ->]]].
  - left. exists (length (old_blocks dim q1) + 0)%nat. split; [apply HO; reflexivity|]. apply (unchanged n _ b); auto.
  - right. left. specialize (HO 0%nat l eq_refl). rewrite Nat.add_0_r in HO. pose proof (Hi i Hi') as Ei. rewrite <- En in Ei. destruct (new_split B nl nu vol xc xf a U C fresh freshc D1 RB n (length (old_blocks dim q1)) l i m Ei (locs_at_nth _ _ _ HO)) as (w & Hw & EN); try assumption.
    { rewrite (locs_at_nth _ _ _ Hn). exact El. } { apply (flat_old a nr ps RD _ _ HO). }
    destruct (cover_cells dim B D1 RB x (proj1 (own_range x) Hx)) as (q & Hq & Hp). exists l, (length (old_blocks dim q1)), i, w, q. rewrite El in *. repeat (split; [assumption || reflexivity || (symmetry; assumption)|]). rewrite <- EN. reflexivity.
  - right. right. assert (HL : forall j, (j < nleaf dim)%nat -> nth_error (oldloc a) (length (old_blocks dim q1) + j) = Some (child b j)) by (intros j Hj; apply HO, nth_error_children, Hj).
    assert (HF : flat_loc dim b) by (apply (flat_parent a b 0), (flat_old a nr ps RD _ _ (HL 0%nat (leaf0 _)))).
    destruct (cover_parent dim B D1 RB b x HF (proj1 (own_range x) Hx)) as (j & q & Hj & Hq & Ep). pose proof (Hi 0%nat ltac:(cbn [nlen]; lia)) as Ei. rewrite <- En in Ei.
    exists (length (old_blocks dim q1)), j, q. split; [apply HL, Hj|]. split; [exact Hj|]. split; [exact Hq|]. split; [exact Ep|]. split; [symmetry; exact Ei|].
    rewrite <- (new_merge B nl nu vol xc xf a U C fresh freshc D1 RB n _ b j q m Ei (fun j Hj => locs_at_nth _ _ _ (HL j Hj)) (locs_at_nth _ _ _ Hn) HF Hm Hj Hq). rewrite <- Ep. reflexivity.
Qed.
Lemma near1 : forall k j i b, flat_loc dim b -> (forall d, (d < 3)%nat -> cs_ B d - fdim B d <= idx (k, j, i) d <= ce_ B d + fdim B d) -> near B dim false 1 (idx (in_parent B dim b (k, j, i))).
Proof using RD RB.
  intros k j i b HF H d Hd. specialize (H d Hd). assert (E : idx (in_parent B dim b (k, j, i)) d = idx (k, j, i) d + off dim B b d) by (unfold in_parent, idx, off; destruct d as [|[|[|d]]]; try lia; reflexivity).
  rewrite E. unfold off. pose proof (Z.mod_pos_bound (coord d b) 2 ltac:(lia)). destruct (dir_facts dim B D1 RB d Hd) as [F|F].
  - destruct F as (L & A1 & F1 & F2 & F3 & F4 & F5 & F6 & F7 & F8 & F9 & F10). rewrite (proj2 (Nat.ltb_lt _ _) L), F8, F9, F10. assert (Q : coord d b mod 2 = 0 \/ coord d b mod 2 = 1) by lia. destruct Q as [Q|Q]; rewrite Q; lia.
  - destruct F as (L & A1 & F1 & F2 & F3 & F4 & F5 & F6 & F7 & F8 & F9 & F10). rewrite (proj2 (Nat.ltb_ge _ _) L), F8, F10. lia.
Qed.
Lemma nearby_in : forall q p r, coarse_own B dim q -> In r (Ref_Spec.nearby (block_dims B) (coarse_offs B) q p) -> forall d, (d < 3)%nat -> cs_ B d - fdim B d <= idx r d <= ce_ B d + fdim B d.
Proof using RD RB.
  intros [[k j] i] [[fk fj] fi] r Hq Hr. pose proof (proj1 (own_idx dim B D1 RB (k, j, i)) Hq) as HI. pose proof (HI 0%nat ltac:(lia)) as H0. pose proof (HI 1%nat ltac:(lia)) as H1. pose proof (HI 2%nat ltac:(lia)) as H2. cbn [idx] in H0, H1, H2.
  assert (N2 : nx2 (block_dims B) = nx_ B 1 /\ nx3 (block_dims B) = nx_ B 2) by (pose proof D1; unfold nx2, nx3, block_dims; cbn [Fv_Model.is_ ie js je ks ke]; destruct (dir_facts dim B D1 RB 1%nat ltac:(lia)) as [F|F], (dir_facts dim B D1 RB 2%nat ltac:(lia)) as [F'|F']; lia).
  destruct N2 as [N2 N3]. unfold Ref_Spec.nearby, Ref_Spec.towards in Hr. rewrite N2, N3 in Hr.
  assert (F0 : fdim B 0 = 1) by reflexivity. pose proof (dir_facts dim B D1 RB 1%nat ltac:(lia)) as F1. pose proof (dir_facts dim B D1 RB 2%nat ltac:(lia)) as F2. unfold facts in F1, F2.
  intros d Hd. cbn [app In] in Hr. destruct Hr as [<-|[<-|Hr]].
  - specialize (HI d Hd). assert (0 <= fdim B d) by (unfold fdim; destruct (actv B d); lia). lia.
  - destruct d as [|[|[|d]]]; cbn [idx]; [destruct (Z.eqb _ _)| | |]; lia.
  - apply in_app_or in Hr. destruct Hr as [Hr|Hr].
    + destruct (Z.ltb_spec 1 (nx_ B 1)); [|destruct Hr]. destruct Hr as [<-|[]]. destruct d as [|[|[|d]]]; cbn [idx]; [|destruct (Z.eqb _ _)| |]; lia.
    + destruct (Z.ltb_spec 1 (nx_ B 2)); [|destruct Hr]. destruct Hr as [<-|[]]. destruct d as [|[|[|d]]]; cbn [idx]; [| |destruct (Z.eqb _ _)|]; lia.
Qed.
Lemma own_near : forall x, own B dim false x -> near B dim false 1 x.
Proof using. clear RD RB. intros x H d Hd. specialize (H d Hd). destruct (Nat.ltb d dim); lia. Qed.
Lemma bounded : volumes_add dim B vol (oldloc a) (newloc a) -> (forall b, In b (newloc a) -> well_spaced B (xc b) (xf b)) -> forall m lo hi, nl <= m <= nu ->
  (forall o l x, nth_error (oldloc a) o = Some l -> near B dim false 1 x -> (lo <= value (U o) m x <= hi)%R) ->
  forall n b x, nth_error (newloc a) n = Some b -> own B dim false x -> (lo <= value (NB n) m x <= hi)%R.
Proof using RD RB.
  intros VA WS m lo hi Hm HU n b x Hn Hx. destruct (kinds n b m x Hn Hm Hx) as [(o & Ho & ->)|[(l & on & j & w & q & Ho & El & Hj & Hq & Hp & Eon & Hw & ->)|(on & j & q & Ho & Hj & Hq & Ep & Eon & ->)]].
  - apply (HU o b); [exact Ho|apply own_near, Hx].
  - destruct (WS b (nth_error_In _ _ Hn) q (box_own dim B D1 RB q Hq)) as [SP NE]. apply (Ref_Props.C38_bounded _ _ _ _ _ _ _ q (pt_of x) (layout_block dim B D1 RB) (box_own dim B D1 RB q Hq) SP NE Hp).
    intros [[k j'] i] Hr. pose proof (nearby_in q (pt_of x) (k, j', i) Hq Hr) as HI. cbn [at_]. rewrite (Hw k j' i HI). assert (HF : flat_loc dim b); [|pose proof (HU on l _ Ho (near1 k j' i b HF HI)) as G; destruct (in_parent B dim b (k, j', i)) as [[pk pj] pi]; exact G]. rewrite El. apply (flat_child dim D1); [apply (flat_old a nr ps RD _ _ Ho)|exact Hj].
  - destruct (VA b (child b j) q) as [VP _]; [right; split; [apply (nth_error_In _ _ Ho)|apply (nth_error_In _ _ Hn)]|apply (in_children a), Hj|exact Hq|].
    apply (Ref_Props.C37_cells _ _ _ _ _ _ q (layout_block dim B D1 RB) (box_own dim B D1 RB q Hq) VP). intros [[pk pj] pi] Hp. apply (HU (on + j)%nat (child b j) (idx (pk, pj, pi)) Ho). apply own_near, own_range. intros d Hd. apply (cells_own dim B D1 RB q (pk, pj, pi) Hq Hp d Hd).
Qed.
End Block.
(** Neither the distribution over ranks nor what the buffers and new arrays held before matters. *)
Lemma ranks : forall B nl nu vol xc xf nr nr' ps a a' U C C' fresh fresh' freshc freshc', redistribution nr ps a -> refinable (a_dim a) B ->
  redistribution nr' ps a' -> a_dim a' = a_dim a ->
  forall n b m x, nth_error (newloc a) n = Some b -> nl <= m <= nu -> own B (a_dim a) false x ->
  value (NewBlock B nl nu vol xc xf a U C fresh freshc n) m x = value (NewBlock B nl nu vol xc xf a' U C' fresh' freshc' n) m x.
Proof.
  intros B nl nu vol xc xf nr nr' ps a a' U C C' fresh fresh' freshc freshc' RD RB RD' ED n b m x Hn Hm Hx.
  pose proof RD as (HD & _ & _ & Eo & En & Ei & _). pose proof RD' as (_ & _ & (_ & DJ) & Eo' & En' & Ei' & _). rewrite ED in Eo', En', Ei'. rewrite <- Eo in Eo'. rewrite <- En in En'. rewrite <- Ei in Ei'.
  pose proof RB as RB'. rewrite <- ED in RB'. pose proof Hx as Hx'. rewrite <- ED in Hx'. pose proof Hn as Hn'. rewrite <- En' in Hn'.
  destruct (kinds B nl nu vol xc xf a U C fresh freshc nr ps RD RB n b m x Hn Hm Hx) as [(o & Ho & ->)|[(l & on & j & w & q & Ho & El & Hj & Hq & Hp & Eon & Hw & ->)|(on & j & q & Ho & Hj & Hq & Ep & Eon & ->)]].
  - symmetry. apply (unchanged B nl nu vol xc xf a' U C' fresh' freshc' nr' ps RD' RB' n o b); rewrite ?Eo', ?En'; assumption.
  - destruct (kinds B nl nu vol xc xf a' U C' fresh' freshc' nr' ps RD' RB' n b m x Hn' Hm Hx') as [(o & Ho' & _)|[(l' & on' & j' & w' & q' & Ho' & El' & Hj' & Hq' & Hp' & Eon' & Hw' & ->)|(on' & j' & q' & Ho' & Hj' & Hq' & Ep' & Eon' & _)]].
    + exfalso. rewrite <- Eo' in Ho. assert (E : on = o) by (apply (DJ _ _ _ _ Ho Ho'); left; rewrite El; apply contains_child). rewrite E, Ho' in Ho. injection Ho as E2. apply (child_neq l j). congruence.
    + assert (E : on = on') by (rewrite Eon, Eon', Ei'; reflexivity). clear Eon'. subst on'. apply (prolong_local (a_dim a) B HD RB _ _ _ _ _ _ q (pt_of x) Hq Hp). intros k' j'' i' HI. rewrite (Hw _ _ _ HI), (Hw' _ _ _ HI). rewrite ED. reflexivity.
    + exfalso. rewrite <- Eo' in Ho. assert (E : on = (on' + j')%nat) by (apply (DJ _ _ _ _ Ho Ho'); left; rewrite El; apply (contains_trans _ (child l j)); apply contains_child). rewrite E, Ho' in Ho. injection Ho as E2. rewrite El in E2. apply (f_equal level) in E2. rewrite !child_level in E2. lia.
  - destruct (kinds B nl nu vol xc xf a' U C' fresh' freshc' nr' ps RD' RB' n b m x Hn' Hm Hx') as [(o & Ho' & _)|[(l' & on' & j' & w' & q' & Ho' & El' & Hj' & Hq' & Hp' & Eon' & Hw' & _)|(on' & j' & q' & Ho' & Hj' & Hq' & Ep' & Eon' & ->)]].
    + exfalso. rewrite <- Eo' in Ho. assert (E : o = (on + j)%nat) by (apply (DJ _ _ _ _ Ho' Ho); left; apply contains_child). rewrite E in Ho'. rewrite Ho in Ho'. injection Ho' as E2. apply (child_neq b j). congruence.
    + exfalso. rewrite <- Eo' in Ho. assert (E : on' = (on + j)%nat) by (apply (DJ _ _ _ _ Ho' Ho); left; rewrite El'; apply (contains_trans _ (child l' j')); apply contains_child). rewrite E, Ho in Ho'. injection Ho' as E2. rewrite El' in E2. apply (f_equal level) in E2. rewrite !child_level in E2. lia.
    + assert (E : on = on') by (rewrite Eon, Eon', Ei'; reflexivity). clear Eon'. subst on'. rewrite ED in Ep', Hq', Hj'. rewrite Ep in Ep'.
      assert (EJ : j = j').
      { apply (one_leaf (a_dim a) B HD RB b j j' (fun d => idx q d + off (a_dim a) B (child b j) d) Hj Hj').
        - apply reaches_spec. intros d Hd. rewrite (stag3 B) by exact Hd. pose proof (proj1 (own_idx (a_dim a) B HD RB q) Hq d Hd). lia.
        - apply reaches_spec. intros d Hd. rewrite (stag3 B) by exact Hd. pose proof (proj1 (own_idx (a_dim a) B HD RB q') Hq' d Hd) as R. assert (EQ : idx q d + off (a_dim a) B (child b j) d = idx q' d + off (a_dim a) B (child b j') d); [|lia].
          destruct q as [[k1 j1] i1], q' as [[k2 j2] i2]. unfold in_parent in Ep'. injection Ep' as P1 P2 P3. unfold off. destruct d as [|[|[|d]]]; cbn [idx]; try assumption; lia. }
      subst j'. assert (EQ : q = q') by (destruct q as [[k1 j1] i1], q' as [[k2 j2] i2]; unfold in_parent in Ep'; injection Ep' as P1 P2 P3; f_equal; [f_equal|]; lia). subst q'.
      rewrite !(restrict_val _ _ _ _ _ _ q (layout_block (a_dim a) B HD RB) (box_own (a_dim a) B HD RB q Hq)). reflexivity.
Qed.
