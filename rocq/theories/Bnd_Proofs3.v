(** The whole sequence of ApplyPhysicalBoundaries. *)
From Coq Require Import List ZArith Reals Bool Lia Lra.
From Verif Require Import Bnd_Model Bnd_Spec Bnd_Proofs Bnd_Proofs2.
Import ListNotations.
Local Open Scope Z_scope.

Lemma run_comm : forall v fc il iu jl ju kl ku ngh a, run v Comm fc il iu jl ju kl ku ngh a = a.
Proof. reflexivity. Qed.

Lemma applied_false : forall f, applied f = false -> f = Comm.
Proof. intros [] H; [reflexivity|discriminate H..]. Qed.

(** what a step does to the primary variables *)
Lemma step_vars : forall p g fc il iu jl ju kl ku x1 x2 y1 y2 z1 z2 s s',
  face_step p g fc il iu jl ju kl ku x1 x2 y1 y2 z1 z2 s = Some s' ->
  s_w s' = run Hydro (bcs g fc) fc il iu jl ju kl ku (NGHOST g) (s_w s) /\
  s_r s' = run (Scalars (NSCALARS g)) (bcs g fc) fc il iu jl ju kl ku (NGHOST g) (s_r s) /\
  s_b s' = run Field (bcs g fc) fc il iu jl ju kl ku (NGHOST g) (s_b s).
Proof.
  intros p g fc il iu jl ju kl ku x1 x2 y1 y2 z1 z2 s s' H. unfold face_step in H.
  destruct (applied (bcs g fc)) eqn:A.
  - unfold run.
    destruct (Dispatch Hydro (bcs g fc) fc il iu jl ju kl ku (NGHOST g)); [|discriminate H].
    destruct (Dispatch (Scalars (NSCALARS g)) (bcs g fc) fc il iu jl ju kl ku (NGHOST g)); [|discriminate H].
    destruct (Dispatch Field (bcs g fc) fc il iu jl ju kl ku (NGHOST g)); [|discriminate H].
    injection H as <-. cbn [s_w s_r s_b]. auto.
  - injection H as <-. rewrite (applied_false _ A), !run_comm. auto.
Qed.

Lemma dispatch_some : forall v f fc il iu jl ju kl ku ngh,
  (fc = inner_x2 \/ fc = outer_x2 \/ f <> PolarWedge) ->
  exists l, Dispatch v f fc il iu jl ju kl ku ngh = Some l.
Proof.
  intros v f fc il iu jl ju kl ku ngh H. destruct f; cbn [Dispatch]; try (eexists; reflexivity).
  destruct H as [->|[->|H]]; [| |contradiction]; destruct v; eexists; reflexivity.
Qed.

Lemma step_some : forall p g fc il iu jl ju kl ku x1 x2 y1 y2 z1 z2 s,
  (fc = inner_x2 \/ fc = outer_x2 \/ bcs g fc <> PolarWedge) ->
  exists s', face_step p g fc il iu jl ju kl ku x1 x2 y1 y2 z1 z2 s = Some s'.
Proof.
  intros p g fc il iu jl ju kl ku x1 x2 y1 y2 z1 z2 s H. unfold face_step.
  destruct (applied (bcs g fc)); [|eexists; reflexivity].
  destruct (dispatch_some Hydro (bcs g fc) fc il iu jl ju kl ku (NGHOST g) H) as (l1 & ->).
  destruct (dispatch_some (Scalars (NSCALARS g)) (bcs g fc) fc il iu jl ju kl ku (NGHOST g) H) as (l2 & ->).
  destruct (dispatch_some Field (bcs g fc) fc il iu jl ju kl ku (NGHOST g) H) as (l3 & ->).
  eexists. reflexivity.
Qed.

(** ** Limits used by the sequence *)
Definition Bjs (g : block) := if negb (applied (bcs g inner_x2)) && f2 g then b_js g - NGHOST g else b_js g.
Definition Bje (g : block) := if negb (applied (bcs g outer_x2)) && f2 g then b_je g + NGHOST g else b_je g.
Definition Bks (g : block) := if negb (applied (bcs g inner_x3)) && f3 g then b_ks g - NGHOST g else b_ks g.
Definition Bke (g : block) := if negb (applied (bcs g outer_x3)) && f3 g then b_ke g + NGHOST g else b_ke g.
Definition Bis (g : block) := b_is g - NGHOST g.
Definition Bie (g : block) := b_ie g + NGHOST g.

(** the run of the six boundary functions on one variable *)
Definition run1 (v : var) (g : block) (a : cells) : cells :=
  run v (bcs g outer_x1) outer_x1 (b_is g) (b_ie g) (Bjs g) (Bje g) (Bks g) (Bke g) (NGHOST g)
  (run v (bcs g inner_x1) inner_x1 (b_is g) (b_ie g) (Bjs g) (Bje g) (Bks g) (Bke g) (NGHOST g) a).
Definition run2 (v : var) (g : block) (a : cells) : cells :=
  if f2 g then
  run v (bcs g outer_x2) outer_x2 (Bis g) (Bie g) (b_js g) (b_je g) (Bks g) (Bke g) (NGHOST g)
  (run v (bcs g inner_x2) inner_x2 (Bis g) (Bie g) (b_js g) (b_je g) (Bks g) (Bke g) (NGHOST g) a)
  else a.
Definition run3 (v : var) (g : block) (a : cells) : cells :=
  if f3 g then
  run v (bcs g outer_x3) outer_x3 (Bis g) (Bie g) (b_js g - NGHOST g) (b_je g + NGHOST g) (b_ks g) (b_ke g) (NGHOST g)
  (run v (bcs g inner_x3) inner_x3 (Bis g) (Bie g) (b_js g - NGHOST g) (b_je g + NGHOST g) (b_ks g) (b_ke g) (NGHOST g) a)
  else a.

Lemma bind_some : forall A B (x : option A) (f : A -> option B) y,
  bind x f = Some y -> exists a, x = Some a /\ f a = Some y.
Proof. intros A B [a|] f y H; [exists a; split; [reflexivity|exact H]|discriminate H]. Qed.

(** the steps, named *)
Definition S1i p g := face_step p g inner_x1 (b_is g) (b_ie g) (Bjs g) (Bje g) (Bks g) (Bke g)
  (b_is g - NGHOST g) (b_is g - 1) (Bjs g) (Bje g) (Bks g) (Bke g).
Definition S1o p g := face_step p g outer_x1 (b_is g) (b_ie g) (Bjs g) (Bje g) (Bks g) (Bke g)
  (b_ie g + 1) (b_ie g + NGHOST g) (Bjs g) (Bje g) (Bks g) (Bke g).
Definition S2i p g := face_step p g inner_x2 (Bis g) (Bie g) (b_js g) (b_je g) (Bks g) (Bke g)
  (Bis g) (Bie g) (b_js g - NGHOST g) (b_js g - 1) (Bks g) (Bke g).
Definition S2o p g := face_step p g outer_x2 (Bis g) (Bie g) (b_js g) (b_je g) (Bks g) (Bke g)
  (Bis g) (Bie g) (b_je g + 1) (b_je g + NGHOST g) (Bks g) (Bke g).
Definition S3i p g := face_step p g inner_x3 (Bis g) (Bie g) (b_js g - NGHOST g) (b_je g + NGHOST g) (b_ks g) (b_ke g)
  (Bis g) (Bie g) (b_js g - NGHOST g) (b_je g + NGHOST g) (b_ks g - NGHOST g) (b_ks g - 1).
Definition S3o p g := face_step p g outer_x3 (Bis g) (Bie g) (b_js g - NGHOST g) (b_je g + NGHOST g) (b_ks g) (b_ke g)
  (Bis g) (Bie g) (b_js g - NGHOST g) (b_je g + NGHOST g) (b_ke g + 1) (b_ke g + NGHOST g).

Lemma apply_steps : forall p g s s', ApplyPhysicalBoundaries p g s = Some s' ->
  exists s1 s2 s3 s4 s5,
    S1i p g s = Some s1 /\ S1o p g s1 = Some s2 /\
    (if f2 g then S2i p g s2 = Some s3 /\ S2o p g s3 = Some s4 else s3 = s2 /\ s4 = s2) /\
    (if f3 g then S3i p g s4 = Some s5 /\ S3o p g s5 = Some s' else s5 = s4 /\ s' = s4).
Proof.
  intros p g s s' H. unfold ApplyPhysicalBoundaries in H.
  apply bind_some in H. destruct H as (s1 & H1 & H).
  apply bind_some in H. destruct H as (s2 & H2 & H).
  apply bind_some in H. destruct H as (s4 & H4 & H).
  destruct (f2 g) eqn:F2; destruct (f3 g) eqn:F3.
  - apply bind_some in H4. destruct H4 as (s3 & H3 & H4).
    apply bind_some in H. destruct H as (s5 & H5 & H).
    exists s1, s2, s3, s4, s5. unfold S1i, S1o, S2i, S2o, S3i, S3o, Bjs, Bje, Bks, Bke, Bis, Bie.
    rewrite F2, F3. repeat split; assumption.
  - apply bind_some in H4. destruct H4 as (s3 & H3 & H4). injection H as <-.
    exists s1, s2, s3, s4, s4. unfold S1i, S1o, S2i, S2o, S3i, S3o, Bjs, Bje, Bks, Bke, Bis, Bie.
    rewrite F2, F3. repeat split; assumption.
  - injection H4 as ->. apply bind_some in H. destruct H as (s5 & H5 & H).
    exists s1, s4, s4, s4, s5. unfold S1i, S1o, S2i, S2o, S3i, S3o, Bjs, Bje, Bks, Bke, Bis, Bie.
    rewrite F2, F3. repeat split; assumption.
  - injection H4 as ->. injection H as <-.
    exists s1, s4, s4, s4, s4. unfold S1i, S1o, S2i, S2o, S3i, S3o, Bjs, Bje, Bks, Bke, Bis, Bie.
    rewrite F2, F3. repeat split; assumption.
Qed.

Lemma apply_vars : forall p g s s', ApplyPhysicalBoundaries p g s = Some s' ->
  s_w s' = run3 Hydro g (run2 Hydro g (run1 Hydro g (s_w s))) /\
  s_r s' = (let v := Scalars (NSCALARS g) in run3 v g (run2 v g (run1 v g (s_r s)))) /\
  s_b s' = run3 Field g (run2 Field g (run1 Field g (s_b s))).
Proof.
  intros p g s s' H. apply apply_steps in H.
  destruct H as (s1 & s2 & s3 & s4 & s5 & H1 & H2 & H34 & H56).
  apply step_vars in H1. destruct H1 as (W1 & R1 & B1).
  apply step_vars in H2. destruct H2 as (W2 & R2 & B2).
  unfold run1, run2, run3.
  destruct (f2 g); destruct (f3 g);
    repeat match goal with
    | H : _ /\ _ |- _ => destruct H
    | H : S2i _ _ _ = Some _ |- _ => apply step_vars in H
    | H : S2o _ _ _ = Some _ |- _ => apply step_vars in H
    | H : S3i _ _ _ = Some _ |- _ => apply step_vars in H
    | H : S3o _ _ _ = Some _ |- _ => apply step_vars in H
    end; subst; cbn zeta; repeat split; congruence.
Qed.

Theorem apply_total : forall p g s, legal g ->
  exists s', ApplyPhysicalBoundaries p g s = Some s'.
Proof.
  intros p g s (L1 & L2 & L3). unfold ApplyPhysicalBoundaries.
  match goal with |- context [bind (face_step ?p ?g ?f ?a ?b ?c ?d ?e ?h ?i ?j ?k ?l ?m ?n s) _] =>
    destruct (step_some p g f a b c d e h i j k l m n s ltac:(auto)) as (s1 & ->) end.
  cbn [bind].
  match goal with |- context [bind (face_step ?p ?g ?f ?a ?b ?c ?d ?e ?h ?i ?j ?k ?l ?m ?n s1) _] =>
    destruct (step_some p g f a b c d e h i j k l m n s1 ltac:(auto)) as (s2 & ->) end.
  cbn [bind].
  assert (X : exists s4, (if f2 g then
          bind (face_step p g inner_x2 (b_is g - NGHOST g) (b_ie g + NGHOST g) (b_js g) (b_je g) (Bks g) (Bke g) (b_is g - NGHOST g) (b_ie g + NGHOST g) (b_js g - NGHOST g) (b_js g - 1) (Bks g) (Bke g) s2)
          (fun s =>
           face_step p g outer_x2 (b_is g - NGHOST g) (b_ie g + NGHOST g) (b_js g) (b_je g) (Bks g) (Bke g) (b_is g - NGHOST g) (b_ie g + NGHOST g) (b_je g + 1) (b_je g + NGHOST g) (Bks g) (Bke g) s)
        else Some s2) = Some s4).
  { destruct (f2 g); [|eexists; reflexivity].
    match goal with |- context [bind (face_step ?p ?g ?f ?a ?b ?c ?d ?e ?h ?i ?j ?k ?l ?m ?n s2) _] =>
      destruct (step_some p g f a b c d e h i j k l m n s2 ltac:(auto)) as (s3 & ->) end.
    cbn [bind]. apply step_some. auto. }
  destruct X as (s4 & X). unfold Bks, Bke in X. rewrite X. cbn [bind].
  destruct (f3 g) eqn:F3; [|eexists; reflexivity].
  destruct (L3 eq_refl) as (L4 & L5).
  match goal with |- context [bind (face_step ?p ?g ?f ?a ?b ?c ?d ?e ?h ?i ?j ?k ?l ?m ?n s4) _] =>
    destruct (step_some p g f a b c d e h i j k l m n s4 ltac:(auto)) as (s5 & ->) end.
  cbn [bind]. apply step_some. auto.
Qed.

(** ** Cell-centred variables *)
Lemma met_image_in : forall f1 f2 lo hi ngh i, 1 <= ngh <= hi - lo + 1 ->
  lo - ngh <= i <= hi + ngh ->
  (if applied f1 then lo else lo - ngh) <= img 0 f1 f2 lo hi i
  <= (if applied f2 then hi else hi + ngh).
Proof.
  intros f1 f2 lo hi ngh i G Hi. unfold img.
  destruct (Z.ltb_spec i lo); [|destruct (Z.ltb_spec (hi + 0) i)];
    destruct f1, f2; cbn [applied lowerf upperf]; lia.
Qed.

Lemma cc_result : forall v g a n k j i, is_cc v -> wf g -> legal g ->
  0 <= n <= nu_of v -> in_array g k j i ->
  run3 v g (run2 v g (run1 v g a)) (n, k, j, i) = promised g a (axis_of v n) n k j i.
Proof.
  intros v g a n k j i C (G0 & GS & G1 & G2 & G3) (L1 & L2 & L3) Hn (Hi & Hj & Hk).
  unfold promised, x2_flags, x3_flags.
  rewrite <- !img_cell.
  assert (E3 : exists i3 o3, x3_flags g = (i3, o3) /\
     run3 v g (run2 v g (run1 v g a)) (n, k, j, i) =
     (mirror_sign 3 (axis_of v n) (met i3 o3 (b_ks g) (b_ke g) k) *
      run2 v g (run1 v g a) (n, img 0 i3 o3 (b_ks g) (b_ke g) k, j, i))%R
     /\ Bks g <= img 0 i3 o3 (b_ks g) (b_ke g) k <= Bke g).
  { unfold run3, x3_flags, Bks, Bke. destruct (f3 g).
    - destruct G3 as (F2 & G3). rewrite F2 in Hj, G2. destruct (L3 eq_refl) as (L4 & L5).
      exists (bcs g inner_x3), (bcs g outer_x3). split; [reflexivity|]. split.
      + rewrite stage3 by (assumption || lia). unfold Bis, Bie.
        rewrite !inb_yes by lia. cbn [andb]. rewrite Z.add_0_r. reflexivity.
      + pose proof (met_image_in (bcs g inner_x3) (bcs g outer_x3) (b_ks g) (b_ke g) (NGHOST g) k) as M.
        rewrite !andb_true_r. destruct (applied (bcs g inner_x3)), (applied (bcs g outer_x3)); cbn [negb]; apply M; lia.
    - exists Comm, Comm. split; [reflexivity|]. rewrite !andb_false_r. subst k.
      unfold met, img. rewrite Z.ltb_irrefl, Z.add_0_r.
      replace (b_ke g <? b_ks g) with false by (symmetry; apply Z.ltb_ge; lia).
      rewrite sign_comm, Rmult_1_l. split; [reflexivity|lia]. }
  destruct E3 as (i3 & o3 & X3 & E3 & K3). unfold x3_flags in X3. rewrite X3, E3.
  set (k' := img 0 i3 o3 (b_ks g) (b_ke g) k) in *.
  assert (E2 : exists i2 o2, x2_flags g = (i2, o2) /\
     run2 v g (run1 v g a) (n, k', j, i) =
     (mirror_sign 2 (axis_of v n) (met i2 o2 (b_js g) (b_je g) j) *
      run1 v g a (n, k', img 0 i2 o2 (b_js g) (b_je g) j, i))%R
     /\ Bjs g <= img 0 i2 o2 (b_js g) (b_je g) j <= Bje g).
  { unfold run2, x2_flags, Bjs, Bje. destruct (f2 g).
    - exists (bcs g inner_x2), (bcs g outer_x2). split; [reflexivity|]. split.
      + rewrite stage2 by (assumption || lia). unfold Bis, Bie.
        rewrite !inb_yes by lia. cbn [andb]. rewrite Z.add_0_r. reflexivity.
      + pose proof (met_image_in (bcs g inner_x2) (bcs g outer_x2) (b_js g) (b_je g) (NGHOST g) j) as M.
        rewrite !andb_true_r. destruct (applied (bcs g inner_x2)), (applied (bcs g outer_x2)); cbn [negb]; apply M; lia.
    - exists Comm, Comm. split; [reflexivity|]. rewrite !andb_false_r. subst j.
      unfold met, img. rewrite Z.ltb_irrefl, Z.add_0_r.
      replace (b_je g <? b_js g) with false by (symmetry; apply Z.ltb_ge; lia).
      rewrite sign_comm, Rmult_1_l. split; [reflexivity|lia]. }
  destruct E2 as (i2 & o2 & X2 & E2 & K2). unfold x2_flags in X2. rewrite X2, E2.
  set (j' := img 0 i2 o2 (b_js g) (b_je g) j) in *.
  assert (E1 : run1 v g a (n, k', j', i) =
     (mirror_sign 1 (axis_of v n) (met (bcs g inner_x1) (bcs g outer_x1) (b_is g) (b_ie g) i) *
      a (n, k', j', img 0 (bcs g inner_x1) (bcs g outer_x1) (b_is g) (b_ie g) i))%R).
  { unfold run1. rewrite stage1 by (assumption || lia). rewrite !inb_yes by lia. cbn [andb].
    rewrite Z.add_0_r. reflexivity. }
  rewrite E1. subst k' j'. rewrite <- !img_cell. ring.
Qed.

(** ** Face-centred field *)
(** a polar wedge needs the ghost zone to be thinner than the block *)
Definition wedge_ok (g : block) : Prop :=
  f2 g = true -> bcs g inner_x2 = PolarWedge -> NGHOST g < b_je g - b_js g + 1.

Lemma met_imagef_in : forall d f1 f2 lo hi ngh i, d = 0 \/ d = 1 -> 1 <= ngh <= hi - lo + 1 ->
  lo - ngh <= i <= hi + ngh + d ->
  (if applied f1 then lo else lo - ngh) <= img d f1 f2 lo hi i
  <= (if applied f2 then hi else hi + ngh) + d.
Proof.
  intros d f1 f2 lo hi ngh i Hd G Hi. unfold img.
  destruct (Z.ltb_spec i lo); [|destruct (Z.ltb_spec (hi + d) i)];
    destruct f1, f2; cbn [applied lowerf upperf]; lia.
Qed.

Lemma img_al : forall m n i1 o1 lo hi i,
  img (al m n) i1 o1 lo hi i = (if n =? m then face_image else image) i1 o1 lo hi i.
Proof.
  intros. unfold al. destruct (n =? m); [apply img_face|apply img_cell].
Qed.

Lemma al_01 : forall m n, al m n = 0 \/ al m n = 1.
Proof. intros. unfold al. destruct (n =? m); [right|left]; reflexivity. Qed.

Lemma fc_result : forall g a n k j i, wf g -> legal g -> wedge_ok g ->
  in_face_array g n k j i ->
  run3 Field g (run2 Field g (run1 Field g a)) (n, k, j, i) = promised_face g a n k j i.
Proof.
  intros g a n k j i (G0 & GS & G1 & G2 & G3) (L1 & L2 & L3) W (Hn & Hi & Hj & Hk).
  pose proof (al_01 0 n) as D0.
  pose proof (al_01 1 n) as D1.
  pose proof (al_01 2 n) as D2.
  fold (al 0 n) in Hi. fold (al 1 n) in Hj. fold (al 2 n) in Hk.
  assert (E3 : exists i3 o3, x3_flags g = (i3, o3) /\
     run3 Field g (run2 Field g (run1 Field g a)) (n, k, j, i) =
     (mirror_sign 3 (field_axis n) (met i3 o3 (b_ks g) (b_ke g + al 2 n) k) *
      run2 Field g (run1 Field g a) (n, img (al 2 n) i3 o3 (b_ks g) (b_ke g) k, j, i))%R
     /\ Bks g <= img (al 2 n) i3 o3 (b_ks g) (b_ke g) k <= Bke g + al 2 n).
  { unfold run3, x3_flags, Bks, Bke. destruct (f3 g).
    - destruct G3 as (F2 & G3). rewrite F2 in Hj, G2. destruct (L3 eq_refl) as (L4 & L5).
      exists (bcs g inner_x3), (bcs g outer_x3). split; [reflexivity|]. split.
      + rewrite fstage3 by (assumption || lia). unfold Bis, Bie.
        rewrite !inb_yes by lia. cbn [andb]. reflexivity.
      + pose proof (met_imagef_in (al 2 n) (bcs g inner_x3) (bcs g outer_x3) (b_ks g) (b_ke g) (NGHOST g) k) as M.
        rewrite !andb_true_r. destruct (applied (bcs g inner_x3)), (applied (bcs g outer_x3)); cbn [negb]; apply M; lia.
    - exists Comm, Comm. split; [reflexivity|]. rewrite !andb_false_r.
      unfold met, img.
      replace (k <? b_ks g) with false by (symmetry; apply Z.ltb_ge; lia).
      replace (b_ke g + al 2 n <? k) with false by (symmetry; apply Z.ltb_ge; lia).
      rewrite sign_comm, Rmult_1_l. split; [reflexivity|lia]. }
  destruct E3 as (i3 & o3 & X3 & E3 & K3). rewrite E3.
  set (k' := img (al 2 n) i3 o3 (b_ks g) (b_ke g) k) in *.
  assert (E2 : exists i2 o2, x2_flags g = (i2, o2) /\
     run2 Field g (run1 Field g a) (n, k', j, i) =
     (if pole_face g n j then 0 else
      mirror_sign 2 (field_axis n) (met i2 o2 (b_js g) (b_je g + al 1 n)%Z j) *
      run1 Field g a (n, k', img (al 1 n) i2 o2 (b_js g) (b_je g) j, i))%R
     /\ Bjs g <= img (al 1 n) i2 o2 (b_js g) (b_je g) j <= Bje g + al 1 n).
  { unfold run2, x2_flags, Bjs, Bje, pole_face, x2_flags. unfold wedge_ok in W. destruct (f2 g).
    - exists (bcs g inner_x2), (bcs g outer_x2). split; [reflexivity|]. split.
      + rewrite fstage2 by (first [assumption|lia|intro; apply W; [reflexivity|assumption]]). unfold Bis, Bie.
        rewrite !inb_yes by lia. cbn [andb].
        match goal with |- (if ?c1 then _ else _) = (if ?c2 then _ else _) => assert (E : c1 = c2) end.
        { destruct (n =? 1); destruct (bcs g inner_x2), (bcs g outer_x2); cbn [is_wedge andb orb];
          rewrite ?andb_true_r, ?andb_false_r; cbn [andb orb]; reflexivity. }
        rewrite E. reflexivity.
      + pose proof (met_imagef_in (al 1 n) (bcs g inner_x2) (bcs g outer_x2) (b_js g) (b_je g) (NGHOST g) j) as M.
        rewrite !andb_true_r. destruct (applied (bcs g inner_x2)), (applied (bcs g outer_x2)); cbn [negb]; apply M; lia.
    - exists Comm, Comm. split; [reflexivity|]. rewrite !andb_false_r. cbn [orb].
      unfold met, img.
      replace (j <? b_js g) with false by (symmetry; apply Z.ltb_ge; lia).
      replace (b_je g + al 1 n <? j) with false by (symmetry; apply Z.ltb_ge; lia).
      rewrite sign_comm, Rmult_1_l. rewrite ?andb_false_r. split; [reflexivity|lia]. }
  destruct E2 as (i2 & o2 & X2 & E2 & K2). rewrite E2.
  unfold promised_face. rewrite X2, X3.
  destruct (pole_face g n j); [ring|].
  set (j' := img (al 1 n) i2 o2 (b_js g) (b_je g) j) in *.
  assert (E1 : run1 Field g a (n, k', j', i) =
     (mirror_sign 1 (field_axis n) (met (bcs g inner_x1) (bcs g outer_x1) (b_is g) (b_ie g + al 0 n) i) *
      a (n, k', j', img (al 0 n) (bcs g inner_x1) (bcs g outer_x1) (b_is g) (b_ie g) i))%R).
  { unfold run1. rewrite fstage1 by (assumption || lia). rewrite !inb_yes by lia. reflexivity. }
  rewrite E1. subst k' j'. fold (al 0 n) (al 1 n) (al 2 n). rewrite <- !img_al. ring.
Qed.
