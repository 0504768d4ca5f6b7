(** Property C87. *)
From Coq Require Import Reals ZArith Bool PeanoNat Lia Lra Psatz.
From Verif Require Import Time_Model Rec_Model Rec_Spec Rec_Proofs Rec_Props Char_Model Char_Spec Char_Proofs Char_Proofs2 Char_Proofs3 Char_Proofs4.
Local Open Scope R_scope.

(** Projecting on characteristic variables and back is the identity, both ways round, in the three directions: hydrodynamics always, magnetohydrodynamics when the transverse field does not vanish. *)
Theorem C87_roundtrip : forall mhd adi g x y z b w v n, axes x y z -> physical adi g w -> bent mhd adi w -> (n < size mhd adi)%nat ->
  RightEigenmatrixDotVector mhd adi g x b w (LeftEigenmatrixDotVector mhd adi g x b w v) n = v n /\ LeftEigenmatrixDotVector mhd adi g x b w (RightEigenmatrixDotVector mhd adi g x b w v) n = v n.
Proof. exact roundtrip. Qed.
Print Assumptions C87_roundtrip.
(** The components that do not belong to the system (passive scalars, say) are not touched. *)
Theorem C87_others_kept : forall mhd adi g x y z b w v n, axes x y z -> (size mhd adi <= n)%nat -> LeftEigenmatrixDotVector mhd adi g x b w v n = v n /\ RightEigenmatrixDotVector mhd adi g x b w v n = v n.
Proof.
  intros mhd adi g x y z b w v n A N. split.
  - unfold LeftEigenmatrixDotVector. rewrite size_nwave in N. replace (Nat.ltb n (NWAVE mhd adi)) with false by (symmetry; apply Nat.ltb_ge; exact N). reflexivity.
  - unfold RightEigenmatrixDotVector, upd. destruct mhd, adi, A; cbn [size pos_b Nat.add] in N; do 7 (try (destruct n; [exfalso; lia|])); reflexivity.
Qed.
Print Assumptions C87_others_kept.
Definition cellA : nat -> R := fun n => match n with 0%nat => 1 | 1%nat => 2 | 2%nat => 3 | 3%nat => -1 | 4%nat => 3 / 5 | 5%nat => 1 | _ => 2 end.
Example C87_roundtrip_witness : physical true (5 / 3) cellA /\ bent true true cellA /\ axes 2 3 1 /\ physical false 1 cellA /\ cellA 2%nat <> cellA 3%nat.
Proof.
  unfold physical, bent, cellA, pos_p, pos_b. repeat split; try lra; try (intros _; try (left); lra); constructor.
Qed.
(** The characteristic variables are those of the equations of motion: each moves at its own speed, which is the speed of a sound, slow, Alfven, fast or entropy wave, in increasing order. *)
Theorem C87_waves : forall mhd adi g x y z b w, axes x y z -> physical adi g w -> exists a cs ca cf,
  0 < a /\ a * a = sound2 adi g w /\ (mhd = true -> wave_speeds adi g b w cs ca cf) /\
  forall v r, rates mhd adi x y z g b w v r -> forall n, (n < size mhd adi)%nat ->
    LeftEigenmatrixDotVector mhd adi g x b w r n = speed mhd adi (w x) a cs ca cf n * LeftEigenmatrixDotVector mhd adi g x b w v n.
Proof.
  intros mhd adi g x y z b w A P. exists (a_of adi g w), (cs_of adi g b w), (SIGN b * b / sqrt (w IDN)), (cf_of adi g b w). destruct (sound_a adi g w P) as [S S0].
  split; [exact S0|]. split; [symmetry; exact S|]. split; [intros _; apply model_speeds; exact P|]. intros v r H n N. rewrite size_nwave in N. destruct mhd.
  - destruct adi; [apply (eig_ma g x y z); assumption|apply (eig_mi g x y z); assumption].
  - apply (eig_h adi g x y z); assumption.
Qed.
Print Assumptions C87_waves.
(** The speeds of the magnetic waves are determined by the dispersion relation. *)
Theorem C87_speeds_unique : forall adi g b w cs ca cf cs' ca' cf', physical adi g w -> wave_speeds adi g b w cs ca cf -> wave_speeds adi g b w cs' ca' cf' -> cs = cs' /\ ca = ca' /\ cf = cf'.
Proof.
  intros adi g b w cs ca cf cs' ca' cf' P (A1 & A2 & A3 & A4 & A5 & A6) (B1 & B2 & B3 & B4 & B5 & B6).
  assert (Q : cf * cf = cf' * cf').
  { assert (E : (cf * cf - cf' * cf') * (cf * cf - cs' * cs') = 0). { replace ((cf * cf - cf' * cf') * (cf * cf - cs' * cs')) with (cf * cf * (cf * cf) - (cf' * cf' + cs' * cs') * (cf * cf) + cf' * cf' * (cs' * cs')) by ring. rewrite B4, <- A4, B3, <- A3. ring. }
    destruct (Rmult_integral _ _ E) as [H|H]; [lra|]. assert (cs * cs = cf' * cf') by lra. nra. }
  assert (cs * cs = cs' * cs') by lra. assert (ca * ca = ca' * ca') by lra. repeat split; apply sq_inj; lra.
Qed.
Print Assumptions C87_speeds_unique.
Example C87_waves_witness : exists r, rates true true 1 2 3 (5 / 3) 1 cellA cellA r /\ r 1%nat <> 0.
Proof.
  exists (fun n => match n with 0%nat => 2 * 1 + 1 * 2 | 1%nat => 2 * 2 + (3 / 5 + (1 * 1 + 2 * 2)) / 1 | 2%nat => 2 * 3 - 1 / 1 * 1 | 3%nat => 2 * (-1) - 1 / 1 * 2 | 4%nat => 2 * (3 / 5) + 5 / 3 * (3 / 5) * 2 | 5%nat => 2 * 1 + 1 * 2 - 1 * 3 | _ => 2 * 2 + 2 * 2 - 1 * -1 end).
  split; [|lra]. intros n e H. destruct H; reflexivity.
Qed.
(** Where the transverse field vanishes the way back loses every transverse component: the two functions choose different directions for a field that has none. *)
Theorem C87_no_transverse_field : forall adi g x y z b w v, axes x y z -> w (pos_b adi) = 0 -> w (S (pos_b adi)) = 0 ->
  let V := RightEigenmatrixDotVector true adi g x b w (LeftEigenmatrixDotVector true adi g x b w v) in V y = 0 /\ V z = 0 /\ V (pos_b adi) = 0 /\ V (S (pos_b adi)) = 0.
Proof. intros adi g x y z b w v A Y Z. apply (lost adi g x y z); assumption. Qed.
Print Assumptions C87_no_transverse_field.
Definition cellB : nat -> R := fun n => match n with 0%nat => 1 | 1%nat => 0 | 2%nat => 3 | 3%nat => 0 | 4%nat => 3 / 5 | _ => 0 end.
Theorem C87_roundtrip_refuted : exists b w v, physical true (5 / 3) w /\ RightEigenmatrixDotVector true true (5 / 3) 1 b w (LeftEigenmatrixDotVector true true (5 / 3) 1 b w v) 2%nat <> v 2%nat.
Proof.
  exists 1, cellB, cellB. split; [unfold physical, cellB, pos_p; repeat split; try lra; intros _; lra|]. destruct (C87_no_transverse_field true (5 / 3) 1 2 3 1 cellB cellB Ax1 eq_refl eq_refl) as [Y _]. rewrite Y. unfold cellB. lra.
Qed.
Print Assumptions C87_roundtrip_refuted.

(** Linear reconstruction with projection: linear data are reproduced at both faces, any limiter, any mesh. *)
Theorem C87_plm_linear : forall mhd adi g x y z mm uc xf xv bx q i al be, axes x y z -> physical adi g (cell q i) -> bent mhd adi (cell q i) -> mesh xf xv i -> (uc = true -> even xf xv) ->
  (forall n m, (n < size mhd adi)%nat -> (i - 1 <= m <= i + 1)%Z -> q n m = al n + be n * xv m) ->
  forall n, (n < size mhd adi)%nat -> CharPLM mhd adi g x mm uc xf xv bx q i n = (al n + be n * xf (i + 1)%Z, al n + be n * xf i).
Proof. exact char_plm_linear. Qed.
Print Assumptions C87_plm_linear.
(** In a cell whose transverse field vanishes the transverse velocity and field get no slope at all, whatever the data. *)
Theorem C87_plm_flat_refuted : forall adi g x y z mm uc xf xv bx q i, axes x y z -> q (pos_b adi) i = 0 -> q (S (pos_b adi)) i = 0 ->
  CharPLM true adi g x mm uc xf xv bx q i y = (q y i, q y i) /\ CharPLM true adi g x mm uc xf xv bx q i z = (q z i, q z i).
Proof.
  intros adi g x y z mm uc xf xv bx q i A Y Z. unfold CharPLM. cbv zeta. unfold plm_states.
  set (c := fun n : nat => plm_slope mm uc xf xv (diff_line i (LeftEigenmatrixDotVector true adi g x (bx i) (cell q i) (fun n0 : nat => q n0 i - q n0 (i - 1)%Z) n) (LeftEigenmatrixDotVector true adi g x (bx i) (cell q i) (fun n0 : nat => q n0 (i + 1)%Z - q n0 i) n)) i).
  destruct (lost adi g x y z (bx i) (cell q i) c A Y Z) as (Vy & Vz & _). cbv zeta in Vy, Vz. rewrite Vy, Vz. split; f_equal; ring.
Qed.
Print Assumptions C87_plm_flat_refuted.
(** Parabolic reconstruction with projection: a uniform state gives that state at both faces on the three kinds of mesh. *)
Theorem C87_ppm_uniform : forall mhd adi g x y z ext bx q i, axes x y z -> physical adi g (cell q i) -> bent mhd adi (cell q i) ->
  (forall n m, (n < size mhd adi)%nat -> (i - 2 <= m <= i + 2)%Z -> q n m = q n i) -> forall n, (n < size mhd adi)%nat ->
  CharPPM mhd adi g x ext true false uniform_c bx q i n = (q n i, q n i) /\ (forall dx, CharPPM mhd adi g x ext false false (stretched_c dx) bx q i n = (q n i, q n i)) /\
  (forall unif sph is_ xf, 0 <= xf i < xf (i + 1)%Z -> CharPPM mhd adi g x ext unif true (radial_c sph is_ xf) bx q i n = (q n i, q n i)).
Proof.
  intros mhd adi g x y z ext bx q i A P B U n N. refine (conj _ (conj _ _)); intros; apply (char_ppm_uniform mhd adi g x y z); try assumption; intros l a L; destruct (C44_constant ext l i a L) as (C1 & C2 & C3); [exact C1|apply C2|apply C3; assumption].
Qed.
Print Assumptions C87_ppm_uniform.
(** In a cell whose transverse field vanishes the transverse velocity and field at both faces are nought whatever the data: a uniform flow across the direction of reconstruction is brought to rest at the faces. *)
Theorem C87_ppm_sideways_refuted : forall adi g x y z ext unif curv c bx q i, axes x y z -> q (pos_b adi) i = 0 -> q (S (pos_b adi)) i = 0 ->
  CharPPM true adi g x ext unif curv c bx q i y = (0, 0) /\ CharPPM true adi g x ext unif curv c bx q i z = (0, 0).
Proof.
  intros adi g x y z ext unif curv c bx q i A Y Z. unfold CharPPM. cbv zeta.
  match goal with |- context [(RightEigenmatrixDotVector _ _ _ _ _ _ ?a y, RightEigenmatrixDotVector _ _ _ _ _ _ ?b y)] => destruct (lost adi g x y z (bx i) (cell q i) a A Y Z) as (Vy & Vz & _); destruct (lost adi g x y z (bx i) (cell q i) b A Y Z) as (Wy & Wz & _) end.
  cbv zeta in Vy, Vz, Wy, Wz. rewrite Vy, Vz, Wy, Wz. split; reflexivity.
Qed.
Print Assumptions C87_ppm_sideways_refuted.
Example C87_ppm_sideways_witness : exists q : nat -> line, (forall n m, q n m = cellB n) /\ physical true (5 / 3) (cell q 0) /\ q 2%nat 0%Z = 3 /\ CharPPM true true (5 / 3) 1 true true false uniform_c (fun _ => 1) q 0 2 = (0, 0).
Proof.
  exists (fun n _ => cellB n). split; [reflexivity|]. split; [unfold physical, cell, cellB, pos_p; repeat split; try lra; intros _; lra|]. split; [reflexivity|]. apply (C87_ppm_sideways_refuted true (5 / 3) 1 2 3 true true false uniform_c (fun _ => 1) (fun n _ => cellB n) 0 Ax1); reflexivity.
Qed.
