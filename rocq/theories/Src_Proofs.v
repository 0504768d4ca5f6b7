(** Proofs for C83: the work of each source. *)
From Coq Require Import Reals ZArith List Bool Lra Lia Psatz.
From Verif Require Import Fv_Model Met_Model Src_Model Src_Spec.
Local Open Scope R_scope.

Lemma each_in d f u k j i : active d k j i = true -> each d f u k j i = f k j i (u k j i).
Proof. intros H. unfold each. now rewrite H. Qed.
Lemma each_out d f u k j i : active d k j i = false -> each d f u k j i = u k j i.
Proof. intros H. unfold each. now rewrite H. Qed.
Lemma work_trans w k j i a b c : work w k j i a c = work w k j i a b + work w k j i b c.
Proof. unfold work. ring. Qed.
Lemma gain_trans a b c : gain a c = gain a b + gain b c.
Proof. unfold gain. ring. Qed.
Lemma same w k j i a : gain a a = work w k j i a a.
Proof. unfold gain, work. ring. Qed.
Lemma gain_bump u a b c e : gain u (bump true u a b c e) = e.
Proof. unfold gain, bump. cbn [c_e]. ring. Qed.
Lemma work_bump w k j i nb u a b c e : work w k j i u (bump nb u a b c e) = v1 w k j i * a + v2 w k j i * b + v3 w k j i * c.
Proof. unfold work, bump. cbn [c_1 c_2 c_3]. ring. Qed.

Ltac cells H := rewrite !(each_in _ _ _ _ _ _ H).
Section Cell.
Variables (p : sources) (d : dims) (g : grid) (c : spacing) (dt : R) (F : vec) (w : prims) (phi : arr) (k j i : Z).
Hypothesis A : active d k j i = true.
Hypothesis NB : nonbaro p = true.
Hypothesis FL : flows_with w F k j i.

Lemma acc_work u : gain (u k j i) (ConstantAcceleration p d dt w u k j i) = work w k j i (u k j i) (ConstantAcceleration p d dt w u k j i).
Proof. unfold ConstantAcceleration. cells A. rewrite NB. destruct (nonzero (g1_ p)), (nonzero (g2_ p)), (nonzero (g3_ p)); unfold gain, work, bump; cbn [c_1 c_2 c_3 c_e]; ring. Qed.
Lemma grav_work u : gain (u k j i) (SelfGravity p c d dt F w phi u k j i) = work w k j i (u k j i) (SelfGravity p c d dt F w phi u k j i).
Proof.
  unfold SelfGravity. cells A. rewrite NB. destruct FL as [[-> ->] [[-> ->] [-> ->]]].
  destruct (Z.ltb 1 (nx2 d)), (Z.ltb 1 (nx3 d)); unfold gain, work, bump; cbn [c_1 c_2 c_3 c_e]; ring.
Qed.
Lemma shear_work u : x1f g (i + 1)%Z <> x1f g i -> dx1f g i = x1f g (i + 1)%Z - x1f g i ->
  gain (u k j i) (ShearingBoxSourceTerms p g d dt F w u k j i) = work w k j i (u k j i) (ShearingBoxSourceTerms p g d dt F w u k j i).
Proof.
  intros N E. unfold ShearingBoxSourceTerms. cells A. rewrite NB. destruct FL as [[-> ->] _]. rewrite E. unfold x1v, SQR.
  destruct (Z.eqb (ShBoxCoord_ p) 1); [|destruct (Z.eqb k (ks d)); [|apply same]]; rewrite gain_bump, work_bump; field; intros X; apply N; lra.
Qed.
End Cell.

(** Radii of a cell. *)
Section Radii.
Variables (g : grid) (i : Z).
Hypothesis C : radial_cell g i.
Lemma slim : 0 < slimness g i < 1.
Proof. destruct C as [H0 [H1 _]]. unfold slimness. split; [apply Rdiv_lt_0_compat; lra|apply Rmult_lt_reg_r with (x1f g (i + 1)%Z + x1f g i); [lra|field_simplify; lra]]. Qed.
Lemma cyl_ri : coord_src1_i cylindrical g i = 2 / (x1f g (i + 1)%Z + x1f g i).
Proof. destruct C as [H0 [H1 E]]. unfold coord_src1_i, coord_vol_i, coord_area3_i, coord_area2_i. rewrite E. field. split; [lra|]. intros X. nra. Qed.
Lemma sph_vol : x1f g (i + 1)%Z * x1f g (i + 1)%Z * x1f g (i + 1)%Z - x1f g i * x1f g i * x1f g i > 0.
Proof.
  destruct C as [H0 [H1 E]]. set (a := x1f g i) in *. set (b := x1f g (i + 1)%Z) in *. replace (b * b * b - a * a * a) with ((b - a) * (b * b + a * b + a * a)) by ring.
  apply Rmult_lt_0_compat; [lra|]. assert (0 < a * a) by (apply Rmult_lt_0_compat; lra). assert (0 < a * b) by (apply Rmult_lt_0_compat; lra). assert (0 < b * b) by (apply Rmult_lt_0_compat; lra). lra.
Qed.
Lemma sph_vol3 : x1f g (i + 1)%Z ^ 3 - x1f g i ^ 3 > 0.
Proof. pose proof sph_vol. cbn [pow]. lra. Qed.
Lemma sph_x1v_pos : 0 < x1v spherical_polar g i.
Proof.
  pose proof sph_vol3 as V. destruct C as [H0 [H1 E]]. unfold x1v. set (a := x1f g i) in *. set (b := x1f g (i + 1)%Z) in *.
  apply Rdiv_lt_0_compat; [|exact V]. replace (b ^ 4 - a ^ 4) with ((b - a) * ((b + a) * (b * b + a * a))) by ring.
  apply Rmult_lt_0_compat; [lra|]. apply Rmult_lt_0_compat; [lra|]. apply Rmult_lt_0_compat; [lra|]. assert (0 < a * a) by (apply Rmult_lt_0_compat; lra). assert (0 < b * b) by (apply Rmult_lt_0_compat; lra). lra.
Qed.
Lemma cyl_x1v_pos : 0 < x1v cylindrical g i.
Proof.
  pose proof sph_vol3 as V. destruct C as [H0 [H1 E]]. unfold x1v. set (a := x1f g i) in *. set (b := x1f g (i + 1)%Z) in *.
  apply Rdiv_lt_0_compat; [lra|]. replace (b ^ 2 - a ^ 2) with ((b - a) * (b + a)) by ring. apply Rmult_lt_0_compat; lra.
Qed.
(** The mean of 1/r times the mean of r, spherical shells. *)
Lemma sph_ratio : 1 <= coord_src1_i spherical_polar g i * x1v spherical_polar g i <= 1 + slimness g i * slimness g i / 3.
Proof.
  pose proof sph_vol as V. pose proof slim as S. assert (E : coord_src1_i spherical_polar g i * x1v spherical_polar g i = (1 + slimness g i * slimness g i) / ((1 + slimness g i * slimness g i / 3) * (1 + slimness g i * slimness g i / 3))).
  { destruct C as [H0 [H1 _]]. unfold coord_src1_i, coord_vol_i, coord_area2_i, x1v, slimness. set (a := x1f g i) in *. set (b := x1f g (i + 1)%Z) in *.
    assert (N : (b + a) * (b + a) * 3 + (b - a) * (b - a) <> 0) by nra.
    replace (1 / 2 * (b * b - a * a) / (1 / 3 * (b * b * b - a * a * a)) * (3 / 4 * (b ^ 4 - a ^ 4) / (b ^ 3 - a ^ 3))) with (9 / 8 * ((b + a) * (b + a) * (b * b + a * a)) / ((b * b + a * b + a * a) * (b * b + a * b + a * a))).
    - field. split; nra.
    - replace (b * b * b - a * a * a) with ((b - a) * (b * b + a * b + a * a)) by ring. replace (b ^ 3 - a ^ 3) with ((b - a) * (b * b + a * b + a * a)) by ring. field. split; nra. }
  rewrite E. set (h := slimness g i) in *. assert (Q : 0 <= h * h <= 1) by nra. set (y := h * h) in *. clearbody y. clear E S. split.
  - apply Rmult_le_reg_r with ((1 + y / 3) * (1 + y / 3)); [nra|]. unfold Rdiv. rewrite Rmult_assoc, Rinv_l by nra. nra.
  - apply Rmult_le_reg_r with ((1 + y / 3) * (1 + y / 3)); [nra|]. unfold Rdiv. rewrite Rmult_assoc, Rinv_l by nra. nra.
Qed.
End Radii.
