(** Proofs for C83: curvilinear coordinates and orbital advection. *)
From Coq Require Import Reals ZArith List Bool Lra Lia Psatz.
From Verif Require Import Fv_Model Met_Model Src_Model Src_Spec Src_Proofs.
Local Open Scope R_scope.

Section Cell.
Variables (p : sources) (o : orbit) (d : dims) (g : grid) (dt : R) (F : vec) (w : prims) (k j i : Z).
Hypothesis A : active d k j i = true.
Hypothesis NB : nonbaro p = true.
Hypothesis FL : flows_with w F k j i.
Hypothesis C : radial_cell g i.
Notation h := (slimness g i).

Lemma mass_cyl u : work w k j i (u k j i) (PointMass p cylindrical g d dt F w u k j i) = (1 - h * h) * gain (u k j i) (PointMass p cylindrical g d dt F w u k j i).
Proof.
  pose proof (cyl_x1v_pos g i C) as X. unfold PointMass. cells A. rewrite NB, gain_bump, work_bump, (cyl_ri g i C). destruct FL as [[-> ->] _]. unfold phy_src1_i, phy_src2_i, slimness.
  set (r := x1v cylindrical g i) in *. destruct C as [H0 [H1 _]]. field. repeat split; lra.
Qed.
Lemma mass_sph u : work w k j i (u k j i) (PointMass p spherical_polar g d dt F w u k j i)
  = coord_src1_i spherical_polar g i * x1v spherical_polar g i * gain (u k j i) (PointMass p spherical_polar g d dt F w u k j i).
Proof.
  pose proof (sph_x1v_pos g i C) as X. unfold PointMass. cells A. rewrite NB, gain_bump, work_bump. destruct FL as [[-> ->] _]. unfold phy_src2_i, phy_src1_i, SQR.
  set (r := x1v spherical_polar g i) in *. set (q := coord_src1_i spherical_polar g i). field. lra.
Qed.
Lemma rot_cyl u : work w k j i (u k j i) (RotatingSystemSourceTerms p cylindrical g d dt F w u k j i) = gain (u k j i) (RotatingSystemSourceTerms p cylindrical g d dt F w u k j i).
Proof. unfold RotatingSystemSourceTerms. cells A. rewrite NB, gain_bump, work_bump. destruct FL as [[-> ->] _]. unfold SQR. field. Qed.
Lemma rot_sph u : work w k j i (u k j i) (RotatingSystemSourceTerms p spherical_polar g d dt F w u k j i)
  = coord_src1_i spherical_polar g i * x1v spherical_polar g i * gain (u k j i) (RotatingSystemSourceTerms p spherical_polar g d dt F w u k j i).
Proof.
  pose proof (sph_x1v_pos g i C) as X. unfold RotatingSystemSourceTerms. cells A. rewrite NB, gain_bump, work_bump. destruct FL as [[-> ->] [[-> ->] _]]. unfold coord_src3_j. fold (coord_src1_j g j). unfold SQR.
  set (r := x1v spherical_polar g i) in *. set (q := coord_src1_i spherical_polar g i). field. lra.
Qed.

Definition b12 : R := if mhd p then b1 w k j i * b2 w k j i else 0.
Definition b13 : R := if mhd p then b1 w k j i * b3 w k j i else 0.
Definition b23 : R := if mhd p then b2 w k j i * b3 w k j i else 0.

Lemma orb_cart u : user_velocity o = false ->
  gain (u k j i) (OrbitalAdvectionSourceTerms p o cartesian g d dt F w u k j i) = work w k j i (u k j i) (OrbitalAdvectionSourceTerms p o cartesian g d dt F w u k j i) + dt * (- qshear_ p * Omega_0_ p) * b12.
Proof. intros E. unfold OrbitalAdvectionSourceTerms, b12. rewrite E. cbn [negb]. cells A. rewrite NB, gain_bump, work_bump. destruct FL as [[-> ->] _]. destruct (mhd p); field. Qed.
Lemma nonzero_no x : nonzero x = false -> x = 0.
Proof. unfold nonzero. destruct (Req_EM_T x 0); [auto|discriminate]. Qed.
Lemma orb_cart_user u : user_velocity o = true -> vKc o k i = (vKf1 o k i + vKf1 o k (i + 1)%Z) / 2 -> (Z.ltb 1 (nx3 d) = true -> mhd p = true -> dvKc2 o k i = 0) ->
  gain (u k j i) (OrbitalAdvectionSourceTerms p o cartesian g d dt F w u k j i) = work w k j i (u k j i) (OrbitalAdvectionSourceTerms p o cartesian g d dt F w u k j i) + dt * dvKc1 o k i * b12.
Proof.
  intros E M Z2. unfold OrbitalAdvectionSourceTerms, b12. rewrite E. cbn [negb]. cells A. rewrite NB. destruct FL as [[-> ->] [_ [-> ->]]]. rewrite M. unfold x1v.
  destruct (Z.ltb 1 (nx3 d)) eqn:E3; [destruct (nonzero (dvKc2 o k i)) eqn:N|].
  - destruct (mhd p) eqn:Em; [exfalso; rewrite (Z2 eq_refl eq_refl) in N; unfold nonzero in N; destruct (Req_EM_T 0 0); [discriminate N|lra]|].
    unfold gain, work, bump. cbn [c_1 c_2 c_3 c_e]. field.
  - rewrite gain_bump, work_bump. destruct (mhd p); field.
  - rewrite gain_bump, work_bump. destruct (mhd p); field.
Qed.
Lemma orb_cyl u : user_velocity o = false -> Z.ltb 1 (nx3 d) = false -> let r := x1v cylindrical g i in
  gain (u k j i) (OrbitalAdvectionSourceTerms p o cylindrical g d dt F w u k j i) = work w k j i (u k j i) (OrbitalAdvectionSourceTerms p o cylindrical g d dt F w u k j i) + dt * (- (3 / 2) * sqrt (gm_ p / r) / r) * b12.
Proof.
  intros E E3. cbv zeta. pose proof (cyl_x1v_pos g i C) as X. unfold OrbitalAdvectionSourceTerms, b12. rewrite E, E3. cbn [negb]. cells A. rewrite NB, gain_bump, work_bump. destruct FL as [[-> ->] _].
  set (r := x1v cylindrical g i) in *. set (q := coord_src1_i cylindrical g i). destruct (mhd p); field; lra.
Qed.
Lemma orb_cyl_user u : user_velocity o = true -> Z.eqb (nx3 d) 1 = true ->
  gain (u k j i) (OrbitalAdvectionSourceTerms p o cylindrical g d dt F w u k j i)
  = work w k j i (u k j i) (OrbitalAdvectionSourceTerms p o cylindrical g d dt F w u k j i) + dt * (dvKc1 o k i - vKc o k i * (2 / (x1f g (i + 1)%Z + x1f g i))) * b12.
Proof.
  intros E E3. cbv zeta. pose proof (cyl_x1v_pos g i C) as X. unfold OrbitalAdvectionSourceTerms, b12. rewrite E, E3. cbn [negb]. cells A. rewrite NB, gain_bump, work_bump. destruct FL as [[-> ->] _].
  rewrite (cyl_ri g i C). unfold SQR. set (r := x1v cylindrical g i) in *. destruct C as [H0 [H1 _]]. destruct (mhd p); field; split; lra.
Qed.
(** In three dimensions the vertical force works twice. *)
Lemma orb_cyl_3d u : user_velocity o = false -> Z.ltb 1 (nx3 d) = true -> let r := x1v cylindrical g i in let z := x3v cylindrical g k in let l := sqrt (SQR r + SQR z) in let vc := sqrt (gm_ p / l) * r / l in
  gain (u k j i) (OrbitalAdvectionSourceTerms p o cylindrical g d dt F w u k j i)
  = work w k j i (u k j i) (OrbitalAdvectionSourceTerms p o cylindrical g d dt F w u k j i) + dt * (- (3 / 2) * vc * r / SQR l * b12 + - (3 / 2) * vc * z / SQR l * b23)
    + dt * (- gm_ p * z / (l * l * l)) * (rho w k j i * v3 w k j i).
Proof.
  intros E E3. cbv zeta. pose proof (cyl_x1v_pos g i C) as X. unfold OrbitalAdvectionSourceTerms, b12, b23. rewrite E, E3. cbn [negb]. cells A. rewrite NB. destruct FL as [[-> ->] [_ [-> ->]]].
  set (r := x1v cylindrical g i) in *. set (z := x3v cylindrical g k) in *. set (q := coord_src1_i cylindrical g i).
  assert (L : 0 < sqrt (SQR r + SQR z)) by (apply sqrt_lt_R0; unfold SQR; nra). set (l := sqrt (SQR r + SQR z)) in *. unfold gain, work, bump, SQR. cbn [c_1 c_2 c_3 c_e]. destruct (mhd p); field; repeat split; lra.
Qed.
Lemma orb_sph u : let r := x1v spherical_polar g i in let q := coord_src1_i spherical_polar g i in let cot := coord_src1_j g j in let vc := vKc o j i + Omega_0_ p * r * sin (x2v spherical_polar g (nx2 d) j) in
  gain (u k j i) (OrbitalAdvectionSourceTerms p o spherical_polar g d dt F w u k j i)
  = work w k j i (u k j i) (OrbitalAdvectionSourceTerms p o spherical_polar g d dt F w u k j i) + dt * ((dvKc1 o j i - vKc o j i * q) * b13 + (dvKc2 o j i - cot * vKc o j i) * q * b23)
    + dt * rho w k j i * ((vc * vc - gm_ p / r) * v1 w k j i + vc * vc * cot * v2 w k j i) / r * (1 - q * r).
Proof.
  cbv zeta. pose proof (sph_x1v_pos g i C) as X. unfold OrbitalAdvectionSourceTerms, b13, b23. cells A. rewrite NB, gain_bump, work_bump. destruct FL as [[-> ->] [[-> ->] _]]. unfold coord_src3_j. fold (coord_src1_j g j). unfold SQR.
  set (r := x1v spherical_polar g i) in *. set (q := coord_src1_i spherical_polar g i). set (s := sin _). destruct (mhd p); field; lra.
Qed.
End Cell.

(** Frames: the geometric sources of a rotating frame and the sources of the rotation make the geometric sources of the frame at rest. *)
Section Frame.
Variables (p : sources) (o : orbit) (d : dims) (g : grid) (dt : R) (F : vec) (f : mflux) (w : prims) (k j i : Z).
Hypothesis A : active d k j i = true.
Definition momenta_of (u : state) : momenta := mkM (fun k j i => c_1 (u k j i)) (fun k j i => c_2 (u k j i)) (fun k j i => c_3 (u k j i)).

Lemma rot_cyl_frame u : let vc := fun k j i => x1v cylindrical g i * Omega_0_ p in
  M1 (AddCoordTermsDivergence cylindrical d g dt f w (momenta_of (RotatingSystemSourceTerms p cylindrical g d dt F w u))) k j i
  = M1 (AddCoordTermsDivergence cylindrical d g dt f (seen_faster cylindrical w vc) (momenta_of u)) k j i.
Proof.
  cbv zeta. unfold AddCoordTermsDivergence, seen_faster, momenta_of. cbn [M1 rho v2 prs b1 b2 b3]. rewrite A. unfold RotatingSystemSourceTerms. cells A. unfold bump. cbn [c_1].
  set (q := coord_src1_i cylindrical g i). set (r := x1v cylindrical g i). unfold SQR. field.
Qed.
Lemma rot_sph_frame u : let vc := fun k j i => x1v spherical_polar g i * sin (x2v spherical_polar g (nx2 d) j) * Omega_0_ p in
  M1 (AddCoordTermsDivergence spherical_polar d g dt f w (momenta_of (RotatingSystemSourceTerms p spherical_polar g d dt F w u))) k j i
  = M1 (AddCoordTermsDivergence spherical_polar d g dt f (seen_faster spherical_polar w vc) (momenta_of u)) k j i /\
  M2 (AddCoordTermsDivergence spherical_polar d g dt f w (momenta_of (RotatingSystemSourceTerms p spherical_polar g d dt F w u))) k j i
  = M2 (AddCoordTermsDivergence spherical_polar d g dt f (seen_faster spherical_polar w vc) (momenta_of u)) k j i.
Proof.
  cbv zeta. unfold AddCoordTermsDivergence, seen_faster, momenta_of. cbn [M1 M2 rho v2 v3 prs b1 b2 b3]. rewrite A. unfold RotatingSystemSourceTerms. cells A. unfold bump. cbn [c_1 c_2].
  set (q := coord_src1_i spherical_polar g i). set (r := x1v spherical_polar g i). set (s := sin _). set (t := coord_src1_j g j). unfold SQR. split; field.
Qed.
Hypothesis C : radial_cell g i.
Lemma orb_cyl_frame u : user_velocity o = false -> Z.ltb 1 (nx3 d) = false -> 0 <= gm_ p -> let vc := fun k j i => sqrt (gm_ p / x1v cylindrical g i) in
  M1 (AddCoordTermsDivergence cylindrical d g dt f w (momenta_of (OrbitalAdvectionSourceTerms p o cylindrical g d dt F w u))) k j i
  = M1 (AddCoordTermsDivergence cylindrical d g dt f (seen_faster cylindrical w vc) (momenta_of (PointMass p cylindrical g d dt F w u))) k j i.
Proof.
  intros E E3 G. cbv zeta. pose proof (cyl_x1v_pos g i C) as X. unfold AddCoordTermsDivergence, seen_faster, momenta_of. cbn [M1 rho v2 prs b1 b2 b3]. rewrite A. unfold OrbitalAdvectionSourceTerms, PointMass. rewrite E, E3. cbn [negb]. cells A. unfold bump. cbn [c_1].
  set (q := coord_src1_i cylindrical g i). set (r := x1v cylindrical g i) in *. assert (S : sqrt (gm_ p / r) * sqrt (gm_ p / r) = gm_ p / r) by (apply sqrt_sqrt; apply Rmult_le_pos; [lra|left; apply Rinv_0_lt_compat; lra]).
  set (v := sqrt (gm_ p / r)) in *. replace (gm_ p) with (v * v * r) by (rewrite S; field; lra). field. lra.
Qed.
Lemma orb_cyl_user_frame u : user_velocity o = true -> Z.eqb (nx3 d) 1 = true -> let vc := fun k j i => vKc o k i + Omega_0_ p * x1v cylindrical g i in
  M1 (AddCoordTermsDivergence cylindrical d g dt f w (momenta_of (OrbitalAdvectionSourceTerms p o cylindrical g d dt F w u))) k j i
  = M1 (AddCoordTermsDivergence cylindrical d g dt f (seen_faster cylindrical w vc) (momenta_of (PointMass p cylindrical g d dt F w u))) k j i.
Proof.
  intros E E3. cbv zeta. pose proof (cyl_x1v_pos g i C) as X. unfold AddCoordTermsDivergence, seen_faster, momenta_of. cbn [M1 rho v2 prs b1 b2 b3]. rewrite A. unfold OrbitalAdvectionSourceTerms, PointMass. rewrite E, E3. cbn [negb]. cells A. unfold bump. cbn [c_1].
  set (q := coord_src1_i cylindrical g i). set (r := x1v cylindrical g i) in *. unfold SQR. field. lra.
Qed.
Lemma orb_sph_frame u : let vc := fun k j i => vKc o j i + Omega_0_ p * x1v spherical_polar g i * sin (x2v spherical_polar g (nx2 d) j) in
  let before := momenta_of (OrbitalAdvectionSourceTerms p o spherical_polar g d dt F w u) in let after := momenta_of (PointMass p spherical_polar g d dt F w u) in
  M1 (AddCoordTermsDivergence spherical_polar d g dt f w before) k j i = M1 (AddCoordTermsDivergence spherical_polar d g dt f (seen_faster spherical_polar w vc) after) k j i /\
  M2 (AddCoordTermsDivergence spherical_polar d g dt f w before) k j i = M2 (AddCoordTermsDivergence spherical_polar d g dt f (seen_faster spherical_polar w vc) after) k j i.
Proof.
  cbv zeta. pose proof (sph_x1v_pos g i C) as X. unfold AddCoordTermsDivergence, seen_faster, momenta_of. cbn [M1 M2 rho v2 v3 prs b1 b2 b3]. rewrite A. unfold OrbitalAdvectionSourceTerms, PointMass. cells A. unfold bump. cbn [c_1 c_2].
  set (q := coord_src1_i spherical_polar g i). set (r := x1v spherical_polar g i) in *. set (s := sin _). set (t := coord_src1_j g j). unfold SQR. split; field; lra.
Qed.
End Frame.
