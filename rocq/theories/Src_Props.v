(** C83: source terms. *)
From Coq Require Import Reals ZArith List Bool Lra Lia Psatz.
From Verif Require Import Fv_Model Fv_Spec Pos_Model Met_Model Lud_Spec Lud_Proofs Tor_Spec Tor_Proofs Dif_Proofs Res_Spec Res_Proofs Src_Model Src_Spec Src_Proofs Src_Proofs2 Src_Proofs3.
Local Open Scope R_scope.

(** ** What is not touched: density always, energy without an energy equation, cells that are not active. *)
Theorem C83_untouched : forall p o s g c d dt F w phi u k j i, let u' := AddSourceTerms p o s g c d dt F w phi u in
  c_d (u' k j i) = c_d (u k j i) /\ (nonbaro p = false -> c_e (u' k j i) = c_e (u k j i)) /\ (active d k j i = false -> u' k j i = u k j i).
Proof.
  intros p o s g c d dt F w phi u0 k j i. cbv zeta.
  assert (Q : forall f : state -> state, (forall u, c_d (f u k j i) = c_d (u k j i) /\ (nonbaro p = false -> c_e (f u k j i) = c_e (u k j i)) /\ (active d k j i = false -> f u k j i = u k j i)) ->
    forall u, (c_d (u k j i) = c_d (u0 k j i) /\ (nonbaro p = false -> c_e (u k j i) = c_e (u0 k j i)) /\ (active d k j i = false -> u k j i = u0 k j i)) ->
    c_d (f u k j i) = c_d (u0 k j i) /\ (nonbaro p = false -> c_e (f u k j i) = c_e (u0 k j i)) /\ (active d k j i = false -> f u k j i = u0 k j i)).
  { intros f Hf u [A [B C]]. destruct (Hf u) as [A' [B' C']]. split; [congruence|]. split; [intros N; rewrite (B' N); auto|intros N; rewrite (C' N); auto]. }
  assert (E : forall f, (forall u, c_d (f k j i u) = c_d u /\ (nonbaro p = false -> c_e (f k j i u) = c_e u)) -> forall u, c_d (each d f u k j i) = c_d (u k j i) /\ (nonbaro p = false -> c_e (each d f u k j i) = c_e (u k j i)) /\ (active d k j i = false -> each d f u k j i = u k j i)).
  { intros f Hf u. unfold each. destruct (active d k j i); [destruct (Hf (u k j i)) as [A B]; split; auto; split; auto; intros X; discriminate X|auto]. }
  unfold AddSourceTerms.
  repeat match goal with
  | |- context [if ?b then _ else _] => destruct b
  end;
  repeat (apply Q; [intros u; unfold PointMass, ConstantAcceleration, SelfGravity, ShearingBoxSourceTerms, RotatingSystemSourceTerms, OrbitalAdvectionSourceTerms;
    repeat match goal with |- context [match s with _ => _ end] => destruct s | |- context [if ?b then _ else _] => match b with context [user_velocity] => destruct b | context [nx3] => destruct b end end;
    try (split; [reflexivity|split; intros; reflexivity]);
    apply E; intros v; cbv zeta;
    repeat match goal with |- context [if ?b then _ else _] => match b with nonbaro p => fail 1 | _ => destruct b end end;
    unfold bump; cbn [c_d c_e]; (split; [reflexivity|intros N; rewrite ?N; reflexivity])|]);
  (split; [reflexivity|split; intros; reflexivity]).
Qed.
Print Assumptions C83_untouched.

(** ** Energy is work *)
(** Cartesian coordinates without orbital advection, any combination of sources: the energy a cell receives is its velocity times the momentum it receives. *)
Theorem C83_work_cartesian : forall nx3_ mh sg gm g1 g2 g3 Om q shbox p o g c d dt F w phi u k j i,
  HydroSourceTerms cartesian nx3_ true mh sg gm 0 g1 g2 g3 Om q shbox = Some p -> active d k j i = true -> flows_with w F k j i -> x1f g (i + 1)%Z <> x1f g i -> dx1f g i = x1f g (i + 1)%Z - x1f g i ->
  let u' := AddSourceTerms p o cartesian g c d dt F w phi u in gain (u k j i) (u' k j i) = work w k j i (u k j i) (u' k j i).
Proof.
  intros nx3_ mh sg gm g1 g2 g3 Om q shbox p o g c d dt F w phi u k j i E A FL N D. cbv zeta.
  assert (NB : nonbaro p = true /\ flag_point_mass_ p = false /\ (flag_shearing_source_ p = 0 \/ flag_shearing_source_ p = 2)%Z).
  { unfold HydroSourceTerms in E. cbn [Z.eqb negb] in E. destruct (nonzero gm); [discriminate E|]. destruct (nonzero Om && nonzero q); injection E as <-; cbn; auto. }
  destruct NB as [NB [P [S|S]]]; unfold AddSourceTerms; rewrite P, S; cbn [Z.eqb Pos.eqb].
  - destruct (nonzero (g1_ p) || nonzero (g2_ p) || nonzero (g3_ p)), (self_gravity p); try apply same.
    + rewrite (gain_trans _ (ConstantAcceleration p d dt w u k j i)), (work_trans w k j i _ (ConstantAcceleration p d dt w u k j i)), acc_work, grav_work by auto. ring.
    + apply acc_work; auto.
    + apply grav_work; auto.
  - destruct (nonzero (g1_ p) || nonzero (g2_ p) || nonzero (g3_ p)), (self_gravity p).
    + rewrite (gain_trans _ (ConstantAcceleration p d dt w u k j i)), (work_trans w k j i _ (ConstantAcceleration p d dt w u k j i)), acc_work by auto.
      rewrite (gain_trans _ (SelfGravity p c d dt F w phi (ConstantAcceleration p d dt w u) k j i)), (work_trans w k j i _ (SelfGravity p c d dt F w phi (ConstantAcceleration p d dt w u) k j i) (ShearingBoxSourceTerms _ _ _ _ _ _ _ _ _ _)), grav_work, shear_work by auto. ring.
    + rewrite (gain_trans _ (ConstantAcceleration p d dt w u k j i)), (work_trans w k j i _ (ConstantAcceleration p d dt w u k j i)), acc_work, shear_work by auto. ring.
    + rewrite (gain_trans _ (SelfGravity p c d dt F w phi u k j i)), (work_trans w k j i _ (SelfGravity p c d dt F w phi u k j i)), grav_work, shear_work by auto. ring.
    + apply shear_work; auto.
Qed.
Print Assumptions C83_work_cartesian.

(** A point mass and a rotating frame in curvilinear coordinates: exactly for rotation in cylindrical coordinates, else up to a factor that differs from 1 by the square of the relative width of the cell. *)
Theorem C83_work_curvilinear : forall p g d dt F w u k j i, nonbaro p = true -> active d k j i = true -> flows_with w F k j i -> radial_cell g i ->
  let h := slimness g i in
  0 < h < 1 /\
  (let u' := PointMass p cylindrical g d dt F w u in work w k j i (u k j i) (u' k j i) = (1 - h * h) * gain (u k j i) (u' k j i)) /\
  (let u' := RotatingSystemSourceTerms p cylindrical g d dt F w u in work w k j i (u k j i) (u' k j i) = gain (u k j i) (u' k j i)) /\
  exists c, 1 <= c <= 1 + h * h / 3 /\
    (let u' := PointMass p spherical_polar g d dt F w u in work w k j i (u k j i) (u' k j i) = c * gain (u k j i) (u' k j i)) /\
    (let u' := RotatingSystemSourceTerms p spherical_polar g d dt F w u in work w k j i (u k j i) (u' k j i) = c * gain (u k j i) (u' k j i)).
Proof.
  intros p g d dt F w u k j i NB A FL C. cbv zeta. split; [apply slim; auto|]. split; [apply mass_cyl; auto|]. split; [apply rot_cyl; auto|].
  exists (coord_src1_i spherical_polar g i * x1v spherical_polar g i). split; [apply sph_ratio; auto|]. split; [apply mass_sph; auto|apply rot_sph; auto].
Qed.
Print Assumptions C83_work_curvilinear.

(** Orbital advection: work plus the Maxwell stress times the shear of the background, where that is what the code adds. *)
Definition stress (p : sources) (a b : arr) (k j i : Z) : R := if mhd p then a k j i * b k j i else 0.
Theorem C83_work_orbital : forall p o g d dt F w u k j i, nonbaro p = true -> active d k j i = true -> flows_with w F k j i ->
  (user_velocity o = false -> let u' := OrbitalAdvectionSourceTerms p o cartesian g d dt F w u in
    gain (u k j i) (u' k j i) = work w k j i (u k j i) (u' k j i) + dt * CartOrbitalVelocity_x (qshear_ p) (Omega_0_ p) (x1v cartesian g i) * stress p (b1 w) (b2 w) k j i) /\
  (user_velocity o = true -> vKc o k i = (vKf1 o k i + vKf1 o k (i + 1)%Z) / 2 -> ((1 < nx3 d)%Z -> mhd p = true -> dvKc2 o k i = 0) -> let u' := OrbitalAdvectionSourceTerms p o cartesian g d dt F w u in
    gain (u k j i) (u' k j i) = work w k j i (u k j i) (u' k j i) + dt * dvKc1 o k i * stress p (b1 w) (b2 w) k j i) /\
  (radial_cell g i -> (nx3 d = 1)%Z -> user_velocity o = false -> let r := x1v cylindrical g i in let u' := OrbitalAdvectionSourceTerms p o cylindrical g d dt F w u in
    gain (u k j i) (u' k j i) = work w k j i (u k j i) (u' k j i) + dt * (CylOrbitalVelocity2D_r (gm_ p) (Omega_0_ p) r - CylOrbitalVelocity2D (gm_ p) (Omega_0_ p) r / r) * stress p (b1 w) (b2 w) k j i) /\
  (radial_cell g i -> (nx3 d = 1)%Z -> user_velocity o = true -> let u' := OrbitalAdvectionSourceTerms p o cylindrical g d dt F w u in
    gain (u k j i) (u' k j i) = work w k j i (u k j i) (u' k j i) + dt * (dvKc1 o k i - vKc o k i * (2 / (x1f g (i + 1)%Z + x1f g i))) * stress p (b1 w) (b2 w) k j i) /\
  (radial_cell g i -> let h := slimness g i in let r := x1v spherical_polar g i in let cot := coord_src1_j g j in let u' := OrbitalAdvectionSourceTerms p o spherical_polar g d dt F w u in
    let vc := vKc o j i + Omega_0_ p * r * sin (x2v spherical_polar g (nx2 d) j) in
    exists c, 1 <= c <= 1 + h * h / 3 /\
    gain (u k j i) (u' k j i) = work w k j i (u k j i) (u' k j i) + dt * ((dvKc1 o j i - vKc o j i * (c / r)) * stress p (b1 w) (b3 w) k j i + (dvKc2 o j i - cot * vKc o j i) * (c / r) * stress p (b2 w) (b3 w) k j i)
      + (1 - c) * (dt * rho w k j i * ((vc * vc - gm_ p / r) * v1 w k j i + vc * vc * cot * v2 w k j i) / r)).
Proof.
  intros p o g d dt F w u k j i NB A FL. unfold CartOrbitalVelocity_x. split; [|split; [|split; [|split]]].
  - intros E. cbv zeta. apply (orb_cart p o d g dt F w k j i A NB FL u E).
  - intros E M Z2. cbv zeta. apply (orb_cart_user p o d g dt F w k j i A NB FL u E M). intros L. apply Z2. apply Z.ltb_lt. exact L.
  - intros C N E. cbv zeta. rewrite (orb_cyl p o d g dt F w k j i A NB FL C u E) by (apply Z.ltb_ge; lia). pose proof (cyl_x1v_pos g i C). unfold CylOrbitalVelocity2D_r, CylOrbitalVelocity2D, stress, b12. cbv zeta. f_equal. f_equal. f_equal. field. lra.
  - intros C N E. cbv zeta. apply (orb_cyl_user p o d g dt F w k j i A NB FL C u E). apply Z.eqb_eq. exact N.
  - intros C. cbv zeta. pose proof (sph_x1v_pos g i C). exists (coord_src1_i spherical_polar g i * x1v spherical_polar g i). split; [apply sph_ratio; auto|].
    rewrite (orb_sph p o d g dt F w k j i A NB FL C u). cbv zeta. unfold stress, b13, b23. set (q := coord_src1_i spherical_polar g i). set (r := x1v spherical_polar g i) in *. set (s := sin _). destruct (mhd p); field; lra.
Qed.
Print Assumptions C83_work_orbital.

(** Examples: a state with all of this. *)
Definition ex_grid1 : grid := mkGrid (fun i => 1 + IZR i / 4) (fun j => 1 + IZR j / 4) (fun k => IZR k / 4) (fun _ => 1 / 4) (fun _ => 1 / 4) (fun _ => 1 / 4).
Definition ex_gas : prims := mkPr (fun _ _ _ => 2) (fun _ _ _ => 3) (fun _ _ _ => 5) (fun _ _ _ => 7) (fun _ _ _ => 1) (fun _ _ _ => 1) (fun _ _ _ => 1) (fun _ _ _ => 1).
Definition ex_flow : vec := mkV (fun _ _ _ => 6) (fun _ _ _ => 10) (fun _ _ _ => 14).
Definition ex_block : dims := mkD 0 3 0 3 0 3 false false.
Definition ex_none : state := fun _ _ _ => mkCell 0 0 0 0 0.
Example C83_hypotheses : flows_with ex_gas ex_flow 1 1 1 /\ radial_cell ex_grid1 1 /\ active ex_block 1 1 1 = true /\
  (exists p, HydroSourceTerms cartesian 4 true true true 0 0 1 0 (-2) 1 (3 / 2) 1 = Some p /\ flag_shearing_source_ p = 2%Z) /\
  (exists p, HydroSourceTerms spherical_polar 4 true true true 5 0 0 0 0 1 0 1 = Some p /\ flag_shearing_source_ p = 3%Z /\ flag_point_mass_ p = true).
Proof.
  split; [unfold flows_with; cbn [x1 x2 x3 rho v1 v2 v3 ex_gas ex_flow]; repeat split; lra|]. split; [unfold radial_cell; cbn; lra|]. split; [reflexivity|]. split; eexists; unfold HydroSourceTerms, nonzero; cbn [Z.eqb negb].
  - destruct (Req_EM_T 0 0); [|lra]. destruct (Req_EM_T 1 0); [lra|]. destruct (Req_EM_T (3 / 2) 0); [lra|]. cbn [andb]. split; reflexivity.
  - destruct (Req_EM_T 5 0); [lra|]. destruct (Req_EM_T 1 0); [lra|]. repeat split; reflexivity.
Qed.

(** Two places where the code adds something else. *)
(** A user's orbital velocity that varies along the third direction, with a magnetic field: part of the Maxwell stress is added without the time step and the shear, so that even a step of no length makes energy. *)
Theorem C83_maxwell_refuted : ~ (forall p o g d F w u k j i, nonbaro p = true -> active d k j i = true -> flows_with w F k j i ->
  gain (u k j i) (OrbitalAdvectionSourceTerms p o cartesian g d 0 F w u k j i) = 0).
Proof.
  intros H. specialize (H (mkSrc 0 0 0 0 1 1 1 false 1 true true false) (mkOrb true (fun k _ => IZR k) (fun k _ => IZR k) (fun _ _ => 0) (fun _ _ => 1)) ex_grid1 ex_block ex_flow ex_gas ex_none 1%Z 1%Z 1%Z eq_refl eq_refl).
  assert (FL : flows_with ex_gas ex_flow 1 1 1) by apply C83_hypotheses. specialize (H FL). unfold OrbitalAdvectionSourceTerms in H. cbn [user_velocity negb] in H. unfold each in H.
  replace (active ex_block 1 1 1) with true in H by reflexivity. replace (Z.ltb 1 (nx3 ex_block)) with true in H by reflexivity. cbn [dvKc2 mhd nonbaro] in H.
  unfold nonzero in H. destruct (Req_EM_T 1 0) as [X|X]; [lra|]. unfold gain, bump in H. cbn [c_e c_1 c_2 c_3 c_d b2 b3 ex_gas ex_none] in H. lra.
Qed.
Print Assumptions C83_maxwell_refuted.
(** The default Keplerian flow in three-dimensional cylindrical coordinates: the work of the vertical force is added twice. *)
Theorem C83_vertical_twice : forall p o g d dt F w u k j i, nonbaro p = true -> mhd p = false -> active d k j i = true -> flows_with w F k j i -> radial_cell g i -> user_velocity o = false -> (1 < nx3 d)%Z ->
  let u' := OrbitalAdvectionSourceTerms p o cylindrical g d dt F w u in
  gain (u k j i) (u' k j i) = work w k j i (u k j i) (u' k j i) + v3 w k j i * (c_3 (u' k j i) - c_3 (u k j i)).
Proof.
  intros p o g d dt F w u k j i NB M A FL C E N. cbv zeta. assert (N' : Z.ltb 1 (nx3 d) = true) by (apply Z.ltb_lt; auto). pose proof (orb_cyl_3d p o d g dt F w k j i A NB FL C u E N') as H. cbv zeta in H. rewrite H. unfold b12, b23. rewrite M.
  match goal with |- ?a + ?b + ?c = ?a + ?e => replace e with c; [ring|] end.
  unfold OrbitalAdvectionSourceTerms. rewrite E, N'. cbn [negb]. cells A. unfold bump. cbn [c_3]. ring.
Qed.
Print Assumptions C83_vertical_twice.
Theorem C83_vertical_refuted : ~ (forall p o g d dt F w u k j i, nonbaro p = true -> mhd p = false -> active d k j i = true -> flows_with w F k j i -> radial_cell g i ->
  let u' := OrbitalAdvectionSourceTerms p o cylindrical g d dt F w u in gain (u k j i) (u' k j i) = work w k j i (u k j i) (u' k j i)).
Proof.
  intros H. set (p := mkSrc 1 0 0 0 0 0 1 false 1 true false false). set (o := mkOrb false (fun _ _ => 0) (fun _ _ => 0) (fun _ _ => 0) (fun _ _ => 0)).
  assert (FL : flows_with ex_gas ex_flow 1 1 1) by apply C83_hypotheses. assert (C : radial_cell ex_grid1 1) by apply C83_hypotheses.
  specialize (H p o ex_grid1 ex_block 1 ex_flow ex_gas ex_none 1%Z 1%Z 1%Z eq_refl eq_refl eq_refl FL C).
  pose proof (C83_vertical_twice p o ex_grid1 ex_block 1 ex_flow ex_gas ex_none 1%Z 1%Z 1%Z eq_refl eq_refl eq_refl FL C eq_refl ltac:(reflexivity)) as T. cbv zeta in H, T. rewrite H in T.
  assert (Q : c_3 (OrbitalAdvectionSourceTerms p o cylindrical ex_grid1 ex_block 1 ex_flow ex_gas ex_none 1%Z 1%Z 1%Z) = 0) by (cbn [v3 ex_gas ex_none c_3] in T; lra). revert Q.
  unfold OrbitalAdvectionSourceTerms. cbn [user_velocity negb o]. replace (Z.ltb 1 (nx3 ex_block)) with true by reflexivity. unfold each. replace (active ex_block 1 1 1) with true by reflexivity. unfold bump. cbn [c_3 ex_none gm_ p rho ex_gas].
  pose proof (cyl_x1v_pos ex_grid1 1 C) as X. set (r := x1v cylindrical ex_grid1 1) in *. assert (Zv : x3v cylindrical ex_grid1 1 = 3 / 8) by (unfold x3v; cbn; lra). rewrite Zv.
  assert (L : 0 < sqrt (SQR r + SQR (3 / 8))) by (apply sqrt_lt_R0; unfold SQR; nra). set (l := sqrt _) in *. intros Q.
  assert (P : 0 < / (l * l * l)) by (apply Rinv_0_lt_compat; apply Rmult_lt_0_compat; [apply Rmult_lt_0_compat; auto|auto]). unfold Rdiv in Q. nra.
Qed.
Print Assumptions C83_vertical_refuted.

(** ** Frames of reference *)
(** The forces of a rotating frame, together with the geometric sources for the velocity in that frame, are the geometric sources for the velocity at rest. *)
Theorem C83_rotating_frame : forall p d g dt F f w u k j i, active d k j i = true ->
  let at_rest s := fun k j i => x1v s g i * (match s with spherical_polar => sin (x2v s g (nx2 d) j) | _ => 1 end) * Omega_0_ p in
  let frame s w' u' := AddCoordTermsDivergence s d g dt f w' (momenta_of u') in
  (forall s, s <> cartesian -> M1 (frame s w (RotatingSystemSourceTerms p s g d dt F w u)) k j i = M1 (frame s (seen_faster s w (at_rest s)) u) k j i) /\
  M2 (frame spherical_polar w (RotatingSystemSourceTerms p spherical_polar g d dt F w u)) k j i = M2 (frame spherical_polar (seen_faster spherical_polar w (at_rest spherical_polar)) u) k j i.
Proof.
  intros p d g dt F f w u k j i A. cbv zeta. split; [|apply (rot_sph_frame p d g dt F f w k j i A u)].
  intros [| |] N; [now destruct N| |apply (rot_sph_frame p d g dt F f w k j i A u)]. rewrite (rot_cyl_frame p d g dt F f w k j i A u). cbv zeta.
  unfold AddCoordTermsDivergence, seen_faster. cbn [M1 rho v2 prs b1 b2 b3 momenta_of]. rewrite A. unfold SQR. ring.
Qed.
Print Assumptions C83_rotating_frame.
(** Orbital advection: the forces and geometric sources for the residual velocity are those of the full velocity and the gravity of the central mass. *)
Theorem C83_orbital_frame : forall p o d g dt F f w u k j i, active d k j i = true -> radial_cell g i ->
  let frame s w' u' := AddCoordTermsDivergence s d g dt f w' (momenta_of u') in
  ((nx3 d = 1)%Z -> user_velocity o = false -> 0 <= gm_ p -> let full := fun k j i => CylOrbitalVelocity2D (gm_ p) (Omega_0_ p) (x1v cylindrical g i) + Omega_0_ p * x1v cylindrical g i in
    M1 (frame cylindrical w (OrbitalAdvectionSourceTerms p o cylindrical g d dt F w u)) k j i = M1 (frame cylindrical (seen_faster cylindrical w full) (PointMass p cylindrical g d dt F w u)) k j i) /\
  ((nx3 d = 1)%Z -> user_velocity o = true -> let full := fun k j i => vKc o k i + Omega_0_ p * x1v cylindrical g i in
    M1 (frame cylindrical w (OrbitalAdvectionSourceTerms p o cylindrical g d dt F w u)) k j i = M1 (frame cylindrical (seen_faster cylindrical w full) (PointMass p cylindrical g d dt F w u)) k j i) /\
  (let full := fun k j i => vKc o j i + Omega_0_ p * x1v spherical_polar g i * sin (x2v spherical_polar g (nx2 d) j) in
    M1 (frame spherical_polar w (OrbitalAdvectionSourceTerms p o spherical_polar g d dt F w u)) k j i = M1 (frame spherical_polar (seen_faster spherical_polar w full) (PointMass p spherical_polar g d dt F w u)) k j i /\
    M2 (frame spherical_polar w (OrbitalAdvectionSourceTerms p o spherical_polar g d dt F w u)) k j i = M2 (frame spherical_polar (seen_faster spherical_polar w full) (PointMass p spherical_polar g d dt F w u)) k j i).
Proof.
  intros p o d g dt F f w u k j i A C. cbv zeta. split; [|split].
  - intros N E G. rewrite (orb_cyl_frame p o d g dt F f w k j i A C u E) by (auto; apply Z.ltb_ge; lia). cbv zeta. unfold AddCoordTermsDivergence, seen_faster. cbn [M1 rho v2 prs b1 b2 b3 momenta_of]. rewrite A. unfold CylOrbitalVelocity2D, SQR. ring.
  - intros N E. apply (orb_cyl_user_frame p o d g dt F f w k j i A C u E). apply Z.eqb_eq. exact N.
  - apply (orb_sph_frame p o d g dt F f w k j i A C u).
Qed.
Print Assumptions C83_orbital_frame.
(** The shearing box: gas that moves with the background shear feels no force, and the force along the first direction depends on the velocity relative to it alone, as with orbital advection. *)
Theorem C83_shear_equilibrium : forall p o g d dt F w u k j i, active d k j i = true -> ShBoxCoord_ p = 1%Z -> user_velocity o = false ->
  let w' := mkPr (rho w) (v1 w) (fun k j i => v2 w k j i + CartOrbitalVelocity (qshear_ p) (Omega_0_ p) (x1v cartesian g i)) (v3 w) (prs w) (b1 w) (b2 w) (b3 w) in
  let box := ShearingBoxSourceTerms p g d dt F w' u k j i in let orb := OrbitalAdvectionSourceTerms p o cartesian g d dt F w u k j i in
  c_1 box = c_1 orb /\ c_2 box - c_2 (u k j i) = c_2 orb - c_2 (u k j i) + dt * (rho w k j i * v1 w k j i) * CartOrbitalVelocity_x (qshear_ p) (Omega_0_ p) (x1v cartesian g i) /\ c_3 box = c_3 orb /\
  (v1 w k j i = 0 -> v2 w k j i = 0 -> c_1 box = c_1 (u k j i) /\ c_2 box = c_2 (u k j i) /\ c_3 box = c_3 (u k j i)).
Proof.
  intros p o g d dt F w u k j i A S E. cbv zeta. unfold ShearingBoxSourceTerms, OrbitalAdvectionSourceTerms. rewrite E. cbn [negb]. cells A. rewrite S. cbn [Z.eqb Pos.eqb rho v1 v2]. unfold bump. cbn [c_1 c_2 c_3]. unfold CartOrbitalVelocity, CartOrbitalVelocity_x, SQR.
  split; [ring|]. split; [ring|]. split; [ring|]. intros -> ->. split; [ring|]. split; ring.
Qed.
Print Assumptions C83_shear_equilibrium.

(** ** Potential energy *)
(** Total energy, the energy of the gas plus density times potential, changes by nothing but fluxes through the faces; the flux of potential energy is the mass flux times the potential at the face. *)
Theorem C83_potential_energy : forall p c d dx dy dz dt F w phi u r k j i, active d k j i = true -> nonbaro p = true -> 0 < dx -> 0 < dy -> 0 < dz -> dx1v c i = dx -> dx2v c j = dy -> dx3v c k = dz ->
  let r' := AddFluxDivergence d (cart dx dy dz) F dt r in let u' := SelfGravity p c d dt F w phi u in
  (c_e (u' k j i) + phi k j i * r' k j i) - (c_e (u k j i) + phi k j i * r k j i)
  = by_fluxes d dx dy dz dt (mkV (fun k j i => x1 F k j i * ((phi k j (i - 1)%Z + phi k j i) / 2)) (fun k j i => x2 F k j i * ((phi k (j - 1)%Z i + phi k j i) / 2)) (fun k j i => x3 F k j i * ((phi (k - 1)%Z j i + phi k j i) / 2))) k j i.
Proof. intros. cbv zeta. apply grav_potential; auto. Qed.
Print Assumptions C83_potential_energy.
Theorem C83_total_energy : forall p n1 n2 n3 dx dy dz dt F w phi u r, nonbaro p = true -> 0 < dx -> 0 < dy -> 0 < dz -> periodic_field n1 n2 n3 F -> periodic n1 n2 n3 phi ->
  let d := whole n1 n2 n3 in let c := mkSp (fun _ => dx) (fun _ => dy) (fun _ => dz) in let r' := AddFluxDivergence d (cart dx dy dz) F dt r in let u' := SelfGravity p c d dt F w phi u in
  box_sum n1 n2 n3 (fun k j i => c_e (u' k j i) + phi k j i * r' k j i) = box_sum n1 n2 n3 (fun k j i => c_e (u k j i) + phi k j i * r k j i).
Proof.
  intros p n1 n2 n3 dx dy dz dt F w phi u r NB Hx Hy Hz [P1 [P2 P3]] P. cbv zeta. apply Rminus_diag_uniq. rewrite <- box_minus.
  transitivity (box_sum n1 n2 n3 (by_fluxes (whole n1 n2 n3) dx dy dz dt (energy_flux F phi))).
  - apply box_ext_in. intros k j i Hk Hj Hi. apply grav_potential; auto. apply whole_active; auto.
  - assert (M : forall f, periodic n1 n2 n3 f -> periodic n1 n2 n3 (fun k j i => f k j i / 2)) by (intros f Hf; apply (per_div n1 n2 n3 f (fun _ _ _ => 2)); [auto|apply per_const]).
    apply box_by_fluxes; unfold energy_flux; cbn [x1 x2 x3]; (apply per_mult; [auto|]); apply (M (fun k j i => _ + _)); apply per_plus; auto; [apply per_im|apply per_jm|apply per_km]; auto.
Qed.
Print Assumptions C83_total_energy.
(** The shearing box: the same with the tidal potential - q Omega^2 x^2. *)
Theorem C83_tidal_energy : forall p g d dx dy dz dt F w u r k j i, active d k j i = true -> nonbaro p = true -> ShBoxCoord_ p = 1%Z -> 0 < dx -> 0 < dy -> 0 < dz -> dx1f g i = dx -> x1f g (i + 1)%Z - x1f g i = dx ->
  let tide := fun x => - qshear_ p * (Omega_0_ p * Omega_0_ p) * (x * x) in let phi := fun i => tide (x1v cartesian g i) in
  let r' := AddFluxDivergence d (cart dx dy dz) F dt r in let u' := ShearingBoxSourceTerms p g d dt F w u in
  (c_e (u' k j i) + phi i * r' k j i) - (c_e (u k j i) + phi i * r k j i)
  = by_fluxes d dx dy dz dt (mkV (fun k j i => x1 F k j i * tide (x1f g i)) (fun k j i => x2 F k j i * phi i) (fun k j i => x3 F k j i * phi i)) k j i.
Proof.
  intros p g d dx dy dz dt F w u r k j i A NB S Hx Hy Hz E1 E2. cbv zeta. unfold ShearingBoxSourceTerms. cells A. unfold AddFluxDivergence. rewrite A, NB, S, E1. unfold dflx, by_fluxes, cart, bump. cbn [x1 x2 x3 A1 A2 A3 V c_e Z.eqb Pos.eqb]. unfold SQR.
  set (xc := x1v cartesian g i). destruct (Z.ltb 1 (nx2 d)), (Z.ltb 1 (nx3 d)); cbn [c_e]; field; repeat split; lra.
Qed.
Print Assumptions C83_tidal_energy.

(** ** Gas does not pull itself along *)
Theorem C83_no_self_force : forall p n1 n2 n3 dx dy dz dt F w phi u fourpiG mean, fourpiG <> 0 -> periodic n1 n2 n3 phi -> poisson (whole n1 n2 n3) dx dy dz fourpiG mean (rho w) phi ->
  let d := whole n1 n2 n3 in let c := mkSp (fun _ => dx) (fun _ => dy) (fun _ => dz) in let u' := SelfGravity p c d dt F w phi u in
  box_sum n1 n2 n3 (fun k j i => c_1 (u' k j i)) = box_sum n1 n2 n3 (fun k j i => c_1 (u k j i)) /\
  box_sum n1 n2 n3 (fun k j i => c_2 (u' k j i)) = box_sum n1 n2 n3 (fun k j i => c_2 (u k j i)) /\
  box_sum n1 n2 n3 (fun k j i => c_3 (u' k j i)) = box_sum n1 n2 n3 (fun k j i => c_3 (u k j i)).
Proof.
  intros p n1 n2 n3 dx dy dz dt F w phi u G mean HG P HP. cbv zeta.
  assert (T : forall (f f' : arr) a b c t, (forall k j i, (0 <= k < Z.of_nat n3)%Z -> (0 <= j < Z.of_nat n2)%Z -> (0 <= i < Z.of_nat n1)%Z ->
      f' k j i = f k j i + t * (rho w k j i * (phi (k + a)%Z (j + b)%Z (i + c)%Z - phi (k - a)%Z (j - b)%Z (i - c)%Z))) -> box_sum n1 n2 n3 f' = box_sum n1 n2 n3 f).
  { intros f f' a b c t H. transitivity (box_sum n1 n2 n3 (fun k j i => f k j i + t * (rho w k j i * (phi (k + a)%Z (j + b)%Z (i + c)%Z - phi (k - a)%Z (j - b)%Z (i - c)%Z)))); [apply box_ext_in; auto|].
    rewrite box_plus, box_scal, (no_force_rho n1 n2 n3 dx dy dz G mean (rho w) phi a b c P HG HP). ring. }
  split; [|split].
  - apply (T _ _ 0%Z 0%Z 1%Z (- (1 / 2) * dt / dx)). intros k j i Hk Hj Hi. unfold SelfGravity. rewrite each_in by (apply whole_active; auto). rewrite !Z.add_0_r, !Z.sub_0_r.
    destruct (Z.ltb 1 (nx2 _)), (Z.ltb 1 (nx3 _)); unfold bump; cbn [c_1 dx1v]; unfold Rdiv; ring.
  - apply (T _ _ 0%Z 1%Z 0%Z (if Z.ltb 1 (nx2 (whole n1 n2 n3)) then - (1 / 2) * dt / dy else 0)). intros k j i Hk Hj Hi. unfold SelfGravity. rewrite each_in by (apply whole_active; auto). rewrite !Z.add_0_r, !Z.sub_0_r.
    destruct (Z.ltb 1 (nx2 _)), (Z.ltb 1 (nx3 _)); unfold bump; cbn [c_2 dx2v]; unfold Rdiv; ring.
  - apply (T _ _ 1%Z 0%Z 0%Z (if Z.ltb 1 (nx3 (whole n1 n2 n3)) then - (1 / 2) * dt / dz else 0)). intros k j i Hk Hj Hi. unfold SelfGravity. rewrite each_in by (apply whole_active; auto). rewrite !Z.add_0_r, !Z.sub_0_r.
    destruct (Z.ltb 1 (nx2 _)), (Z.ltb 1 (nx3 _)); unfold bump; cbn [c_3 dx3v]; unfold Rdiv; ring.
Qed.
Print Assumptions C83_no_self_force.
(** A potential and a density that belong together: a wave of four cells along the first direction. *)
Definition wave (i : Z) : R := IZR (match (i mod 4)%Z with 0 => 0 | 1 => 1 | 2 => 0 | _ => -1 end)%Z.
Example C83_poisson_witness : let phi := fun _ _ i => wave i in periodic 4 1 1 phi /\ poisson (whole 4 1 1) 1 1 1 1 3 (fun _ _ i => 3 - 2 * wave i) phi /\ wave 1 <> wave 0.
Proof.
  cbv zeta. split; [|split].
  - intros k j i. split; [|split]; auto. unfold wave. replace (Z.of_nat 4) with (1 * 4)%Z by reflexivity. rewrite Z_mod_plus_full. reflexivity.
  - intros k j i. replace (Z.ltb 1 (nx2 (whole 4 1 1))) with false by reflexivity. replace (Z.ltb 1 (nx3 (whole 4 1 1))) with false by reflexivity. unfold wave.
    assert (E : exists q r, i = (q * 4 + r)%Z /\ (r = 0 \/ r = 1 \/ r = 2 \/ r = 3)%Z) by (exists (i / 4)%Z, (i mod 4)%Z; pose proof (Z.mod_pos_bound i 4 ltac:(lia)); pose proof (Z.div_mod i 4 ltac:(lia)); lia).
    destruct E as [q [r [-> H]]]. replace (q * 4 + r + 1)%Z with (r + 1 + q * 4)%Z by lia. replace (q * 4 + r - 1)%Z with (r - 1 + q * 4)%Z by lia. replace (q * 4 + r)%Z with (r + q * 4)%Z by lia. rewrite !Z_mod_plus_full.
    destruct H as [-> | [-> | [-> | ->]]]; cbn; lra.
  - unfold wave; cbn; lra.
Qed.

(** ** Orbital velocities and their derivatives *)
Theorem C83_orbital_derivatives : forall gm Om q x y z, 0 < gm -> 0 < x -> 0 < y < PI ->
  derivable_pt_lim (CartOrbitalVelocity q Om) x (CartOrbitalVelocity_x q Om x) /\
  derivable_pt_lim (CylOrbitalVelocity2D gm Om) x (CylOrbitalVelocity2D_r gm Om x) /\
  derivable_pt_lim (fun x => CylOrbitalVelocity3D gm Om x z) x (CylOrbitalVelocity3D_r gm Om x z) /\
  derivable_pt_lim (fun x => SphOrbitalVelocity gm Om x y) x (SphOrbitalVelocity_r gm Om x y) /\
  derivable_pt_lim (fun y => SphOrbitalVelocity gm Om x y) y (SphOrbitalVelocity_t gm Om x y).
Proof.
  intros gm Om q x y z Hg Hx Hy. split; [apply d_lin|]. split; [apply d_cyl2; auto|]. split; [apply d_cyl3_r; auto|]. split; [apply d_sph_r; auto; apply sin_gt_0; lra|apply d_sph_t; auto].
Qed.
Print Assumptions C83_orbital_derivatives.
(** The derivative along the axis in three-dimensional cylindrical coordinates is too large by the distance from the centre. *)
Theorem C83_vertical_derivative_refuted : ~ (forall gm Om x z, 0 < gm -> 0 < x -> derivable_pt_lim (fun z => CylOrbitalVelocity3D gm Om x z) z (CylOrbitalVelocity3D_z gm Om x z)).
Proof.
  intros H. assert (P : 0 < 3) by lra. specialize (H 1 0 3 4 ltac:(lra) P). pose proof (d_cyl3_z 1 0 3 4 ltac:(lra) P) as D. pose proof (uniqueness_limite _ _ _ _ H D) as E.
  revert E. unfold CylOrbitalVelocity3D_z, SQR. replace (3 * 3 + 4 * 4) with (5 * 5) by ring. rewrite sqrt_square by lra. assert (S : 0 < sqrt (1 / 5)) by (apply sqrt_lt_R0; lra). set (s := sqrt (1 / 5)) in *. intros E. field_simplify in E; lra.
Qed.
Print Assumptions C83_vertical_derivative_refuted.

(** ** Switches *)
(** The central mass pulls through exactly one function: the point mass without orbital advection, the orbital sources with it; there is none in Cartesian coordinates.  Frame forces are switched on by the rotation (and the shear, in a box). *)
Theorem C83_switches : forall s n3 nb mh sg gm oa g1 g2 g3 Om q shbox p, HydroSourceTerms s n3 nb mh sg gm oa g1 g2 g3 Om q shbox = Some p ->
  (flag_point_mass_ p = true <-> gm <> 0 /\ oa = 0%Z) /\ (flag_shearing_source_ p = 1%Z <-> oa <> 0%Z) /\ (gm <> 0 -> s <> cartesian) /\ (flag_point_mass_ p = true -> s = cylindrical -> (n3 <= 1)%Z) /\
  (flag_shearing_source_ p = 2%Z <-> oa = 0%Z /\ s = cartesian /\ Om <> 0 /\ q <> 0) /\ (flag_shearing_source_ p = 3%Z <-> oa = 0%Z /\ s <> cartesian /\ Om <> 0) /\
  (gm_ p = gm /\ g1_ p = g1 /\ g2_ p = g2 /\ g3_ p = g3 /\ Omega_0_ p = Om /\ qshear_ p = q).
Proof.
  intros s n3 nb mh sg gm oa g1 g2 g3 Om q shbox p E. unfold HydroSourceTerms, nonzero in E.
  destruct (Z.eqb_spec oa 0) as [O|O], (Z.eqb shbox 1), (Req_EM_T gm 0) as [G|G], (Req_EM_T Om 0) as [W|W], (Req_EM_T q 0) as [Q|Q], s, (Z.ltb 1 n3) eqn:N; cbn [negb andb] in E; try discriminate E; injection E as <-;
    cbn [flag_point_mass_ flag_shearing_source_ gm_ g1_ g2_ g3_ Omega_0_ qshear_];
    (split; [split; [intros X; first [discriminate X|tauto]|first [reflexivity|tauto]]|]); (split; [split; [intros X; first [discriminate X|tauto]|first [reflexivity|tauto]]|]); (split; [intros X Y; first [discriminate Y|tauto]|]);
    (split; [intros X Y; first [discriminate X|discriminate Y|apply Z.ltb_ge; exact N]|]);
    (split; [split; [intros X; first [discriminate X|tauto]|intros [X1 [X2 [X3 X4]]]; first [reflexivity|discriminate X2|tauto]]|]); (split; [split; [intros X; first [discriminate X|repeat split; auto; discriminate]|intros [X1 [X2 X3]]; first [reflexivity|tauto]]|]); repeat split; reflexivity.
Qed.
Print Assumptions C83_switches.
