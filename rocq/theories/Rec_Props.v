(** Properties C43 and C44. *)
From Coq Require Import Reals ZArith Bool Lia Lra Psatz.
From Verif Require Import Time_Model Time_Proofs Rec_Model Rec_Spec Rec_Proofs Rec_Proofs2 Rec_Proofs3 Rec_Proofs4.
Local Open Scope R_scope.

(** * C43: piecewise linear *)
(** Both states of a cell lie between its value and the neighbour's: any limiter on an evenly spaced mesh, whichever formula is used; [uc] says that the code treats the direction as uniform. *)
Theorem C43_bounded_uniform : forall mm uc xf xv q i, even xf xv -> bounded q i (PiecewiseLinear mm uc xf xv q i).
Proof. exact plm_bounded_even. Qed.
Print Assumptions C43_bounded_uniform.
(** On a stretched or curvilinear mesh: always with the minmod limiter, with the van Leer limiter when neighbouring cells are not much smaller. *)
Theorem C43_bounded_stretched : forall mm xf xv q i, mesh xf xv i -> (mm = false -> smooth xf xv i) -> bounded q i (PiecewiseLinear mm false xf xv q i).
Proof. exact plm_bounded. Qed.
Print Assumptions C43_bounded_stretched.
Definition grid_f : line := fun m => IZR m.
Definition grid_v : line := fun m => IZR m + 1 / 2.
Lemma grid_even : even grid_f grid_v.
Proof. exists 1. split; [lra|]. intro m. unfold grid_f, grid_v. rewrite plus_IZR. lra. Qed.
(** A mesh with spacing ratio 3/2, the data 0, 1, 4 are not linear on it. *)
Definition wide_f : line := fun m => if Z.leb m 0 then IZR m else 3 / 2 * IZR m.
Definition wide_v : line := fun m => (wide_f m + wide_f (m + 1)%Z) / 2.
Example C43_bounded_witness : mesh wide_f wide_v 0 /\ smooth wide_f wide_v 0 /\ even grid_f grid_v /\ plm_slope true true grid_f grid_v (fun m => IZR (m * m)) 1 = 1.
Proof.
  split; [intros m M; assert (E : m = (-1)%Z \/ m = 0%Z \/ m = 1%Z) by lia; destruct E as [->|[->| ->]]; unfold wide_v, wide_f; cbn; lra|].
  split; [unfold smooth, wide_v, wide_f; cbn; lra|]. split; [exact grid_even|]. unfold plm_slope, minmod. cbv zeta. change (1 * 1)%Z with 1%Z. change ((1 - 1) * (1 - 1))%Z with 0%Z. change ((1 + 1) * (1 + 1))%Z with 4%Z.
  assert (A : leR ((1 - 0) * (4 - 1)) 0 = false) by (apply leR_false; lra). assert (B : leR 0 (1 - 0) = true) by (apply leR_true; lra). rewrite A, B. rewrite Rmin_left; lra.
Qed.
(** The restriction on the mesh is needed: a cell of width 1 next to one of width 1/10; cell values -1, 0 and 1/20 give a state of more than 1/20. *)
Definition jump_f : line := fun m => if Z.leb m 1 then IZR m else 1 + IZR (m - 1) / 10.
Definition jump_v : line := fun m => (jump_f m + jump_f (m + 1)%Z) / 2.
Definition jump_q : line := fun m => if Z.ltb m 0 then - 1 else if Z.ltb 0 m then 1 / 20 else 0.
Theorem C43_bounded_stretched_refuted : exists xf xv q i, mesh xf xv i /\ ~ bounded q i (PiecewiseLinear false false xf xv q i).
Proof.
  exists jump_f, jump_v, jump_q, 0%Z. split.
  - intros m M. assert (E : m = (-1)%Z \/ m = 0%Z \/ m = 1%Z) by lia. destruct E as [->|[->| ->]]; unfold jump_v, jump_f; cbn; lra.
  - intros [[_ B] _]. unfold PiecewiseLinear, plm_states in B. cbn [fst] in B.
    assert (XM : jump_f (-1)%Z = -1) by reflexivity. assert (X0 : jump_f 0%Z = 0) by reflexivity. assert (X1 : jump_f 1%Z = 1) by reflexivity. assert (X2 : jump_f 2%Z = 11 / 10) by (unfold jump_f; cbn; lra).
    assert (V0 : jump_v 0%Z = 1 / 2) by (unfold jump_v; change (0 + 1)%Z with 1%Z; rewrite X0, X1; lra). assert (V1 : jump_v 1%Z = 21 / 20) by (unfold jump_v; change (1 + 1)%Z with 2%Z; rewrite X1, X2; lra). assert (VM : jump_v (-1)%Z = - 1 / 2) by (unfold jump_v; change (-1 + 1)%Z with 0%Z; rewrite XM, X0; lra).
    assert (Q0 : jump_q 0%Z = 0) by reflexivity. assert (Q1 : jump_q 1%Z = 1 / 20) by reflexivity. assert (QM : jump_q (-1)%Z = - 1) by reflexivity.
    unfold plm_slope, dxf, dxv in B. cbv zeta in B. change (0 + 1)%Z with 1%Z in B. change (0 - 1)%Z with (-1)%Z in B. change (-1 + 1)%Z with 0%Z in B. rewrite X0, X1, V0, V1, VM, Q0, Q1, QM in B.
    match type of B with context [leR ?x 0] => assert (P : leR x 0 = false) by (apply leR_false; lra); rewrite P in B end. rewrite Rmax_right in B by lra.
    match type of B with 0 + ?x * ?y <= _ => assert (E : x * y = 1 / 2 * (1 / 11 * (11 / 10 * 1 + 2 * (1 / 11)) / (1 * 1 + 1 / 11 * (1 / 11) + 1 / 11 * (11 / 10 + 2 - 2)))) by field end. lra.
Qed.
Print Assumptions C43_bounded_stretched_refuted.
(** Constant data. *)
Theorem C43_constant : forall mm uc xf xv q i a, mesh xf xv i -> (uc = true -> even xf xv) -> (forall m, (i - 1 <= m <= i + 1)%Z -> q m = a) -> PiecewiseLinear mm uc xf xv q i = (a, a).
Proof. intros mm uc xf xv q i a M E Q. rewrite (plm_linear mm uc xf xv q i a 0 M E) by (intros m H; rewrite (Q m H); ring). f_equal; ring. Qed.
Print Assumptions C43_constant.
(** Linear data are reproduced at both faces, on any mesh and with any limiter. *)
Theorem C43_linear : forall mm uc xf xv q i a b, mesh xf xv i -> (uc = true -> even xf xv) -> (forall m, (i - 1 <= m <= i + 1)%Z -> q m = a + b * xv m) ->
  PiecewiseLinear mm uc xf xv q i = (a + b * xf (i + 1)%Z, a + b * xf i).
Proof. exact plm_linear. Qed.
Print Assumptions C43_linear.
Example C43_linear_witness : mesh jump_f jump_v 0 /\ (forall m, (-1 <= m <= 1)%Z -> jump_v m = 0 + 1 * jump_v m) /\ jump_v 0%Z <> jump_v 1%Z.
Proof.
  split; [intros m M; assert (E : m = (-1)%Z \/ m = 0%Z \/ m = 1%Z) by lia; destruct E as [->|[->| ->]]; unfold jump_v, jump_f; cbn; lra|]. split; [intros; ring|]. unfold jump_v, jump_f; cbn; lra.
Qed.
(** The mirror image of the mesh and the data gives the mirror image of the states. *)
Theorem C43_mirror : forall mm uc xf xv q i, mesh xf xv i -> PiecewiseLinear mm uc (flip_f xf) (flip_v xv) (flip q) (- i) = swap (PiecewiseLinear mm uc xf xv q i).
Proof. exact plm_flip. Qed.
Print Assumptions C43_mirror.
(** Arrays with any number of variables: the same states, for all variables with the van Leer limiter, for the first NWAVE with minmod. *)
Theorem C43_any_variable : forall nwave mm uc xf xv q old n i, (mm = true -> (n < nwave)%nat) -> PiecewiseLinearSimple nwave mm uc xf xv q old n i = PiecewiseLinear mm uc xf xv (q n) i.
Proof. intros nwave mm uc xf xv q old n i H. unfold PiecewiseLinearSimple, PiecewiseLinear. destruct mm; [|reflexivity]. apply Nat.ltb_lt in H; [|reflexivity]. rewrite H. reflexivity. Qed.
Print Assumptions C43_any_variable.
(** Passive scalars number NWAVE and up (five in adiabatic hydrodynamics) with minmod use whatever slope was left behind: constant data do not give constant states. *)
Theorem C43_minmod_scalars_refuted : exists xf xv q old n i, even xf xv /\ (forall m, q n m = 1) /\ PiecewiseLinearSimple 5 true true xf xv q old n i <> (1, 1).
Proof.
  exists grid_f, grid_v, (fun _ _ => 1), (fun _ _ => 1), 5%nat, 0%Z. split; [exact grid_even|]. split; [reflexivity|]. unfold PiecewiseLinearSimple, plm_states. cbn [andb negb Nat.ltb Nat.leb]. intro E. pose proof (f_equal fst E) as A. cbn [fst] in A.
  unfold dxf, grid_f, grid_v in A. change (0 + 1)%Z with 1%Z in A. replace (1 - 0) with 1 in A by ring. lra.
Qed.
Print Assumptions C43_minmod_scalars_refuted.

(** * C44: parabolic *)
(** Evenly spaced Cartesian direction, either limiter: in a monotone stretch the states lie between neighbouring cell values. *)
Theorem C44_bounded_uniform : forall ext q i, monotone q i -> bounded q i (PiecewiseParabolic ext true false uniform_c q i).
Proof. exact ppm_uniform. Qed.
Print Assumptions C44_bounded_uniform.
(** Stretched Cartesian direction: for all data. *)
Theorem C44_bounded_stretched : forall ext dx q i, bounded q i (PiecewiseParabolic ext false false (stretched_c dx) q i).
Proof. intros ext dx q i. apply ppm_clamped; [reflexivity|cbn [stretched_c hplus]; unfold const; lra|cbn [stretched_c hminus]; unfold const; lra]. Qed.
Print Assumptions C44_bounded_stretched.
(** Radial direction: for all data and whatever the interpolation weights. *)
Theorem C44_bounded_radial : forall ext unif sph xf c q i, 0 <= xf i < xf (i + 1)%Z -> hplus c i = fst (radial_h sph xf i) -> hminus c i = snd (radial_h sph xf i) -> bounded q i (PiecewiseParabolic ext unif true c q i).
Proof.
  intros ext unif sph xf c q i X H1 H2. destruct (radial_ratios sph xf i) as [A B]; try lra. apply ppm_clamped; [apply andb_false_r|rewrite H1; exact A|rewrite H2; exact B].
Qed.
Print Assumptions C44_bounded_radial.
Example C44_bounded_witness : monotone (fun m => IZR (m * m * m)) 1 /\ ~ bounded (fun m => IZR (m * m * m)) 1 (0, 0) /\ 0 <= grid_f 1%Z < grid_f (1 + 1)%Z.
Proof.
  split; [left; repeat split; apply IZR_le; lia|]. split; [|unfold grid_f; change (1 + 1)%Z with 2%Z; lra].
  intros [[A _] _]. cbn [fst] in A. unfold Rmin in A. change (1 * 1 * 1)%Z with 1%Z in A. change ((1 + 1) * (1 + 1) * (1 + 1))%Z with 8%Z in A. destruct Rle_dec in A; lra.
Qed.
(** Constant data. *)
Lemma constant_pair : forall q i a s, (forall m, (i - 2 <= m <= i + 2)%Z -> q m = a) -> bounded q i s -> s = (a, a).
Proof.
  intros q i a [x y] Q [A B]. unfold between in *. cbn [fst snd] in *. rewrite !(Q _) in * by lia. rewrite Rmin_left, Rmax_left in * by lra. f_equal; lra.
Qed.
Theorem C44_constant : forall ext q i a, (forall m, (i - 2 <= m <= i + 2)%Z -> q m = a) ->
  PiecewiseParabolic ext true false uniform_c q i = (a, a) /\ (forall dx, PiecewiseParabolic ext false false (stretched_c dx) q i = (a, a)) /\
  (forall unif sph is_ xf, 0 <= xf i < xf (i + 1)%Z -> PiecewiseParabolic ext unif true (radial_c sph is_ xf) q i = (a, a)).
Proof.
  intros ext q i a Q. repeat split; intros; apply (constant_pair q i a); try exact Q.
  - apply C44_bounded_uniform. left. rewrite !Q by lia. lra.
  - apply C44_bounded_stretched.
  - apply (C44_bounded_radial ext unif sph xf); [assumption|reflexivity|reflexivity].
Qed.
Print Assumptions C44_constant.
(** Linear data are reproduced at both faces. *)
Theorem C44_linear_uniform : forall ext xf xv q i a b, even xf xv -> (forall m, (i - 2 <= m <= i + 2)%Z -> q m = a + b * xv m) ->
  PiecewiseParabolic ext true false uniform_c q i = (a + b * xf (i + 1)%Z, a + b * xf i).
Proof. exact ppm_linear_uniform. Qed.
Print Assumptions C44_linear_uniform.
Theorem C44_linear_stretched : forall ext xf q i a b, (forall m, xf m < xf (m + 1)%Z) -> (forall m, (i - 2 <= m <= i + 2)%Z -> q m = a + b * ((xf m + xf (m + 1)%Z) / 2)) ->
  PiecewiseParabolic ext false false (stretched_c (dxf xf)) q i = (a + b * xf (i + 1)%Z, a + b * xf i).
Proof. exact ppm_linear_stretched. Qed.
Print Assumptions C44_linear_stretched.
(** Mirror images. *)
Theorem C44_mirror_uniform : forall ext q i, PiecewiseParabolic ext true false uniform_c (flip q) (- i) = swap (PiecewiseParabolic ext true false uniform_c q i).
Proof. intros ext q i. apply ppm_flip; [intro m; apply face_flip_uniform|reflexivity|reflexivity]. Qed.
Print Assumptions C44_mirror_uniform.
Theorem C44_mirror_stretched : forall ext dx q i, all_positive dx -> PiecewiseParabolic ext false false (stretched_c (flip dx)) (flip q) (- i) = swap (PiecewiseParabolic ext false false (stretched_c dx) q i).
Proof. intros ext dx q i P. apply ppm_flip; [intro m; apply face_flip_stretched; exact P|reflexivity|reflexivity]. Qed.
Print Assumptions C44_mirror_stretched.
(** The value interpolated at a face before limiting is exact for cubics: uniform Cartesian direction. *)
Theorem C44_cubic_uniform : forall xf i h a0 a1 a2 a3, 0 < h -> (forall m, xf (m + 1)%Z = xf m + h) -> ppm_face false uniform_c (cubic_means 0 xf a0 a1 a2 a3) i = cubic a0 a1 a2 a3 (xf i).
Proof. exact face_cubic_uniform. Qed.
Print Assumptions C44_cubic_uniform.
(** Radial direction of cylindrical (volume element r dr) and spherical (r^2 dr) coordinates, even spacing, in a block whose first face is the axis. *)
Theorem C44_cubic_radial : forall sph is_ xf i h a0 a1 a2 a3, 0 < h -> (forall m, xf m = IZR (m - is_) * h) -> (is_ + 2 <= i)%Z ->
  ppm_face true (radial_c sph is_ xf) (cubic_means (if sph then 2 else 1) xf a0 a1 a2 a3) i = cubic a0 a1 a2 a3 (xf i).
Proof. exact face_cubic_radial. Qed.
Print Assumptions C44_cubic_radial.
(** In any other block the weights belong to a different radius: faces at r = 10, 11, ... (a domain not starting at the axis, or the second block of one that does); even the average of r is not reproduced. *)
Theorem C44_radial_offset_refuted : exists xf is_ i, (forall m, xf m = IZR (m - is_ + 10)) /\ (is_ + 2 <= i)%Z /\ ppm_face true (radial_c false is_ xf) (cubic_means 1 xf 0 1 0 0) i <> cubic 0 1 0 0 (xf i).
Proof.
  exists (fun m => IZR (m - 3 + 10)), 3%Z, 5%Z. split; [reflexivity|]. split; [lia|]. unfold ppm_face, radial_c, cubic_means, cubic, mean; cbn [c1 c2 c3 c4]. change (Z.abs (5 - 3)) with 2%Z. unfold cyl_w. cbn [fst snd]. 
  change (5 - 2)%Z with 3%Z. change (5 - 1)%Z with 4%Z. change (5 + 1)%Z with 6%Z. change (3 + 1)%Z with 4%Z. change (4 + 1)%Z with 5%Z. change (6 + 1)%Z with 7%Z.
  change (3 - 3 + 10)%Z with 10%Z. change (4 - 3 + 10)%Z with 11%Z. change (5 - 3 + 10)%Z with 12%Z. change (6 - 3 + 10)%Z with 13%Z. change (7 - 3 + 10)%Z with 14%Z. cbn [Nat.add INR pow].
  intro E. field_simplify in E. lra.
Qed.
Print Assumptions C44_radial_offset_refuted.
(** WENO-Z and WENO-MZ reproduce quadratics at both faces and respect mirror images; [eps] is the positive constant of the method. *)
Theorem C44_weno_quadratic : forall eps xf h a0 a1 a2 i, 0 < eps -> 0 < h -> (forall m, xf (m + 1)%Z = xf m + h) ->
  WENOZ eps (cubic_means 0 xf a0 a1 a2 0) i = (cubic a0 a1 a2 0 (xf (i + 1)%Z), cubic a0 a1 a2 0 (xf i)) /\ WENOMZ eps (cubic_means 0 xf a0 a1 a2 0) i = (cubic a0 a1 a2 0 (xf (i + 1)%Z), cubic a0 a1 a2 0 (xf i)).
Proof. intros. split; [eapply wenoz_quadratic|eapply wenomz_quadratic]; eassumption. Qed.
Print Assumptions C44_weno_quadratic.
Theorem C44_weno_mirror : forall eps q i, 0 < eps -> WENOZ eps (flip q) (- i) = swap (WENOZ eps q i) /\ WENOMZ eps (flip q) (- i) = swap (WENOMZ eps q i).
Proof. intros eps q i E. split; [apply wenoz_flip|apply wenomz_flip; exact E]. Qed.
Print Assumptions C44_weno_mirror.
