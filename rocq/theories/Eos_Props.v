(** C46, C61, C62. *)
From Coq Require Import Reals ZArith Bool Lra Psatz Lia.
From Verif Require Import Time_Model Time_Proofs Arr_Model Eos_Model Eos_Spec Eos_Proofs.
Local Open Scope R_scope.

Lemma zero_field : field_energy (mkB 0 0 0) = 0.
Proof. unfold field_energy. cbn [b1 b2 b3]. field. Qed.

(** C46, round trip: a state at or above the floors survives the way to conserved variables and back, and the conserved variables are left alone. *)
Theorem C46_round_trip : forall gamma dfloor pfloor w, 1 < gamma -> 0 < dfloor -> above dfloor pfloor w ->
  describes gamma 0 w (p2c gamma w) /\ c2p gamma dfloor pfloor (p2c gamma w) = (p2c gamma w, w).
Proof.
  intros gamma dfloor pfloor w G D A. rewrite c2p_as_mhd, p2c_as_mhd. pose proof (p2c_describes gamma (mkB 0 0 0) w) as P.
  split; [rewrite zero_field in P; exact P | apply c2p_exact; assumption].
Qed.
Theorem C46_round_trip_mhd : forall gamma dfloor pfloor b w, 1 < gamma -> 0 < dfloor -> above dfloor pfloor w ->
  describes gamma (field_energy b) w (p2c_mhd gamma b w) /\ c2p_mhd gamma dfloor pfloor b (p2c_mhd gamma b w) = (p2c_mhd gamma b w, w).
Proof. intros gamma dfloor pfloor b w G D A. split; [apply p2c_describes | apply c2p_exact; try assumption; apply p2c_describes]. Qed.
Theorem C46_round_trip_isothermal : forall dfloor w, 0 < dfloor -> dfloor <= iw_d w ->
  describes_iso w (p2c_iso w) /\ c2p_iso dfloor (p2c_iso w) = (p2c_iso w, w).
Proof.
  intros dfloor w D A. assert (P : describes_iso w (p2c_iso w)) by (unfold describes_iso, p2c_iso; cbn [iu_d iu_m1 iu_m2 iu_m3]; repeat split; ring).
  split; [exact P | apply iso_exact; assumption].
Qed.
Theorem C46_round_trip_scalar : forall sfloor d r, 0 < d -> sfloor <= r -> scalar_c2p sfloor d (scalar_p2c d r) = (scalar_p2c d r, r).
Proof. exact scalar_exact. Qed.

(** C46, floors: whatever the conserved variables were, afterwards density and pressure are at or above the floors and both sets of variables describe the same gas. *)
Theorem C46_floors : forall gamma dfloor pfloor u u' w', 1 < gamma -> 0 < dfloor -> c2p gamma dfloor pfloor u = (u', w') ->
  above dfloor pfloor w' /\ describes gamma 0 w' u'.
Proof.
  intros gamma dfloor pfloor u u' w' G D E. rewrite c2p_as_mhd in E. pose proof (c2p_sound gamma dfloor pfloor (mkB 0 0 0) u G D) as S. rewrite E in S. rewrite zero_field in S. exact S.
Qed.
Theorem C46_floors_mhd : forall gamma dfloor pfloor b u u' w', 1 < gamma -> 0 < dfloor -> c2p_mhd gamma dfloor pfloor b u = (u', w') ->
  above dfloor pfloor w' /\ describes gamma (field_energy b) w' u'.
Proof. intros gamma dfloor pfloor b u u' w' G D E. pose proof (c2p_sound gamma dfloor pfloor b u G D) as S. rewrite E in S. exact S. Qed.
Theorem C46_floors_isothermal : forall dfloor u u' w', 0 < dfloor -> c2p_iso dfloor u = (u', w') ->
  dfloor <= iw_d w' /\ describes_iso w' u' /\ iu_d u' = Rmax (iu_d u) dfloor /\ iu_m1 u' = iu_m1 u /\ iu_m2 u' = iu_m2 u /\ iu_m3 u' = iu_m3 u.
Proof. intros dfloor u u' w' D E. pose proof (iso_sound dfloor u D) as S. rewrite E in S. exact S. Qed.
Theorem C46_floors_scalar : forall sfloor d s s' r', 0 < d -> scalar_c2p sfloor d s = (s', r') -> sfloor <= r' /\ s' = d * r' /\ s' = Rmax s (sfloor * d).
Proof. intros sfloor d s s' r' D E. pose proof (scalar_sound sfloor d s D) as S. rewrite E in S. exact S. Qed.

(** C46, valid states: conserved variables that describe a gas at or above the floors are not changed, and the primitive variables are that gas; the conversion done twice is the conversion done once. *)
Theorem C46_valid_unchanged : forall gamma dfloor pfloor b u w, 1 < gamma -> 0 < dfloor ->
  above dfloor pfloor w -> describes gamma (field_energy b) w u ->
  c2p_mhd gamma dfloor pfloor b u = (u, w) /\ (field_energy b = 0 -> c2p gamma dfloor pfloor u = (u, w)).
Proof.
  intros gamma dfloor pfloor b u w G D A S. split; [apply c2p_exact; assumption |]. intro Z. rewrite c2p_as_mhd. apply c2p_exact; try assumption. rewrite zero_field. rewrite <- Z. exact S.
Qed.
Theorem C46_twice : forall gamma dfloor pfloor b u, 1 < gamma -> 0 < dfloor ->
  c2p_mhd gamma dfloor pfloor b (fst (c2p_mhd gamma dfloor pfloor b u)) = c2p_mhd gamma dfloor pfloor b u
  /\ c2p gamma dfloor pfloor (fst (c2p gamma dfloor pfloor u)) = c2p gamma dfloor pfloor u.
Proof. intros. split; [apply c2p_idem; assumption |]. rewrite !c2p_as_mhd. apply c2p_idem; assumption. Qed.

(** C46, no more than needed: momentum is never changed, density is the larger of its value and the floor, and energy is changed, upwards, only where the pressure would be below the floor. *)
Theorem C46_least_change : forall gamma dfloor pfloor b u u' w', 1 < gamma -> 0 < dfloor -> c2p_mhd gamma dfloor pfloor b u = (u', w') ->
  same_momentum u u' /\ u_d u' = Rmax (u_d u) dfloor
  /\ (pfloor < pressure_at_floor gamma dfloor (field_energy b) u -> u_e u' = u_e u)
  /\ (pressure_at_floor gamma dfloor (field_energy b) u <= pfloor -> w_p w' = pfloor /\ u_e u <= u_e u').
Proof. intros gamma dfloor pfloor b u u' w' G D E. pose proof (c2p_changes gamma dfloor pfloor b u G D) as S. rewrite E in S. exact S. Qed.

(** C46, reconstructed face states: floors hold, states above them pass unchanged. *)
Theorem C46_face_states : forall dfloor pfloor w,
  above dfloor pfloor (ApplyPrimitiveFloors dfloor pfloor w) /\ (above dfloor pfloor w -> ApplyPrimitiveFloors dfloor pfloor w = w)
  /\ w_vx (ApplyPrimitiveFloors dfloor pfloor w) = w_vx w /\ w_vy (ApplyPrimitiveFloors dfloor pfloor w) = w_vy w /\ w_vz (ApplyPrimitiveFloors dfloor pfloor w) = w_vz w.
Proof.
  intros dfloor pfloor w. unfold ApplyPrimitiveFloors, above. cbn [w_d w_p w_vx w_vy w_vz]. repeat split; try apply floor_ge.
  intros [A B]. rewrite !floor_id by assumption. destruct w; reflexivity.
Qed.
(** For passive scalars on a line of face states (the arrays rl_, rr_): only that entry, floored. *)
Theorem C46_scalar_face_states : forall D sfloor mem n k j i,
  ApplyPassiveScalarFloors D sfloor mem n k j i (at2 D n i) = Rmax (mem (at2 D n i)) sfloor
  /\ forall a, a <> at2 D n i -> ApplyPassiveScalarFloors D sfloor mem n k j i a = mem a.
Proof.
  intros. unfold ApplyPassiveScalarFloors. rewrite Z.eqb_refl. split; [apply floor_max |].
  intros a H. destruct (Z.eqb_spec a (at2 D n i)); [contradiction | reflexivity].
Qed.

(** C46, cell averages (fourth order): the floors hold and the densities agree; in a uniform neighbourhood nothing happens; where the floors do not act the density is unchanged. *)
Theorem C46_cell_average : forall two three gamma dfloor pfloor u w k j i u' w',
  cell_average two three gamma dfloor pfloor u w k j i = (u', w') -> above dfloor pfloor w' /\ u_d u' = w_d w' /\ same_momentum (u k j i) u'.
Proof. intros two three gamma dfloor pfloor u w k j i u' w' E. pose proof (average_floors two three gamma dfloor pfloor u w k j i) as S. rewrite E in S. exact S. Qed.
Theorem C46_cell_average_uniform : forall two three gamma dfloor pfloor u w k j i u0 w0, 1 < gamma -> 0 < dfloor ->
  above dfloor pfloor w0 -> describes gamma 0 w0 u0 ->
  (forall k' j' i', near two three k j i k' j' i' -> u k' j' i' = u0 /\ w k' j' i' = w0) ->
  cell_average two three gamma dfloor pfloor u w k j i = (u0, w0).
Proof. exact average_uniform. Qed.
Theorem C46_cell_average_mass : forall two three gamma dfloor pfloor u w k j i,
  (forall k' j' i', near two three k j i k' j' i' -> dfloor <= u_d (u k' j' i')) ->
  (forall k' j' i', w k' j' i' = snd (c2p gamma dfloor pfloor (u k' j' i'))) ->
  dfloor <= u_d (u k j i) - C_lap two three (fun k j i => u_d (u k j i)) k j i ->
  u_d (fst (cell_average two three gamma dfloor pfloor u w k j i)) = u_d (u k j i).
Proof. exact average_mass. Qed.

(** Gas that moves with one velocity, away from the floors: the fourth-order conversion agrees with the pointwise one, whatever density and pressure do. *)
Theorem C46_cell_average_advected : forall two three gamma dfloor pfloor u w k j i v1 v2 v3, 1 < gamma -> 0 < dfloor ->
  (forall k' j' i', near two three k j i k' j' i' -> above dfloor pfloor (w k' j' i') /\ describes gamma 0 (w k' j' i') (u k' j' i')
     /\ w_vx (w k' j' i') = v1 /\ w_vy (w k' j' i') = v2 /\ w_vz (w k' j' i') = v3) ->
  dfloor <= w_d (w k j i) - C_lap two three (fun k j i => w_d (w k j i)) k j i ->
  pfloor <= w_p (w k j i) - C_lap two three (fun k j i => w_p (w k j i)) k j i ->
  cell_average two three gamma dfloor pfloor u w k j i = (u k j i, w k j i).
Proof. exact average_advected. Qed.

(** The last hypothesis of C46_cell_average_mass cannot be dropped: the fourth-order conversion changes the mass of a cell although all cell averages around it are valid and far above the floors. *)
Definition spike (k j i : Z) : cons := mkU (if Z.eqb i 0 then 1 else 25) 0 0 0 1.
Theorem C46_cell_average_valid_refuted :
  (forall k j i, exists w, above (1/100) (1/100) w /\ describes 2 0 w (spike k j i))
  /\ u_d (fst (cell_average false false 2 (1/100) (1/100) spike (fun k j i => snd (c2p 2 (1/100) (1/100) (spike k j i))) 0 0 0)) <> u_d (spike 0 0 0).
Proof.
  split.
  - intros k j i. exists (mkW (if Z.eqb i 0 then 1 else 25) 0 0 0 1). unfold above, describes, spike. cbn [u_d u_m1 u_m2 u_m3 u_e w_d w_vx w_vy w_vz w_p].
    destruct (Z.eqb i 0); repeat split; try lra; field.
  - rewrite average_density. unfold C_lap, lap. rewrite !c2p_density. unfold spike. cbn [u_d].
    change (Z.eqb (0 - 1) 0) with false. change (Z.eqb (0 + 1) 0) with false. change (Z.eqb 0 0) with true. cbv iota.
    rewrite (Rmax_left 25 (1/100)), (Rmax_left 1 (1/100)) by lra.
    replace (1 - (25 - 2 * 1 + 25 + 0 + 0) / 24) with (-1) by field.
    rewrite (Rmax_right (-1) (1/100)) by lra. 
    replace (1 / 100 + (25 - 2 * 1 + 25 + 0 + 0) / 24) with (201/100) by field. rewrite Rmax_left by lra. intro X0. lra.
Qed.
(** The floors applied to the cell averages do not keep the two sets of variables together: the density floor changes density in both, but neither the momentum nor, if the pressure is above its floor, the energy. *)
Theorem C46_conserved_floors_refuted : exists u w, describes 2 0 w u /\ w_p w > 1/100 /\
  let '(u', w') := ApplyPrimitiveConservedFloors 2 (1/100) (1/100) 0 u w in
  w_vx w' = w_vx w /\ u_m1 u' <> w_d w' * w_vx w' /\ ~ describes 2 0 w' u'.
Proof.
  exists (p2c 2 (mkW (1/1000) 1 0 0 1)), (mkW (1/1000) 1 0 0 1). split; [| split].
  - pose proof (p2c_describes 2 (mkB 0 0 0) (mkW (1/1000) 1 0 0 1)) as P. rewrite zero_field, <- p2c_as_mhd in P. exact P.
  - cbn [w_p]. lra.
  - unfold ApplyPrimitiveConservedFloors, p2c. cbv zeta. cbn [u_d u_m1 u_m2 u_m3 u_e w_d w_vx w_vy w_vz w_p].
    rewrite (floor_max (1/100) (1/1000)). rewrite Rmax_right by lra.
    split; [reflexivity |]. split; [intro X0; lra |]. intros (_ & X & _). cbn [u_m1 w_d w_vx] in X. lra.
Qed.
(** The floor for cell-averaged passive scalars is applied to another cell: the array has four indices and is addressed with two. *)
Theorem C46_scalar_average_floor_refuted : exists D mem n k j i sfloor v,
  (0 <= i < nx1 D)%Z /\ (0 <= j < nx2 D)%Z /\ (0 <= k < nx3 D)%Z /\ (0 <= n < nx4 D)%Z /\
  v < sfloor /\ scalar_average_step D sfloor v mem n k j i (at4 D n k j i) = v
  /\ at4 D 0 0 n i <> at4 D n k j i /\ mem (at4 D 0 0 n i) < sfloor /\ scalar_average_step D sfloor v mem n k j i (at4 D 0 0 n i) = sfloor.
Proof.
  exists (mkD 8 8 8 1 1 1), (fun _ => 0), 0%Z, 4%Z, 4%Z, 4%Z, 1, (1/2). cbn [nx1 nx2 nx3 nx4].
  repeat apply conj; try lia; try lra.
  - unfold scalar_average_step, ApplyPassiveScalarFloors. change (Z.eqb (at4 (mkD 8 8 8 1 1 1) 0 4 4 4) (at2 (mkD 8 8 8 1 1 1) 0 4)) with false.
    rewrite Z.eqb_refl. reflexivity.
  - unfold at4. cbn [nx1 nx2 nx3]. lia.
  - unfold scalar_average_step, ApplyPassiveScalarFloors. change (Z.eqb (at4 (mkD 8 8 8 1 1 1) 0 0 0 4) (at2 (mkD 8 8 8 1 1 1) 0 4)) with true.
    change (Z.eqb (at4 (mkD 8 8 8 1 1 1) 0 0 0 4) (at4 (mkD 8 8 8 1 1 1) 0 4 4 4)) with false. cbv iota. exact (eq_trans (floor_max 1 0) (Rmax_right 0 1 Rle_0_1)).
Qed.

(** C61: the fast magnetosonic speed is a real number (no square root of a negative number is taken), it solves the characteristic equation, no other solution is larger,
    and it is at least the sound speed and the Alfven speed.  Without field it is the sound speed. *)
Theorem C61_fast_speed : forall asq d bx by_ bz, 0 <= asq -> 0 < d ->
  let c := FastMagnetosonicSpeed asq d bx by_ bz in
  let bsq := bx ^ 2 + by_ ^ 2 + bz ^ 2 in
  let characteristic x := (d * x ^ 2) ^ 2 - (bsq + asq) * (d * x ^ 2) + asq * bx ^ 2 = 0 in
  0 <= c /\ characteristic c /\ (forall x, characteristic x -> x <= c) /\ asq / d <= c ^ 2 /\ bsq / d <= c ^ 2.
Proof.
  intros asq d bx by_ bz A D c bsq ch. repeat apply conj.
  - apply cf_nonneg.
  - apply cf_root; assumption.
  - intros x H. apply (cf_largest asq d bx by_ bz A D x H).
  - destruct (cf_bounds asq d bx by_ bz A D) as [B _]. apply (Rmult_le_reg_l d); [exact D |]. replace (d * (asq / d)) with asq by (field; intro X0; lra). exact B.
  - destruct (cf_bounds asq d bx by_ bz A D) as [_ B]. apply (Rmult_le_reg_l d); [exact D |]. replace (d * (bsq / d)) with bsq by (field; intro X0; lra). exact B.
Qed.
Theorem C61_no_nan : forall asq d bx by_ bz, 0 <= asq -> 0 < d ->
  0 <= (bx * bx + (by_ * by_ + bz * bz) - asq) * (bx * bx + (by_ * by_ + bz * bz) - asq) + 4 * asq * (by_ * by_ + bz * bz)
  /\ 0 <= 1 / 2 * (bx * bx + (by_ * by_ + bz * bz) + asq + sqrt ((bx * bx + (by_ * by_ + bz * bz) - asq) * (bx * bx + (by_ * by_ + bz * bz) - asq) + 4 * asq * (by_ * by_ + bz * bz))) / d.
Proof. intros. split; [apply (disc_nonneg asq bx by_ bz); assumption | apply (arg_nonneg asq d bx by_ bz); assumption]. Qed.
Theorem C61_no_field : forall gamma d p, 0 < gamma -> 0 < d -> 0 <= p -> FastMagnetosonicSpeed (gamma * p) d 0 0 0 = SoundSpeed gamma d p.
Proof.
  intros gamma d p G D P. unfold FastMagnetosonicSpeed, SoundSpeed. cbv zeta. f_equal.
  assert (0 <= gamma * p) by (apply Rmult_le_pos; lra). set (a := gamma * p) in *. clearbody a.
  replace ((0 * 0 + (0 * 0 + 0 * 0) - a) * (0 * 0 + (0 * 0 + 0 * 0) - a) + 4 * a * (0 * 0 + 0 * 0)) with (a * a) by ring.
  rewrite sqrt_square by assumption. field. intro X0; lra.
Qed.

(** C62: the cell-centred field of a uniform field is that field, a field linear in the coordinate is exact at the volume centre, and the value is always between those on the two faces. *)
Theorem C62_cell_centered_field : forall un fl fr xv bl br, fl < fr -> fl <= xv <= fr -> (un = true -> xv = (fl + fr) / 2) ->
  cell_centered un fl fr xv bl bl = bl /\ (forall a s, cell_centered un fl fr xv (a + s * fl) (a + s * fr) = a + s * xv)
  /\ Rmin bl br <= cell_centered un fl fr xv bl br <= Rmax bl br.
Proof. intros un fl fr xv bl br H V U. repeat apply conj; [apply cell_centered_const | intros; apply cell_centered_linear | apply cell_centered_between | apply cell_centered_between]; assumption. Qed.

(** C63: the upwind weight for constrained transport is between 0 and 1, one half without flow, on the side the mass comes from, and mirror-symmetric. *)
Theorem C63_upwind_weight : forall f rl rr dx dt, 0 < rl -> 0 < rr -> 0 < dx -> 0 < dt ->
  0 <= GetWeightForCT f rl rr dx dt <= 1 /\ GetWeightForCT (- f) rr rl dx dt = 1 - GetWeightForCT f rl rr dx dt
  /\ (f = 0 -> GetWeightForCT f rl rr dx dt = 1 / 2)
  /\ (0 < f -> 1/2 < GetWeightForCT f rl rr dx dt) /\ (f < 0 -> GetWeightForCT f rl rr dx dt < 1/2).
Proof. exact weight_ct. Qed.

(** The hypotheses are met. *)
Example gas_above : above (1/100) (1/100) (mkW 1 2 3 4 5).
Proof. unfold above. cbn [w_d w_p]. lra. Qed.
Example low_density : exists u', c2p 2 (1/100) (1/100) (mkU 0 1 0 0 1) = (u', mkW (1/100) 100 0 0 (1/100)) /\ u_e u' = 1/100 + 50.
Proof.
  unfold c2p. cbv zeta. cbn [u_d u_m1 u_m2 u_m3 u_e]. rewrite (floor_max (1/100) 0), Rmax_right by lra. unfold SQR.
  replace (1 / 2 * (1 / (1 / 100)) * (1 * 1 + 0 * 0 + 0 * 0)) with 50 by field.
  destruct (ltR (1/100) ((2 - 1) * (1 - 50))) eqn:E; [apply ltR_true in E; lra |].
  eexists. split; [f_equal; f_equal; field | cbn [u_e]; field].
Qed.
Example flat_neighbourhood : forall k' j' i', near true true 0 0 0 k' j' i' -> (fun _ _ _ : Z => p2c 2 (mkW 1 0 0 0 1)) k' j' i' = p2c 2 (mkW 1 0 0 0 1) /\ (fun _ _ _ : Z => mkW 1 0 0 0 1) k' j' i' = mkW 1 0 0 0 1.
Proof. intros. split; reflexivity. Qed.
Definition heap_w (k j i : Z) : prim := mkW (IZR (i * i) + 1) 1 0 0 1.
Example advected_case : let u k j i := p2c 2 (heap_w k j i) in
  (forall k' j' i', near true true 0 0 0 k' j' i' -> above (1/100) (1/100) (heap_w k' j' i') /\ describes 2 0 (heap_w k' j' i') (u k' j' i')
     /\ w_vx (heap_w k' j' i') = 1 /\ w_vy (heap_w k' j' i') = 0 /\ w_vz (heap_w k' j' i') = 0)
  /\ 1/100 <= w_d (heap_w 0 0 0) - C_lap true true (fun k j i => w_d (heap_w k j i)) 0 0 0
  /\ 1/100 <= w_p (heap_w 0 0 0) - C_lap true true (fun k j i => w_p (heap_w k j i)) 0 0 0.
Proof.
  cbv zeta. split; [| split].
  - intros k' j' i' _. split; [| split; [| repeat split]].
    + unfold above, heap_w. cbn [w_d w_p]. pose proof (IZR_le 0 (i' * i') ltac:(nia)). lra.
    + pose proof (p2c_describes 2 (mkB 0 0 0) (heap_w k' j' i')) as P. rewrite zero_field, <- p2c_as_mhd in P. exact P.
  - unfold C_lap, lap, heap_w. cbn [w_d]. change (0 - 1)%Z with (-1)%Z. change (0 + 1)%Z with 1%Z. change (-1 * -1)%Z with 1%Z. change (1 * 1)%Z with 1%Z. change (0 * 0)%Z with 0%Z. lra.
  - unfold C_lap, lap, heap_w. cbn [w_p]. lra.
Qed.
Example centre : (0 < 1 /\ 0 <= 2/3 <= 1) /\ (false = true -> 2/3 = (0 + 1) / 2).
Proof. split; [lra | discriminate]. Qed.

Print Assumptions C46_round_trip.
Print Assumptions C46_round_trip_mhd.
Print Assumptions C46_round_trip_isothermal.
Print Assumptions C46_round_trip_scalar.
Print Assumptions C46_floors.
Print Assumptions C46_floors_mhd.
Print Assumptions C46_floors_isothermal.
Print Assumptions C46_floors_scalar.
Print Assumptions C46_valid_unchanged.
Print Assumptions C46_twice.
Print Assumptions C46_least_change.
Print Assumptions C46_face_states.
Print Assumptions C46_scalar_face_states.
Print Assumptions C46_cell_average.
Print Assumptions C46_cell_average_uniform.
Print Assumptions C46_cell_average_mass.
Print Assumptions C46_cell_average_advected.
Print Assumptions C46_cell_average_valid_refuted.
Print Assumptions C46_conserved_floors_refuted.
Print Assumptions C46_scalar_average_floor_refuted.
Print Assumptions C61_fast_speed.
Print Assumptions C61_no_nan.
Print Assumptions C61_no_field.
Print Assumptions C62_cell_centered_field.
Print Assumptions C63_upwind_weight.
