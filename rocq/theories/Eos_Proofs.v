From Coq Require Import Reals ZArith Bool Lra Psatz Lia.
From Verif Require Import Time_Model Time_Proofs Arr_Model Eos_Model Eos_Spec.
Local Open Scope R_scope.

Lemma floor_ge : forall f x, f <= floor_at f x.
Proof. intros f x. unfold floor_at. destruct (ltR f x) eqn:E; [apply ltR_true in E; lra | lra]. Qed.
Lemma floor_id : forall f x, f <= x -> floor_at f x = x.
Proof. intros f x H. unfold floor_at. destruct (ltR f x) eqn:E; [reflexivity | apply ltR_false in E; lra]. Qed.
Lemma floor_max : forall f x, floor_at f x = Rmax x f.
Proof. intros f x. unfold floor_at. destruct (ltR f x) eqn:E; [apply ltR_true in E; rewrite Rmax_left; lra | apply ltR_false in E; rewrite Rmax_right; lra]. Qed.
Lemma sq_pow : forall x, SQR x = x ^ 2.
Proof. intros x. unfold SQR. ring. Qed.

Lemma c2p_as_mhd : forall gamma dfloor pfloor u, c2p gamma dfloor pfloor u = c2p_mhd gamma dfloor pfloor (mkB 0 0 0) u.
Proof.
  intros. unfold c2p, c2p_mhd, magnetic_pressure. cbn [b1 b2 b3]. cbv zeta.
  set (d := floor_at dfloor (u_d u)). set (k := 1 / 2 * (1 / d) * (SQR (u_m1 u) + SQR (u_m2 u) + SQR (u_m3 u))).
  assert (Z : 1 / 2 * (SQR 0 + SQR 0 + SQR 0) = 0) by (unfold SQR; ring). rewrite Z.
  replace (u_e u - k - 0) with (u_e u - k) by ring. replace (pfloor / (gamma - 1) + k + 0) with (pfloor / (gamma - 1) + k) by ring. reflexivity.
Qed.
Lemma p2c_as_mhd : forall gamma w, p2c gamma w = p2c_mhd gamma (mkB 0 0 0) w.
Proof. intros. unfold p2c, p2c_mhd, SQR. cbn [b1 b2 b3]. f_equal. ring. Qed.

Lemma p2c_describes : forall gamma b w, describes gamma (field_energy b) w (p2c_mhd gamma b w).
Proof.
  intros. unfold describes, p2c_mhd, field_energy, SQR. cbn [u_d u_m1 u_m2 u_m3 u_e].
  repeat split; unfold Rdiv; ring.
Qed.
Lemma mp_energy : forall b, magnetic_pressure b = field_energy b.
Proof. intros. unfold magnetic_pressure, field_energy, SQR. field. Qed.

Lemma c2p_sound : forall gamma dfloor pfloor b u, 1 < gamma -> 0 < dfloor ->
  let '(u', w') := c2p_mhd gamma dfloor pfloor b u in
  above dfloor pfloor w' /\ describes gamma (field_energy b) w' u'.
Proof.
  intros gamma dfloor pfloor b u G D. unfold c2p_mhd. cbv zeta. rewrite mp_energy. set (pb := field_energy b).
  pose proof (floor_ge dfloor (u_d u)) as F. set (d := floor_at dfloor (u_d u)) in *.
  set (k := 1 / 2 * (1 / d) * (SQR (u_m1 u) + SQR (u_m2 u) + SQR (u_m3 u))).
  assert (K : k = d * ((u_m1 u * (1 / d)) ^ 2 + (u_m2 u * (1 / d)) ^ 2 + (u_m3 u * (1 / d)) ^ 2) / 2).
  { unfold k, SQR. field. intro X0; lra. }
  assert (M : forall m, m = d * (m * (1 / d))) by (intros; field; intro X0; lra).
  unfold above, describes. cbn [u_d u_m1 u_m2 u_m3 u_e w_d w_vx w_vy w_vz w_p].
  destruct (ltR pfloor ((gamma - 1) * (u_e u - k - pb))) eqn:E; rewrite <- K.
  - apply ltR_true in E. repeat split; try lra; try apply M. field. intro X0; lra.
  - apply ltR_false in E. repeat split; try lra; try apply M.
Qed.

Lemma c2p_exact : forall gamma dfloor pfloor b u w, 1 < gamma -> 0 < dfloor ->
  above dfloor pfloor w -> describes gamma (field_energy b) w u -> c2p_mhd gamma dfloor pfloor b u = (u, w).
Proof.
  intros gamma dfloor pfloor b u w G D [A1 A2] (E0 & E1 & E2 & E3 & E4). unfold c2p_mhd. cbv zeta. rewrite mp_energy. set (pb := field_energy b) in *.
  rewrite (floor_id dfloor (u_d u)) by (rewrite E0; exact A1).
  assert (K : 1 / 2 * (1 / u_d u) * (SQR (u_m1 u) + SQR (u_m2 u) + SQR (u_m3 u)) = w_d w * (w_vx w ^ 2 + w_vy w ^ 2 + w_vz w ^ 2) / 2).
  { rewrite E0, E1, E2, E3. unfold SQR. field. intro X0; lra. }
  rewrite K. set (k := w_d w * (w_vx w ^ 2 + w_vy w ^ 2 + w_vz w ^ 2) / 2) in *.
  assert (P : (gamma - 1) * (u_e u - k - pb) = w_p w) by (rewrite E4; field; intro X0; lra). rewrite P. clear P.
  destruct u as [ud m1 m2 m3 e]. destruct w as [wd v1 v2 v3 p]. cbn [u_d u_m1 u_m2 u_m3 u_e w_d w_vx w_vy w_vz w_p] in *. subst ud m1 m2 m3.
  destruct (ltR pfloor p) eqn:E.
  - f_equal. f_equal; try (field; intro X0; lra).
  - apply ltR_false in E. assert (X : p = pfloor) by lra. subst p. f_equal.
    + f_equal. rewrite E4. reflexivity.
    + f_equal; field; intro X0; lra.
Qed.

Lemma c2p_changes : forall gamma dfloor pfloor b u, 1 < gamma -> 0 < dfloor ->
  let u' := fst (c2p_mhd gamma dfloor pfloor b u) in
  same_momentum u u' /\ u_d u' = Rmax (u_d u) dfloor
  /\ (pfloor < pressure_at_floor gamma dfloor (field_energy b) u -> u_e u' = u_e u)
  /\ (pressure_at_floor gamma dfloor (field_energy b) u <= pfloor -> w_p (snd (c2p_mhd gamma dfloor pfloor b u)) = pfloor /\ u_e u <= u_e u').
Proof.
  intros gamma dfloor pfloor b u G D. unfold c2p_mhd. cbv zeta. cbn [fst snd]. rewrite mp_energy. set (pb := field_energy b).
  unfold same_momentum, pressure_at_floor. cbn [u_d u_m1 u_m2 u_m3 u_e w_p]. rewrite (floor_max dfloor (u_d u)).
  assert (F : dfloor <= Rmax (u_d u) dfloor) by apply Rmax_r. set (d := Rmax (u_d u) dfloor) in *. clearbody d.
  assert (K : 1 / 2 * (1 / d) * (SQR (u_m1 u) + SQR (u_m2 u) + SQR (u_m3 u)) = (u_m1 u ^ 2 + u_m2 u ^ 2 + u_m3 u ^ 2) / (2 * d)).
  { unfold SQR. field. intro X0; lra. }
  rewrite K. set (k := (u_m1 u ^ 2 + u_m2 u ^ 2 + u_m3 u ^ 2) / (2 * d)). clearbody k.
  repeat apply conj; try reflexivity.
  - intro H. destruct (ltR pfloor ((gamma - 1) * (u_e u - k - pb))) eqn:E; [reflexivity | apply ltR_false in E; lra].
  - intro H. destruct (ltR pfloor ((gamma - 1) * (u_e u - k - pb))) eqn:E; [apply ltR_true in E; lra |]. split; [reflexivity |].
    assert (X : u_e u - k - pb <= pfloor / (gamma - 1)).
    { apply (Rmult_le_reg_l (gamma - 1)); [lra |]. replace ((gamma - 1) * (pfloor / (gamma - 1))) with pfloor by (field; intro X0; lra). exact H. }
    lra.
Qed.

Lemma c2p_idem : forall gamma dfloor pfloor b u, 1 < gamma -> 0 < dfloor ->
  c2p_mhd gamma dfloor pfloor b (fst (c2p_mhd gamma dfloor pfloor b u)) = c2p_mhd gamma dfloor pfloor b u.
Proof.
  intros gamma dfloor pfloor b u G D. pose proof (c2p_sound gamma dfloor pfloor b u G D) as S.
  destruct (c2p_mhd gamma dfloor pfloor b u) as [u' w'] eqn:E. cbn [fst]. destruct S as [S1 S2]. apply c2p_exact; assumption.
Qed.

(** ** Isothermal gas and scalars. *)
Lemma iso_sound : forall dfloor u, 0 < dfloor ->
  let '(u', w') := c2p_iso dfloor u in dfloor <= iw_d w' /\ describes_iso w' u' /\ iu_d u' = Rmax (iu_d u) dfloor
   /\ iu_m1 u' = iu_m1 u /\ iu_m2 u' = iu_m2 u /\ iu_m3 u' = iu_m3 u.
Proof.
  intros dfloor u D. unfold c2p_iso, describes_iso. cbv zeta. cbn [iu_d iu_m1 iu_m2 iu_m3 iw_d iw_vx iw_vy iw_vz].
  pose proof (floor_ge dfloor (iu_d u)) as F. rewrite floor_max in *. set (d := Rmax (iu_d u) dfloor) in *. clearbody d.
  repeat split; try assumption; field; intro X0; lra.
Qed.
Lemma iso_exact : forall dfloor u w, 0 < dfloor -> dfloor <= iw_d w -> describes_iso w u -> c2p_iso dfloor u = (u, w).
Proof.
  intros dfloor u w D A (E0 & E1 & E2 & E3). unfold c2p_iso. rewrite (floor_id dfloor (iu_d u)) by (rewrite E0; exact A).
  destruct u as [ud m1 m2 m3]. destruct w as [wd v1 v2 v3]. cbn [iu_d iu_m1 iu_m2 iu_m3 iw_d iw_vx iw_vy iw_vz] in *. subst.
  f_equal. f_equal; field; intro X0; lra.
Qed.
Lemma scalar_sound : forall sfloor d s, 0 < d ->
  let '(s', r') := scalar_c2p sfloor d s in sfloor <= r' /\ s' = d * r' /\ s' = Rmax s (sfloor * d).
Proof.
  intros sfloor d s D. unfold scalar_c2p. cbv zeta.
  assert (M : forall x, x = d * (x / d)) by (intros; field; intro X0; lra).
  destruct (ltR s (sfloor * d)) eqn:E.
  - apply ltR_true in E. repeat split; try apply M; [| rewrite Rmax_right; lra].
    replace (sfloor * d / d) with sfloor by (field; intro X0; lra). lra.
  - apply ltR_false in E. repeat split; try apply M; [| rewrite Rmax_left; lra].
    apply (Rmult_le_reg_r d); [lra |]. replace (s / d * d) with s by (field; intro X0; lra). exact E.
Qed.
Lemma scalar_exact : forall sfloor d r, 0 < d -> sfloor <= r -> scalar_c2p sfloor d (scalar_p2c d r) = (scalar_p2c d r, r).
Proof.
  intros sfloor d r D H. unfold scalar_c2p, scalar_p2c. destruct (ltR (r * d) (sfloor * d)) eqn:E.
  - apply ltR_true in E. nra.
  - f_equal. field. intro X0; lra.
Qed.

(** ** Signal speeds. *)
Section fast.
Variables (asq d bx by_ bz : R).
Hypothesis (A : 0 <= asq) (D : 0 < d).
Let bsq := bx ^ 2 + by_ ^ 2 + bz ^ 2.
Let cf := FastMagnetosonicSpeed asq d bx by_ bz.
Let disc := (bx * bx + (by_ * by_ + bz * bz) - asq) * (bx * bx + (by_ * by_ + bz * bz) - asq) + 4 * asq * (by_ * by_ + bz * bz).
Lemma ct_nonneg : 0 <= asq * (by_ * by_ + bz * bz).
Proof using A. clear - A. apply Rmult_le_pos; [exact A |]. pose proof (Rle_0_sqr by_). pose proof (Rle_0_sqr bz). unfold Rsqr in *. lra. Qed.
Lemma disc_nonneg : 0 <= disc.
Proof using A. unfold disc. pose proof ct_nonneg. pose proof (Rle_0_sqr (bx * bx + (by_ * by_ + bz * bz) - asq)) as Q. unfold Rsqr in Q. lra. Qed.
Lemma disc_alt : disc = (bsq + asq) ^ 2 - 4 * asq * bx ^ 2.
Proof using. unfold disc, bsq. ring. Qed.
Lemma arg_nonneg : 0 <= 1 / 2 * (bx * bx + (by_ * by_ + bz * bz) + asq + sqrt disc) / d.
Proof using A D. pose proof (sqrt_pos disc). apply Rmult_le_pos; [nra | left; apply Rinv_0_lt_compat; exact D]. Qed.
Lemma cf_sq : d * cf ^ 2 = (bsq + asq + sqrt disc) / 2.
Proof using A D.
  unfold cf, FastMagnetosonicSpeed. cbv zeta. fold disc.
  replace (sqrt (1 / 2 * (bx * bx + (by_ * by_ + bz * bz) + asq + sqrt disc) / d) ^ 2) with
    (1 / 2 * (bx * bx + (by_ * by_ + bz * bz) + asq + sqrt disc) / d).
  - unfold bsq. field. intro X0; lra.
  - symmetry. rewrite <- Rsqr_pow2. apply Rsqr_sqrt. apply arg_nonneg.
Qed.
Lemma cf_root : (d * cf ^ 2) ^ 2 - (bsq + asq) * (d * cf ^ 2) + asq * bx ^ 2 = 0.
Proof using A D.
  rewrite cf_sq. pose proof (Rsqr_sqrt disc disc_nonneg) as Q. unfold Rsqr in Q. pose proof disc_alt. set (s := sqrt disc) in *. clearbody s. nra.
Qed.
Lemma cf_nonneg : 0 <= cf.
Proof using. unfold cf, FastMagnetosonicSpeed. apply sqrt_pos. Qed.
Lemma cf_largest : forall x, (d * x ^ 2) ^ 2 - (bsq + asq) * (d * x ^ 2) + asq * bx ^ 2 = 0 -> x <= cf.
Proof using A D.
  intros x H. apply Rnot_lt_le. intro L. pose proof cf_nonneg as P. pose proof cf_sq as S.
  assert (X : d * cf ^ 2 < d * x ^ 2) by (apply Rmult_lt_compat_l; [exact D | nra]).
  pose proof (Rsqr_sqrt disc disc_nonneg) as Q. unfold Rsqr in Q. pose proof disc_alt as E. pose proof (sqrt_pos disc) as SP.
  set (s := sqrt disc) in *. set (y := d * x ^ 2) in *. set (z := d * cf ^ 2) in *. clearbody s y z.
  assert (F : (2 * y - (bsq + asq)) ^ 2 = s * s) by (rewrite Q, E; nra).
  assert (s < 2 * y - (bsq + asq)) by lra. nra.
Qed.
Lemma cf_bounds : asq <= d * cf ^ 2 /\ bsq <= d * cf ^ 2.
Proof using A D.
  rewrite cf_sq. pose proof disc_nonneg as N. pose proof (Rsqr_sqrt disc N) as Q. unfold Rsqr in Q. pose proof (sqrt_pos disc) as SP.
  assert (T : (bsq - asq) ^ 2 <= disc). { unfold disc, bsq. pose proof ct_nonneg. nra. }
  set (s := sqrt disc) in *. clearbody s. assert (Rabs (bsq - asq) <= s).
  { apply Rsqr_incr_0_var; [| exact SP]. rewrite <- Rsqr_abs. unfold Rsqr. nra. }
  revert H. unfold Rabs. destruct (Rcase_abs (bsq - asq)); intros; split; lra.
Qed.
End fast.

Lemma cell_centered_const : forall un fl fr xv b, fl < fr -> cell_centered un fl fr xv b b = b.
Proof. intros. unfold cell_centered. destruct un; field; intro X0; lra. Qed.
Lemma cell_centered_linear : forall un fl fr xv a s, fl < fr -> (un = true -> xv = (fl + fr) / 2) ->
  cell_centered un fl fr xv (a + s * fl) (a + s * fr) = a + s * xv.
Proof. intros un fl fr xv a s H U. unfold cell_centered. destruct un; [rewrite U by reflexivity; field | field; intro X0; lra]. Qed.
Lemma cell_centered_between : forall un fl fr xv bl br, fl < fr -> fl <= xv <= fr ->
  Rmin bl br <= cell_centered un fl fr xv bl br <= Rmax bl br.
Proof.
  intros un fl fr xv bl br H V. unfold cell_centered.
  assert (X : forall l r, 0 <= l -> 0 <= r -> l + r = 1 -> Rmin bl br <= l * bl + r * br <= Rmax bl br).
  { intros l r L0 R0 S. assert (l = 1 - r) by lra. subst l.
    unfold Rmin, Rmax. destruct (Rle_dec bl br); split; nra. }
  destruct un; apply X; try lra.
  - apply Rmult_le_pos; [lra | left; apply Rinv_0_lt_compat; lra].
  - apply Rmult_le_pos; [lra | left; apply Rinv_0_lt_compat; lra].
  - field. intro X0; lra.
Qed.

Lemma weight_ct : forall f rl rr dx dt, 0 < rl -> 0 < rr -> 0 < dx -> 0 < dt ->
  0 <= GetWeightForCT f rl rr dx dt <= 1 /\ GetWeightForCT (- f) rr rl dx dt = 1 - GetWeightForCT f rl rr dx dt
  /\ (f = 0 -> GetWeightForCT f rl rr dx dt = 1 / 2)
  /\ (0 < f -> 1/2 < GetWeightForCT f rl rr dx dt) /\ (f < 0 -> GetWeightForCT f rl rr dx dt < 1/2).
Proof.
  intros f rl rr dx dt L Rr X T. unfold GetWeightForCT.
  replace (1024 * dt * - f / (dx * (rr + rl))) with (- (1024 * dt * f / (dx * (rl + rr)))) by (field; split; intro X0; lra).
  assert (S : 1024 * dt * f / (dx * (rl + rr)) = f * (1024 * dt / (dx * (rl + rr)))) by (field; split; intro X0; lra).
  assert (P : 0 < 1024 * dt / (dx * (rl + rr))). { apply Rdiv_lt_0_compat; [lra |]. apply Rmult_lt_0_compat; lra. }
  rewrite S. set (q := 1024 * dt / (dx * (rl + rr))) in *. clearbody q.
  repeat apply conj; unfold Rmax, Rmin; repeat destruct (Rle_dec _ _); intros; subst; try lra; nra.
Qed.

(** ** Cell averages. *)
Lemma average_floors : forall two three gamma dfloor pfloor u w k j i,
  let '(u', w') := cell_average two three gamma dfloor pfloor u w k j i in
  above dfloor pfloor w' /\ u_d u' = w_d w' /\ same_momentum (u k j i) u'.
Proof.
  intros. unfold cell_average, ApplyPrimitiveConservedFloors, above, same_momentum. cbv zeta. cbn [u_d u_m1 u_m2 u_m3 u_e w_d w_vx w_vy w_vz w_p].
  repeat split; apply floor_ge.
Qed.

(** The cells whose values enter the conversion of a cell. *)
Definition near (two three : bool) (k j i k' j' i' : Z) : Prop :=
  (k' = k /\ j' = j /\ (i - 1 <= i' <= i + 1)%Z) \/ (two = true /\ k' = k /\ i' = i /\ (j - 1 <= j' <= j + 1)%Z)
  \/ (three = true /\ j' = j /\ i' = i /\ (k - 1 <= k' <= k + 1)%Z).
Lemma lap_ext : forall two three s t k j i, (forall k' j' i', near two three k j i k' j' i' -> s k' j' i' = t k' j' i') ->
  lap two three s k j i = lap two three t k j i.
Proof.
  intros two three s t k j i H. unfold lap.
  rewrite (H k j (i - 1)%Z), (H k j i), (H k j (i + 1)%Z) by (left; repeat split; lia).
  destruct two; [rewrite (H k (j - 1)%Z i), (H k (j + 1)%Z i) by (right; left; repeat split; lia) |];
  (destruct three; [rewrite (H (k - 1)%Z j i), (H (k + 1)%Z j i) by (right; right; repeat split; lia) |]); reflexivity.
Qed.
Lemma lap_const : forall two three c k j i, lap two three (fun _ _ _ => c) k j i = 0.
Proof. intros. unfold lap. destruct two, three; ring. Qed.

Lemma average_uniform : forall two three gamma dfloor pfloor u w k j i u0 w0, 1 < gamma -> 0 < dfloor ->
  above dfloor pfloor w0 -> describes gamma 0 w0 u0 ->
  (forall k' j' i', near two three k j i k' j' i' -> u k' j' i' = u0 /\ w k' j' i' = w0) ->
  cell_average two three gamma dfloor pfloor u w k j i = (u0, w0).
Proof.
  intros two three gamma dfloor pfloor u w k j i u0 w0 G D A S H. unfold cell_average. cbv zeta.
  assert (LU : forall f : cons -> R, C_lap two three (fun k j i => f (u k j i)) k j i = 0).
  { intro f. unfold C_lap. rewrite (lap_ext two three (fun k j i => f (u k j i)) (fun _ _ _ => f u0)), lap_const; [lra |].
    intros k' j' i' N. rewrite (proj1 (H k' j' i' N)). reflexivity. }
  assert (LW : forall f : prim -> R, C_lap two three (fun k j i => f (w k j i)) k j i = 0).
  { intro f. unfold C_lap. rewrite (lap_ext two three (fun k j i => f (w k j i)) (fun _ _ _ => f w0)), lap_const; [lra |].
    intros k' j' i' N. rewrite (proj2 (H k' j' i' N)). reflexivity. }
  rewrite !LU, !LW, !Rminus_0_r, !Rplus_0_r.
  destruct (H k j i) as [E _]; [left; repeat split; lia |]. rewrite E.
  replace (mkU (u_d u0) (u_m1 u0) (u_m2 u0) (u_m3 u0) (u_e u0)) with u0 by (destruct u0; reflexivity).
  rewrite c2p_as_mhd. rewrite (c2p_exact gamma dfloor pfloor (mkB 0 0 0) u0 w0 G D A).
  2:{ unfold field_energy. cbn [b1 b2 b3]. replace ((0 ^ 2 + 0 ^ 2 + 0 ^ 2) / 2) with 0 by field. exact S. }
  cbn [snd]. unfold ApplyPrimitiveConservedFloors. cbn [w_d w_vx w_vy w_vz w_p]. destruct A as [A1 A2]. rewrite floor_id by exact A1.
  destruct S as (S0 & S1 & S2 & S3 & S4). unfold SQR.
  destruct u0 as [ud m1 m2 m3 e], w0 as [wd v1 v2 v3 p]. cbn [u_d u_m1 u_m2 u_m3 u_e w_d w_vx w_vy w_vz w_p] in *. subst ud.
  destruct (ltR pfloor p) eqn:L; [reflexivity |]. apply ltR_false in L. assert (p = pfloor) by lra. subst p. f_equal. f_equal. rewrite S4. unfold Rdiv. ring.
Qed.

(** Density: unchanged if neither the cell averages nor the corrected value fall below the floor. *)
Lemma average_mass : forall two three gamma dfloor pfloor u w k j i,
  (forall k' j' i', near two three k j i k' j' i' -> dfloor <= u_d (u k' j' i')) ->
  (forall k' j' i', w k' j' i' = snd (c2p gamma dfloor pfloor (u k' j' i'))) ->
  dfloor <= u_d (u k j i) - C_lap two three (fun k j i => u_d (u k j i)) k j i ->
  u_d (fst (cell_average two three gamma dfloor pfloor u w k j i)) = u_d (u k j i).
Proof.
  intros two three gamma dfloor pfloor u w k j i F W N. unfold cell_average, ApplyPrimitiveConservedFloors. cbv zeta. cbn [fst u_d w_d].
  unfold c2p at 1. cbv zeta. cbn [snd w_d u_d]. rewrite (floor_id dfloor (u_d (u k j i) - _)) by exact N.
  assert (E : C_lap two three (fun k j i => w_d (w k j i)) k j i = C_lap two three (fun k j i => u_d (u k j i)) k j i).
  { unfold C_lap. f_equal. apply lap_ext. intros k' j' i' X. rewrite W. unfold c2p. cbn [snd w_d]. apply floor_id. apply F. exact X. }
  rewrite E. replace (u_d (u k j i) - C_lap two three (fun k0 j0 i0 => u_d (u k0 j0 i0)) k j i + C_lap two three (fun k0 j0 i0 => u_d (u k0 j0 i0)) k j i)
    with (u_d (u k j i)) by ring. apply floor_id. apply F. left. repeat split; lia.
Qed.

Lemma average_density : forall two three gamma dfloor pfloor u w k j i,
  u_d (fst (cell_average two three gamma dfloor pfloor u w k j i))
  = Rmax (Rmax (u_d (u k j i) - C_lap two three (fun k j i => u_d (u k j i)) k j i) dfloor + C_lap two three (fun k j i => w_d (w k j i)) k j i) dfloor.
Proof. intros. rewrite <- !floor_max. reflexivity. Qed.
Lemma c2p_density : forall gamma dfloor pfloor u, w_d (snd (c2p gamma dfloor pfloor u)) = Rmax (u_d u) dfloor.
Proof. intros. rewrite <- floor_max. reflexivity. Qed.
Lemma lap_lin : forall two three a b s t k j i, lap two three (fun k j i => a * s k j i + b * t k j i) k j i = a * lap two three s k j i + b * lap two three t k j i.
Proof. intros. unfold lap. destruct two, three; ring. Qed.
Lemma average_advected : forall two three gamma dfloor pfloor u w k j i v1 v2 v3, 1 < gamma -> 0 < dfloor ->
  (forall k' j' i', near two three k j i k' j' i' -> above dfloor pfloor (w k' j' i') /\ describes gamma 0 (w k' j' i') (u k' j' i')
     /\ w_vx (w k' j' i') = v1 /\ w_vy (w k' j' i') = v2 /\ w_vz (w k' j' i') = v3) ->
  dfloor <= w_d (w k j i) - C_lap two three (fun k j i => w_d (w k j i)) k j i ->
  pfloor <= w_p (w k j i) - C_lap two three (fun k j i => w_p (w k j i)) k j i ->
  cell_average two three gamma dfloor pfloor u w k j i = (u k j i, w k j i).
Proof.
  intros two three gamma dfloor pfloor u w k j i v1 v2 v3 G D H F1 F2. unfold cell_average. cbv zeta.
  set (Ld := C_lap two three (fun k j i => w_d (w k j i)) k j i) in *. set (Lp := C_lap two three (fun k j i => w_p (w k j i)) k j i) in *.
  assert (X : forall (f : cons -> R) a b, (forall k' j' i', near two three k j i k' j' i' -> f (u k' j' i') = a * w_d (w k' j' i') + b * w_p (w k' j' i')) ->
     C_lap two three (fun k j i => f (u k j i)) k j i = a * Ld + b * Lp).
  { intros f a b E. unfold C_lap, Ld, Lp. rewrite (lap_ext two three _ _ k j i E). rewrite (lap_lin two three a b (fun k j i => w_d (w k j i)) (fun k j i => w_p (w k j i)) k j i). unfold C_lap. field. }
  assert (Y : forall (f : prim -> R) c, (forall k' j' i', near two three k j i k' j' i' -> f (w k' j' i') = c) -> C_lap two three (fun k j i => f (w k j i)) k j i = 0).
  { intros f c E. unfold C_lap. rewrite (lap_ext two three _ (fun _ _ _ => c) k j i E), lap_const. field. }
  rewrite (X u_d 1 0) by (intros k' j' i' N; destruct (H k' j' i' N) as (_ & (S & _) & _); rewrite S; ring).
  rewrite (X u_m1 v1 0) by (intros k' j' i' N; destruct (H k' j' i' N) as (_ & (_ & S & _) & V & _); rewrite S, V; ring).
  rewrite (X u_m2 v2 0) by (intros k' j' i' N; destruct (H k' j' i' N) as (_ & (_ & _ & S & _) & _ & V & _); rewrite S, V; ring).
  rewrite (X u_m3 v3 0) by (intros k' j' i' N; destruct (H k' j' i' N) as (_ & (_ & _ & _ & S & _) & _ & _ & V); rewrite S, V; ring).
  rewrite (X u_e ((v1 ^ 2 + v2 ^ 2 + v3 ^ 2) / 2) (/ (gamma - 1)))
    by (intros k' j' i' N; destruct (H k' j' i' N) as (_ & (_ & _ & _ & _ & S) & V1 & V2 & V3); rewrite S, V1, V2, V3; unfold Rdiv; ring).
  rewrite (Y w_vx v1) by (intros k' j' i' N; apply (H k' j' i' N)). rewrite (Y w_vy v2) by (intros k' j' i' N; apply (H k' j' i' N)).
  rewrite (Y w_vz v3) by (intros k' j' i' N; apply (H k' j' i' N)).
  destruct (H k j i) as ([A1 A2] & (S0 & S1 & S2 & S3 & S4) & V1 & V2 & V3); [left; repeat split; lia |]. clear X Y H. clearbody Ld Lp.
  set (u0 := u k j i) in *. set (w0 := w k j i) in *. clearbody u0 w0.
  rewrite c2p_as_mhd. rewrite (c2p_exact gamma dfloor pfloor (mkB 0 0 0) _ (mkW (w_d w0 - Ld) v1 v2 v3 (w_p w0 - Lp)) G D).
  2:{ split; assumption. }
  2:{ unfold describes, field_energy. cbn [b1 b2 b3 u_d u_m1 u_m2 u_m3 u_e w_d w_vx w_vy w_vz w_p]. rewrite S0, S1, S2, S3, S4, V1, V2, V3. repeat split; unfold Rdiv; ring. }
  cbn [snd w_d w_vx w_vy w_vz w_p]. unfold ApplyPrimitiveConservedFloors. cbn [w_d w_vx w_vy w_vz w_p].
  replace (w_d w0 - Ld + Ld) with (w_d w0) by ring. replace (w_p w0 - Lp + Lp) with (w_p w0) by ring. rewrite !Rplus_0_r.
  rewrite floor_id by exact A1. destruct u0 as [ud m1 m2 m3 e], w0 as [wd x1 x2 x3 p]. cbn [u_d u_m1 u_m2 u_m3 u_e w_d w_vx w_vy w_vz w_p] in *. subst ud x1 x2 x3.
  destruct (ltR pfloor p) eqn:L; [reflexivity |]. apply ltR_false in L. assert (p = pfloor) by lra. subst p. f_equal. f_equal. rewrite S4. unfold SQR, Rdiv. ring.
Qed.
