(** C81: viscosity. *)
From Coq Require Import Reals ZArith Bool Lra Lia Psatz.
From Verif Require Import Fv_Model Pos_Model Lud_Spec Tor_Spec Tor_Proofs Vis_Model Vis_Spec Vis_Proofs.
Local Open Scope R_scope.

(** On a uniform Cartesian mesh the momentum fluxes of every linear velocity are exactly those of a Newtonian fluid (symmetric, without trace), with any density and viscosity, in one, two and three dimensions. *)
Theorem C81_linear : forall dx dy dz b G rho nu nonbaro f2 f3 k j i, 0 < dx -> 0 < dy -> 0 < dz -> (f3 = true -> f2 = true) ->
  (f2 = false -> forall c, G c 2%nat = 0) -> (f3 = false -> forall c, G c 3%nat = 0) ->
  let u := linear dx dy dz b G in let p := mkF rho (u 1%nat) (u 2%nat) (u 3%nat) in let m := flat_metric dx dy dz in let g := cart dx dy dz in
  (let F := x1visc nonbaro f2 f3 m g nu p p k j i in let mu := (rho k j i + rho k j (i - 1)%Z) / 2 * ((nu k j i + nu k j (i - 1)%Z) / 2) in
   s1 F = newtonian mu G 1 1 /\ s2 F = newtonian mu G 1 2 /\ s3 F = newtonian mu G 1 3) /\
  (f2 = true -> let F := x2visc nonbaro f2 f3 m g nu p p k j i in let mu := (rho k j i + rho k (j - 1)%Z i) / 2 * ((nu k j i + nu k (j - 1)%Z i) / 2) in
   s1 F = newtonian mu G 2 1 /\ s2 F = newtonian mu G 2 2 /\ s3 F = newtonian mu G 2 3) /\
  (f3 = true -> let F := x3visc nonbaro f2 f3 m g nu p p k j i in let mu := (rho k j i + rho (k - 1)%Z j i) / 2 * ((nu k j i + nu (k - 1)%Z j i) / 2) in
   s1 F = newtonian mu G 3 1 /\ s2 F = newtonian mu G 3 2 /\ s3 F = newtonian mu G 3 3) /\
  (f2 = false -> let F := x2visc nonbaro f2 f3 m g nu p p k j i in let mu := rho k j i * nu k j i in
   s1 F = newtonian mu G 2 1 /\ s2 F = newtonian mu G 2 2 /\ s3 F = newtonian mu G 2 3) /\
  (f3 = false -> let F := x3visc nonbaro f2 f3 m g nu p p k j i in let mu := rho k j i * nu k j i in
   s1 F = newtonian mu G 3 1 /\ s2 F = newtonian mu G 3 2 /\ s3 F = newtonian mu G 3 3).
Proof.
  intros dx dy dz b G rho nu nb f2 f3 k j i Hx Hy Hz H32 G2 G3. cbv zeta.
  assert (N : forall a c d e n q, newtonian ((a + c) / 2 * ((d + e) / 2)) G n q = newtonian (/ 2 * (a + c) * (/ 2 * (d + e))) G n q) by (intros; unfold newtonian, Rdiv; f_equal; ring).
  repeat apply conj; try (intros E); rewrite ?N.
  - apply (x1_linear dx dy dz b G rho nu nb f2 f3 Hx Hy Hz H32 G2 G3 k j i).
  - apply (x1_linear dx dy dz b G rho nu nb f2 f3 Hx Hy Hz H32 G2 G3 k j i).
  - apply (x1_linear dx dy dz b G rho nu nb f2 f3 Hx Hy Hz H32 G2 G3 k j i).
  - apply (x2_linear dx dy dz b G rho nu nb f2 f3 Hx Hy Hz H32 G2 G3 k j i E).
  - apply (x3_linear dx dy dz b G rho nu nb f2 f3 Hx Hy Hz H32 G2 G3 k j i E).
  - apply (x2_linear_1d dx dy dz b G rho nu nb f2 f3 Hx Hy Hz H32 G2 G3 k j i E).
  - apply (x3_linear_2d dx dy dz b G rho nu nb f2 f3 Hx Hy Hz H32 G2 G3 k j i E).
Qed.
Print Assumptions C81_linear.
(** Rigid motions have no viscous stress. *)
Theorem C81_rigid : forall dx dy dz b G rho nu nonbaro k j i, 0 < dx -> 0 < dy -> 0 < dz -> (forall c n, G c n = - G n c) ->
  let u := linear dx dy dz b G in let p := mkF rho (u 1%nat) (u 2%nat) (u 3%nat) in let m := flat_metric dx dy dz in let g := cart dx dy dz in
  x1visc nonbaro true true m g nu p p k j i = mkS 0 0 0 0 /\ x2visc nonbaro true true m g nu p p k j i = mkS 0 0 0 0 /\ x3visc nonbaro true true m g nu p p k j i = mkS 0 0 0 0.
Proof.
  intros dx dy dz b G rho nu nb k j i Hx Hy Hz A. cbv zeta.
  assert (D : forall n, G n n = 0) by (intros n; specialize (A n n); lra).
  assert (N : forall mu n c, newtonian mu G n c = 0) by (intros mu n c; unfold newtonian; rewrite (A c n), !D; destruct (Nat.eqb n c); ring).
  destruct (C81_linear dx dy dz b G rho nu nb true true k j i Hx Hy Hz ltac:(auto) ltac:(discriminate) ltac:(discriminate)) as [L1 [L2 [L3 _]]]. specialize (L2 eq_refl). specialize (L3 eq_refl). cbv zeta in L1, L2, L3. rewrite !N in L1, L2, L3.
  assert (E : forall a c e f x y z, a = 0 -> c = 0 -> e = 0 -> mkS a c e (if nb then f * (x * a + y * c + z * e) else 0) = mkS 0 0 0 0) by (intros; subst; f_equal; destruct nb; ring).
  split; [|split]; apply E; tauto.
Qed.
Print Assumptions C81_rigid.
(** Rigid rotation about the axis in cylindrical and in spherical polar coordinates, any spacing, in one, two and three dimensions. *)
Theorem C81_rotation_cylindrical : forall dr dphi dz rv rf g rho nu omega nonbaro f2 f3 k j i, (forall n, rv n <> 0) -> (forall k j i, A2 g k (j + 1)%Z i = A2 g k j i) ->
  let p := mkF rho (fun _ _ _ => 0) (fun _ _ i => omega * rv i) (fun _ _ _ => 0) in let m := cyl_metric dr dphi dz rv rf in
  x1visc nonbaro f2 f3 m g nu p p k j i = mkS 0 0 0 0 /\ x2visc nonbaro f2 f3 m g nu p p k j i = mkS 0 0 0 0 /\ x3visc nonbaro f2 f3 m g nu p p k j i = mkS 0 0 0 0.
Proof.
  intros dr dphi dz rv rf g rho nu om nb f2 f3 k j i Hr HA. cbv zeta. set (p := mkF _ _ _ _). set (m := cyl_metric _ _ _ _ _).
  assert (D : forall k j i, DivVelocity f2 f3 g p k j i = 0) by (intros; unfold DivVelocity, p; cbn [v1 v2 v3]; rewrite HA; destruct f2, f3; unfold Rdiv; ring).
  assert (Q : forall n, om * rv n / rv n = om) by (intros; field; auto). assert (Q2 : forall n, (om * rv n + om * rv n) / rv n = 2 * om) by (intros; field; auto).
  split; [|split]; unfold x1visc, x2visc, x3visc; cbv zeta; rewrite !D; unfold FaceXdx, FaceXdy, FaceXdz, FaceYdx, FaceYdy, FaceYdz, FaceZdx, FaceZdy, FaceZdz, m, cyl_metric, p; cbn [v1 v2 v3 den dx1v dx2v dx3v h2v h2f h31v h31f h32v h32f dh2vd1 dh31vd1 dh32vd2 IsPole];
    rewrite ?Q, ?Q2; destruct f2, f3, nb; f_equal; unfold Rdiv; ring.
Qed.
Print Assumptions C81_rotation_cylindrical.
Theorem C81_rotation_spherical : forall dr dth dphi rv rf sv sf cv pole g rho nu omega nonbaro f2 f3 k j i, (forall n, rv n <> 0) -> (forall n, sv n <> 0) -> (forall k j i, A3 g (k + 1)%Z j i = A3 g k j i) ->
  let p := mkF rho (fun _ _ _ => 0) (fun _ _ _ => 0) (fun _ j i => omega * (rv i * sv j)) in let m := sph_metric dr dth dphi rv rf sv sf cv pole in
  x1visc nonbaro f2 f3 m g nu p p k j i = mkS 0 0 0 0 /\ x2visc nonbaro f2 f3 m g nu p p k j i = mkS 0 0 0 0 /\ x3visc nonbaro f2 f3 m g nu p p k j i = mkS 0 0 0 0.
Proof.
  intros dr dth dphi rv rf sv sf cv pole g rho nu om nb f2 f3 k j i Hr Hs HA. cbv zeta. set (p := mkF _ _ _ _). set (m := sph_metric _ _ _ _ _ _ _ _ _).
  assert (D : forall k j i, DivVelocity f2 f3 g p k j i = 0) by (intros; unfold DivVelocity, p; cbn [v1 v2 v3]; rewrite HA; destruct f2, f3; unfold Rdiv; ring).
  assert (Q : forall n x, om * (rv n * x) / rv n = om * x) by (intros; field; auto). assert (Q2 : forall n x, (om * (rv n * x) + om * (rv n * x)) / rv n = 2 * om * x) by (intros; field; auto).
  assert (T : forall n x, om * (x * sv n) / sv n = om * x) by (intros; field; auto). assert (T2 : forall n x, (om * (x * sv n) + om * (x * sv n)) / sv n = 2 * om * x) by (intros; field; auto).
  split; [|split]; unfold x1visc, x2visc, x3visc; cbv zeta; rewrite !D; unfold FaceXdx, FaceXdy, FaceXdz, FaceYdx, FaceYdy, FaceYdz, FaceZdx, FaceZdy, FaceZdz, m, sph_metric, p; cbn [v1 v2 v3 den dx1v dx2v dx3v h2v h2f h31v h31f h32v h32f dh2vd1 dh31vd1 dh32vd2 IsPole];
    rewrite ?Q, ?Q2, ?T, ?T2; destruct f2, f3, nb; f_equal; unfold Rdiv; ring.
Qed.
Print Assumptions C81_rotation_spherical.
(** On a periodic mesh with uniform density and viscosity, every velocity loses kinetic energy, never gains. *)
Theorem C81_dissipates : forall n1 n2 n3 dx dy dz rho0 nu0 nonbaro v1 v2 v3, 0 < dx -> 0 < dy -> 0 < dz -> 0 <= rho0 -> 0 <= nu0 ->
  periodic n1 n2 n3 v1 -> periodic n1 n2 n3 v2 -> periodic n1 n2 n3 v3 ->
  let p := mkF (fun _ _ _ => rho0) v1 v2 v3 in let nu := fun _ _ _ => nu0 in
  let F1 := x1visc nonbaro true true (flat_metric dx dy dz) (cart dx dy dz) nu p p in
  let F2 := x2visc nonbaro true true (flat_metric dx dy dz) (cart dx dy dz) nu p p in
  let F3 := x3visc nonbaro true true (flat_metric dx dy dz) (cart dx dy dz) nu p p in
  power n1 n2 n3 v1 v2 v3
    (rate dx dy dz (fun k j i => s1 (F1 k j i)) (fun k j i => s1 (F2 k j i)) (fun k j i => s1 (F3 k j i)))
    (rate dx dy dz (fun k j i => s2 (F1 k j i)) (fun k j i => s2 (F2 k j i)) (fun k j i => s2 (F3 k j i)))
    (rate dx dy dz (fun k j i => s3 (F1 k j i)) (fun k j i => s3 (F2 k j i)) (fun k j i => s3 (F3 k j i))) <= 0.
Proof. intros. apply dissipates; auto. Qed.
Print Assumptions C81_dissipates.

(** The energy flux: what a cell gains in energy beyond the work on its momentum is half of the friction at each of its faces, in every geometry and with any density and viscosity (rates on a uniform mesh). *)
Theorem C81_energy : forall dx dy dz m g nu p q k j i, 0 < dx -> 0 < dy -> 0 < dz ->
  let F1 := x1visc true true true m g nu p q in let F2 := x2visc true true true m g nu p q in let F3 := x3visc true true true m g nu p q in
  let fr1 i := friction dx (s1 (F1 k j i)) (s2 (F1 k j i)) (s3 (F1 k j i)) (v1 p k j (i - 1)%Z) (v2 p k j (i - 1)%Z) (v3 p k j (i - 1)%Z) (v1 p k j i) (v2 p k j i) (v3 p k j i) in
  let fr2 j := friction dy (s1 (F2 k j i)) (s2 (F2 k j i)) (s3 (F2 k j i)) (v1 p k (j - 1)%Z i) (v2 p k (j - 1)%Z i) (v3 p k (j - 1)%Z i) (v1 p k j i) (v2 p k j i) (v3 p k j i) in
  let fr3 k := friction dz (s1 (F3 k j i)) (s2 (F3 k j i)) (s3 (F3 k j i)) (v1 p (k - 1)%Z j i) (v2 p (k - 1)%Z j i) (v3 p (k - 1)%Z j i) (v1 p k j i) (v2 p k j i) (v3 p k j i) in
  rate dx dy dz (fun k j i => se (F1 k j i)) (fun k j i => se (F2 k j i)) (fun k j i => se (F3 k j i)) k j i
  - (v1 p k j i * rate dx dy dz (fun k j i => s1 (F1 k j i)) (fun k j i => s1 (F2 k j i)) (fun k j i => s1 (F3 k j i)) k j i
     + v2 p k j i * rate dx dy dz (fun k j i => s2 (F1 k j i)) (fun k j i => s2 (F2 k j i)) (fun k j i => s2 (F3 k j i)) k j i
     + v3 p k j i * rate dx dy dz (fun k j i => s3 (F1 k j i)) (fun k j i => s3 (F2 k j i)) (fun k j i => s3 (F3 k j i)) k j i)
  = (fr1 i + fr1 (i + 1)%Z) / 2 + (fr2 j + fr2 (j + 1)%Z) / 2 + (fr3 k + fr3 (k + 1)%Z) / 2.
Proof.
  intros dx dy dz m g nu p q k j i Hx Hy Hz. cbv zeta. unfold rate, friction.
  assert (E1 : forall k j i, se (x1visc true true true m g nu p q k j i) = / 2 * ((v1 p k j (i - 1)%Z + v1 p k j i) * s1 (x1visc true true true m g nu p q k j i) + (v2 p k j (i - 1)%Z + v2 p k j i) * s2 (x1visc true true true m g nu p q k j i) + (v3 p k j (i - 1)%Z + v3 p k j i) * s3 (x1visc true true true m g nu p q k j i))) by reflexivity.
  assert (E2 : forall k j i, se (x2visc true true true m g nu p q k j i) = / 2 * ((v1 p k j i + v1 p k (j - 1)%Z i) * s1 (x2visc true true true m g nu p q k j i) + (v2 p k j i + v2 p k (j - 1)%Z i) * s2 (x2visc true true true m g nu p q k j i) + (v3 p k j i + v3 p k (j - 1)%Z i) * s3 (x2visc true true true m g nu p q k j i))) by reflexivity.
  assert (E3 : forall k j i, se (x3visc true true true m g nu p q k j i) = / 2 * ((v1 p k j i + v1 p (k - 1)%Z j i) * s1 (x3visc true true true m g nu p q k j i) + (v2 p k j i + v2 p (k - 1)%Z j i) * s2 (x3visc true true true m g nu p q k j i) + (v3 p k j i + v3 p (k - 1)%Z j i) * s3 (x3visc true true true m g nu p q k j i))) by reflexivity.
  rewrite !E1, !E2, !E3. replace (i + 1 - 1)%Z with i by ring. replace (j + 1 - 1)%Z with j by ring. replace (k + 1 - 1)%Z with k by ring.
  generalize (x1visc true true true m g nu p q) (x2visc true true true m g nu p q) (x3visc true true true m g nu p q). intros F1 F2 F3. field. lra.
Qed.
Print Assumptions C81_energy.

(** *** Findings *)
(** In spherical polar coordinates the stress is not symmetric: for a radial velocity that grows with the azimuth (v1 = a phi) the radial face passes on the gradient a / (r sin theta), the azimuthal face a itself.
    The scale factors are missing in one of the two; the corresponding pair of x1 and x2 agrees. *)
Theorem C81_azimuth_refuted : forall dphi r s a rho m k j i, 0 < dphi -> 0 < r -> 0 < s -> r * s <> 1 -> a <> 0 ->
  m = sph_metric (fun _ => 1) (fun _ => 1) (fun _ => dphi) (fun _ => r) (fun _ => r) (fun _ => s) (fun _ => s) (fun _ => 0) (fun _ => false) ->
  let p := mkF rho (fun k _ _ => a * (IZR k * dphi)) (fun _ _ _ => 0) (fun _ _ _ => 0) in
  FaceXdz true m p k j i = a / (r * s) /\ FaceZdx true m p k j i = a /\ FaceXdz true m p k j i <> FaceZdx true m p k j i /\
  let q := mkF rho (fun _ j _ => a * IZR j) (fun _ _ _ => 0) (fun _ _ _ => 0) in FaceXdy true m q k j i = FaceYdx true m q k j i.
Proof.
  intros dphi r s a rho m k j i Hp Hr Hs N Ha ->. cbv zeta. unfold FaceXdz, FaceZdx, FaceXdy, FaceYdx, sph_metric; cbn [v1 v2 v3 den dx1v dx2v dx3v h2v h2f h31v h31f h32v h32f]. rewrite !plus_IZR, !minus_IZR.
  assert (P : 0 < r * s) by (apply Rmult_lt_0_compat; auto).
  match goal with |- ?x = _ /\ ?y = _ /\ _ => assert (E1 : x = a / (r * s)) by (field; lra); assert (E2 : y = a) by (field; lra) end.
  split; [exact E1|]. split; [exact E2|]. split.
  - rewrite E1, E2. intros E. apply N. apply Rmult_eq_reg_l with a; auto. transitivity (a / (r * s) * (r * s)); [rewrite E; ring|field; lra].
  - field. lra.
Qed.
Print Assumptions C81_azimuth_refuted.
(** With a density that varies, viscosity can raise the kinetic energy (and cool the gas): one dimension, five cells, periodic. *)
Definition bumps (i : Z) : R := match (i mod 5)%Z with 0%Z => 1 | 1%Z => 2 | 2%Z => 12 | 3%Z => -10 | _ => 0 end.
Definition peak (i : Z) : R := match (i mod 5)%Z with 0%Z => 1 | _ => / 10000 end.
Theorem C81_heating_refuted : let p := mkF (fun _ _ i => peak i) (fun _ _ i => bumps i) (fun _ _ _ => 0) (fun _ _ _ => 0) in
  (forall k j i, 0 < den p k j i) /\ periodic 5 1 1 (v1 p) /\
  0 < power 5 1 1 (v1 p) (v2 p) (v3 p) (rate 1 1 1 (fun k j i => s1 (x1visc true false false (flat_metric 1 1 1) (cart 1 1 1) (fun _ _ _ => 1) p p k j i)) (fun _ _ _ => 0) (fun _ _ _ => 0))
        (rate 1 1 1 (fun k j i => s2 (x1visc true false false (flat_metric 1 1 1) (cart 1 1 1) (fun _ _ _ => 1) p p k j i)) (fun _ _ _ => 0) (fun _ _ _ => 0))
        (rate 1 1 1 (fun k j i => s3 (x1visc true false false (flat_metric 1 1 1) (cart 1 1 1) (fun _ _ _ => 1) p p k j i)) (fun _ _ _ => 0) (fun _ _ _ => 0)).
Proof.
  cbv zeta. cbn [den v1 v2 v3]. split; [|split].
  - intros k j i. unfold peak. destruct (i mod 5)%Z; lra.
  - intros k j i. unfold bumps. split; auto. replace (i + Z.of_nat 5)%Z with (i + 1 * 5)%Z by lia. rewrite Z_mod_plus_full. auto.
  - unfold power, box_sum, row_sum, total, rate, x1visc, FaceXdx, FaceXdy, FaceXdz, DivVelocity, flat_metric, cart, nuiso2. cbn [s1 s2 s3 den v1 v2 v3 A1 A2 A3 V dx1v dx2v dx3v h2v h2f h31v h31f h32v h32f]. cbv iota.
    change (Z.of_nat 0) with 0%Z. change (Z.of_nat 1) with 1%Z. change (Z.of_nat 2) with 2%Z. change (Z.of_nat 3) with 3%Z. change (Z.of_nat 4) with 4%Z.
    unfold bumps, peak. 
    repeat match goal with |- context [(?x mod 5)%Z] => let y := eval compute in (x mod 5)%Z in change (x mod 5)%Z with y end. cbv iota. lra.
Qed.
Print Assumptions C81_heating_refuted.
(** The hypotheses can be met: shear flow in three dimensions; an alternating velocity on a periodic mesh. *)
Example C81_witness : let G := fun c n => match c, n with 1%nat, 2%nat => 3 | _, _ => 0 end in
  newtonian 2 G 2 1 = -6 /\ newtonian 2 G 1 2 = -6 /\ newtonian 2 G 1 1 = 0 /\ periodic 2 4 6 (fun k j i => if Z.even (i + j + k) then 1 else -1).
Proof.
  cbv zeta. unfold newtonian; cbn [Nat.eqb]. repeat apply conj; try lra. intros k j i.
  assert (E : forall a n, Z.even (a + 2 * n) = Z.even a) by (intros; rewrite Z.even_add_mul_2; auto).
  repeat split; match goal with |- (if Z.even ?x then _ else _) = (if Z.even ?y then _ else _) => replace (Z.even x) with (Z.even y); auto end; symmetry; rewrite <- (E (i + j + k)%Z 1%Z), <- ?(E (i + j + k)%Z 2%Z), <- ?(E (i + j + k)%Z 3%Z).
  - f_equal. lia.
  - rewrite E. rewrite <- (E (i + j + k)%Z 2%Z). f_equal. lia.
  - rewrite E. rewrite <- (E (i + j + k)%Z 3%Z). f_equal. lia.
Qed.
