(** C89: gas and radiation exchange energy and momentum consistently. *)
From Coq Require Import Reals List Bool Lra Psatz.
From Verif Require Import Time_Model Ang_Spec Nr_Model Nr_Spec Nr_Proofs Nr_Proofs2 Nr_Proofs3.
Import ListNotations.
Local Open Scope R_scope.

(** Intensities survive the way to the frame of the gas and back, and stay positive. *)
Theorem C89_frames : forall crat v n x, 0 < crat -> norm2 v < crat * crat -> norm2 n = 1 ->
  ComToLab crat v n (LabToCom crat v n x) = x /\ LabToCom crat v n (ComToLab crat v n x) = x /\ (0 < x -> 0 < LabToCom crat v n x).
Proof. intros c v n x H1 H2 H3. destruct (roundtrip c v n x H1 H2 H3). repeat split; auto. intros. apply lab_pos; auto. Qed.
Print Assumptions C89_frames.
(** Directions stay unit vectors; the Doppler factors of a direction seen from the two frames are reciprocal; the opposite velocity undoes the transformation. *)
Theorem C89_aberration : forall crat v n, 0 < crat -> norm2 v < crat * crat -> norm2 n = 1 ->
  let n0 := ComAngle crat v n in
  norm2 n0 = 1 /\ (lorz crat v * (1 - dot v n / crat)) * (lorz crat v * (1 + dot v n0 / crat)) = 1 /\ ComAngle crat (neg v) n0 = n.
Proof.
  intros c v n H1 H2 H3 n0. destruct (angle_all c v n H1 H2 H3) as [A [B C]]. fold n0 in A, B, C. repeat split; auto. etransitivity; [|exact B]. rewrite !vnc_dot. f_equal. f_equal.
  clearbody n0. clear. destruct v as [[x y] z], n0 as [[a b] d]. unfold dot, neg. unfold Rdiv. ring.
Qed.
Print Assumptions C89_aberration.

(** The new intensities solve the implicit transfer equations of the step, with their own mean intensity and the new temperature, before they are cut off at the
    floor; the new temperature solves the energy equation of the gas to twenty digits. *)
Theorem C89_transfer : forall p rho T l, valid p rho -> 0 <= T -> total l wmu_cm = 1 ->
  Forall (fun a => 0 <= wmu_cm a /\ 0 < tcoef a /\ 1 <= imcoef a /\ 0 < ircm a) l ->
  let rf := reduced_c p / crat p in let ct := dt p * crat p in
  let tr := ct * sigma_a p in let ts := ct * sigma_s p in let tp := ct * sigma_p p in let te := ct * sigma_pe p in
  let '(T', irs) := AbsorptionScattering p rho T l in
  exists L, irs = map (fun d => Rmax (i' d) (/ 10 ^ 20)) L /\
    l = map (fun d => {| wmu_cm := w d; tcoef := t d; imcoef := m d; ircm := i d |}) L /\
    transfer rf tr ts tp te T' L /\ 0 <= T' /\ 0 <= mean L /\ (te <= tr + ts -> Forall (fun d => 0 < i' d) L) /\
    Rabs (imbalance rho (gamma p - 1) (prat p) tp te T T' L) <= / 10 ^ 20 * (rho / (gamma p - 1) * (T + T' ^ 4) + prat p * te * mean L).
Proof.
  intros p rho T l V HT W F rf ct tr ts tp te. assert (PC : proper_c l) by (split; auto). destruct (AS_solves p rho T l V HT PC) as [T' [L [E [O [TR [T0 [MP IMB]]]]]]].
  rewrite E. exists L. split; [reflexivity|]. split; [symmetry; exact O|]. split; [exact TR|]. split; [exact T0|]. split; [exact MP|]. split; [|exact IMB].
  intros LE. pose proof V as [Vc [Vr [Vp [Vg [Vd [Va [Vs [Vpp [Ve Vrho]]]]]]]]]. assert (PL : proper L) by (apply proper_old; rewrite O; auto). pose proof PL as [_ FL]. rewrite Forall_forall in *. intros d D.
  destruct (FL d D) as [? [? [? ?]]]. assert (C : 0 <= ct) by (unfold ct; apply Rmult_le_pos; lra). assert (0 < rf) by (apply Rdiv_lt_0_compat; auto).
  assert (0 <= tp /\ 0 <= te /\ 0 <= tr /\ 0 <= ts) as [? [? [? ?]]] by (unfold tp, te, tr, ts; repeat split; apply Rmult_le_pos; auto).
  assert (K : 0 <= rf * (tr + ts)) by (apply Rmult_le_pos; lra). assert (KE : 0 <= rf * te) by (apply Rmult_le_pos; lra).
  destruct (transfer_form rf tr ts tp te T' L K KE PL TR) as [FI _]. destruct (vd_pos _ L d K PL D) as [V1 _]. rewrite (FI d D).
  apply Rmult_lt_0_compat; auto. assert (0 <= T' ^ 4) by (apply pow_le; auto).
  assert (0 <= t d * (rf * (tp * T' ^ 4 + (ts + tr - te) * mean L))); [|lra]. apply Rmult_le_pos; [lra|]. apply Rmult_le_pos; [lra|].
  assert (0 <= tp * T' ^ 4) by (apply Rmult_le_pos; auto). assert (0 <= (ts + tr - te) * mean L) by (apply Rmult_le_pos; lra). lra.
Qed.
Print Assumptions C89_transfer.
(** There is no other solution: an exact solution of the step has the returned temperature to twenty digits. *)
Theorem C89_unique : forall p rho T l, valid p rho -> 0 <= T -> total l wmu_cm = 1 ->
  Forall (fun a => 0 <= wmu_cm a /\ 0 < tcoef a /\ 1 <= imcoef a /\ 0 < ircm a) l ->
  let rf := reduced_c p / crat p in let ct := dt p * crat p in
  let tr := ct * sigma_a p in let ts := ct * sigma_s p in let tp := ct * sigma_p p in let te := ct * sigma_pe p in
  forall Te Le, l = map (fun d => {| wmu_cm := w d; tcoef := t d; imcoef := m d; ircm := i d |}) Le ->
  transfer rf tr ts tp te Te Le -> 0 <= Te -> imbalance rho (gamma p - 1) (prat p) tp te T Te Le = 0 ->
  let T' := fst (AbsorptionScattering p rho T l) in
  Rabs (T' - Te) <= / 10 ^ 20 * (T + 2 * T' + 2 * T' ^ 4 * (1 + (gamma p - 1) / rho * prat p * tp)).
Proof.
  intros p rho T l V HT W F rf ct tr ts tp te Te Le OE TE T0e IE T'. assert (PC : proper_c l) by (split; auto). destruct (AS_solves p rho T l V HT PC) as [T1 [L [E [O [TR [T0 [MP IMB]]]]]]].
  assert (T1 = T') by (unfold T'; rewrite E; auto). subst T1. clearbody T'. pose proof V as [Vc [Vr [Vp [Vg [Vd [Va [Vs [Vpp [Ve Vrho]]]]]]]]].
  assert (C := AS_close p rho T l V HT PC T' L Te Le O (eq_sym OE) TR T0 IMB TE T0e IE). eapply Rle_trans; [exact C|].
  unfold close_bound, imbalance in *. unfold dtcs in *. fold ct tp te in IMB. fold ct te. pose proof (Rle_abs (- (rho / (gamma p - 1) * (T' - T) + prat p * (tp * T' ^ 4 - te * mean L)))) as AB. rewrite Rabs_Ropp in AB.
  set (X := prat p * te * mean L) in *. set (q := T' ^ 4) in *. assert (Q : 0 <= q) by (apply pow_le; auto). set (r := rho / (gamma p - 1)) in *. assert (R0 : 0 < r) by (apply Rdiv_lt_0_compat; lra).
  assert (RI : (gamma p - 1) / rho = / r) by (unfold r; field; lra). rewrite RI. fold TINY in *. pose proof TINY_pos as TP.
  assert (TS : TINY <= 1 / 2). { unfold TINY. apply Rle_trans with (/ 10). 2: lra. apply Rinv_le_contravar; [lra|]. pose proof (Rle_pow 10 1 20 ltac:(lra) ltac:(auto with arith)). lra. }
  assert (C0 : 0 <= ct) by (unfold ct; apply Rmult_le_pos; lra). assert (P0 : 0 <= tp) by (apply Rmult_le_pos; auto). assert (E0 : 0 <= te) by (apply Rmult_le_pos; auto).
  assert (X0 : 0 <= X) by (unfold X; apply Rmult_le_pos; auto; apply Rmult_le_pos; lra). set (Y := prat p * tp * q). assert (Y0 : 0 <= Y) by (unfold Y; apply Rmult_le_pos; auto; apply Rmult_le_pos; lra).
  pose proof (Rle_trans _ _ _ AB IMB) as H0. replace (prat p * (tp * q - te * mean L)) with (Y - X) in H0 by (unfold X, Y; ring). clear AB IMB C. assert (YE : Y = prat p * tp * q) by reflexivity. clearbody X Y q r.
  assert (H1 : X <= r * (T' - T) + Y + TINY * (r * (T + q) + X)) by (clear - H0; lra).
  assert (G : X <= 2 * (r * T' + Y) + r * q).
  { assert (TINY * (r * T) <= r * T) by (assert (0 <= r * T) by (apply Rmult_le_pos; lra); nra). assert (TINY * X <= 1 / 2 * X) by (apply Rmult_le_compat_r; auto).
    assert (TINY * (r * q) <= 1 / 2 * (r * q)) by (apply Rmult_le_compat_r; auto; apply Rmult_le_pos; lra). lra. }
  replace (/ r * (TINY * (r * (T + q) + X))) with (TINY * (T + q + / r * X)) by (field; lra). apply Rmult_le_compat_l; [lra|].
  assert (H : / r * X <= / r * (2 * (r * T' + Y) + r * q)) by (apply Rmult_le_compat_l; auto; left; apply Rinv_0_lt_compat; auto).
  replace (/ r * (2 * (r * T' + Y) + r * q)) with (2 * T' + 2 * (/ r * Y) + q) in H by (field; lra). rewrite YE in H. lra.
Qed.
Print Assumptions C89_unique.

(** In the frame of the grid: the gain of internal energy of the gas is the loss of the radiation, E - v.F/c times the Lorentz factor. *)
Theorem C89_energy : forall p v rho T l, valid p rho -> norm2 v < crat p * crat p -> 0 <= T ->
  0 < total l (fun a => snd (dirw a)) -> Forall (fun a => norm2 (fst (dirw a)) = 1 /\ 0 <= snd (dirw a)) l ->
  Forall (fun a => add a = 0 /\ coef a = 0) l ->
  let c := crat p in let dop a := lorz c v * (1 - dot v (fst (dirw a)) / c) in
  Forall (fun a => / 10 ^ 20 <= ini a * dop a ^ 4) l ->
  let '(T', out) := CalSourceTerms p 1 v rho T l in
  (forall a o, In (a, o) (combine l out) -> / 10 ^ 20 < o /\ / 10 ^ 20 < o * dop a ^ 4) ->
  let norm := total l (fun a => snd (dirw a) / dop a ^ 2) in
  let dE := total (combine l out) (fun '(a, o) => snd (dirw a) * (o - ini a)) in
  let vdF := total (combine l out) (fun '(a, o) => snd (dirw a) * (o - ini a) * dot v (fst (dirw a))) in
  0 <= T' /\ Rabs (rho / (gamma p - 1) * (T' - T) + prat p / (reduced_c p / c) * (lorz c v * (dE - vdF / c) / norm)) <=
    / 10 ^ 20 * (rho / (gamma p - 1) * (T + T' ^ 4) + prat p * (dt p * c * sigma_pe p) * (total (combine l out) (fun '(a, o) => snd (dirw a) * dop a ^ 2 * o) / norm)).
Proof.
  intros p v rho T l V Hv HT S F EX c dop FL. destruct (CalSourceTerms p 1 v rho T l) as [T' out] eqn:E. intros OUT norm dE vdF.
  assert (DT : forall a, tran c v (dirw a) = dop a) by (intros a; unfold tran, dop; rewrite vnc_dot; auto).
  assert (D4 : forall a, cm_to_lab c v (dirw a) = dop a ^ 4) by (intros a; unfold cm_to_lab; rewrite DT; ring).
  assert (O : rays_ok l). { split; auto. rewrite Forall_forall in *. intros a A. destruct (F a A), (EX a A). repeat split; auto; lra. }
  assert (NE : weight_sum c v l = norm) by (unfold weight_sum, norm; apply total_ext; intros a _; rewrite DT; f_equal; ring).
  destruct (lab_energy p v rho T l V Hv HT O EX) with (T' := T') (out := out) as [A B]; auto.
  - fold c. rewrite Forall_forall in *. intros a A. rewrite D4. apply FL; auto.
  - intros a o A. fold c. rewrite D4. apply OUT; auto.
  - split; auto. fold c in B. rewrite NE in B. unfold gas_frame_change in B. fold dE vdF in B. unfold dtcs in B. fold c in B.
    replace (total (combine l out) (fun '(a, o) => snd (dirw a) * dop a ^ 2 * o)) with (total (combine l out) (fun '(a, o) => snd (dirw a) * (tran c v (dirw a) * tran c v (dirw a)) * o)); [exact B|].
    apply total_ext. intros [a o] _. rewrite DT. ring.
Qed.
Print Assumptions C89_energy.
(** Gas at rest, weights that sum to one: what the gas gains is what the radiation energy density of the cell loses. *)
Theorem C89_static : forall p rho T l, valid p rho -> 0 <= T ->
  total l (fun a => snd (dirw a)) = 1 -> Forall (fun a => norm2 (fst (dirw a)) = 1 /\ 0 <= snd (dirw a)) l ->
  Forall (fun a => add a = 0 /\ coef a = 0) l -> Forall (fun a => / 10 ^ 20 <= ini a) l ->
  let '(T', out) := CalSourceTerms p 1 (0, 0, 0) rho T l in
  Forall (fun o => / 10 ^ 20 < o) out ->
  let dE := Er (CalculateMoment (map dirw l) [out]) - Er (CalculateMoment (map dirw l) [map ini l]) in
  0 <= T' /\ Rabs (rho / (gamma p - 1) * (T' - T) + prat p * crat p / reduced_c p * dE) <=
    / 10 ^ 20 * (rho / (gamma p - 1) * (T + T' ^ 4) + prat p * (dt p * crat p * sigma_pe p) * Er (CalculateMoment (map dirw l) [out])).
Proof.
  intros p rho T l V HT S F EX FL. pose proof V as [Vc [Vr [Vp [Vg [Vd [Va [Vs [Vpp [Ve Vrho]]]]]]]]].
  assert (C := C89_energy p (0, 0, 0) rho T l V). cbv zeta in C. assert (L1 : lorz (crat p) (0, 0, 0) = 1).
  { unfold lorz, lorzsq. replace (1 - (0 * 0 + 0 * 0 + 0 * 0) * (1 / crat p) * (1 / crat p)) with 1 by (field; lra). unfold Rdiv. rewrite Rinv_1, Rmult_1_l. apply sqrt_1. }
  assert (DZ : forall a, dot (0, 0, 0) a = 0) by (intros [[x y] z]; unfold dot; ring).
  assert (DO : forall a, lorz (crat p) (0, 0, 0) * (1 - dot (0, 0, 0) (fst (dirw a)) / crat p) = 1) by (intros a; rewrite L1, DZ; field; lra).
  specialize (C ltac:(unfold norm2; nra) HT ltac:(lra) F EX).
  specialize (C ltac:(rewrite Forall_forall in *; intros a A; rewrite DO; specialize (FL a A); lra)).
  assert (LEN : length (snd (CalSourceTerms p 1 (0, 0, 0) rho T l)) = length l).
  { unfold CalSourceTerms, AbsorptionScattering. cbv zeta. match goal with |- context [match ?m with Some _ => _ | None => _ end] => destruct m end; (match goal with |- context [if ?b then _ else _] => destruct b end);
    cbn [snd]; rewrite map_length, combine_length, !map_length; unfold to_com; rewrite map_length; apply PeanoNat.Nat.min_id. }
  destruct (CalSourceTerms p 1 (0, 0, 0) rho T l) as [T' out]. cbn [snd] in LEN. intros OUT dE.
  destruct C as [A B].
  { intros a o H. rewrite DO. rewrite Forall_forall in OUT. specialize (OUT o (in_combine_r _ _ _ _ H)). lra. }
  split; auto.
  assert (N1 : total l (fun a => snd (dirw a) / (lorz (crat p) (0, 0, 0) * (1 - dot (0, 0, 0) (fst (dirw a)) / crat p)) ^ 2) = 1) by (etransitivity; [|exact S]; apply total_ext; intros a _; rewrite DO; field).
  rewrite N1 in B. rewrite L1 in B.
  assert (VZ : total (combine l out) (fun '(a, o) => snd (dirw a) * (o - ini a) * dot (0, 0, 0) (fst (dirw a))) = 0).
  { transitivity (0 * total (combine l out) (fun _ => 1)); [|ring]. rewrite <- total_scal. apply total_ext. intros [a o] _. rewrite DZ. ring. }
  rewrite VZ in B.
  assert (ME : forall x, length x = length l -> Er (CalculateMoment (map dirw l) [x]) = total (combine l x) (fun '(a, o) => snd (dirw a) * o)).
  { clear. intros x LX. unfold CalculateMoment, Er. rewrite moment_total. unfold total at 1. cbn [fold_right]. rewrite Rplus_0_r. revert x LX. induction l as [|a l IH]; intros [|o x] LX; cbn in LX; try discriminate; auto.
    unfold total in *. cbn [map combine fold_right]. rewrite IH by auto. destruct (dirw a) as [d w0]. cbn [snd]. ring. }
  assert (E1 := ME out LEN). assert (E0 := ME (map ini l) (map_length _ _)).
  assert (DE : dE = total (combine l out) (fun '(a, o) => snd (dirw a) * (o - ini a))).
  { unfold dE. rewrite E1, E0. clear - LEN. revert out LEN. induction l as [|a l IH]; intros [|o out] LEN; cbn in LEN; try discriminate; [cbn; lra|]. injection LEN as LEN. specialize (IH out LEN). unfold total in *. cbn [map combine fold_right]. lra. }
  rewrite <- DE in B. rewrite E1.
  assert (TE : total (combine l out) (fun '(a, o) => snd (dirw a) * (1 * (1 - dot (0, 0, 0) (fst (dirw a)) / crat p)) ^ 2 * o) = total (combine l out) (fun '(a, o) => snd (dirw a) * o)).
  { apply total_ext. intros [a o] _. rewrite DZ. field. lra. }
  rewrite L1 in B || idtac. rewrite TE in B.
  replace (prat p * crat p / reduced_c p * dE) with (prat p / (reduced_c p / crat p) * (1 * (dE - 0 / crat p) / 1)) by (field; split; lra).
  replace (total (combine l out) (fun '(a, o) => snd (dirw a) * o)) with (total (combine l out) (fun '(a, o) => snd (dirw a) * o) / 1) by field. exact B.
Qed.
Print Assumptions C89_static.

(** Thermal radiation of the temperature of the gas stays as it is (twenty digits). *)
Theorem C89_equilibrium : forall p rho T l, valid p rho -> total l wmu_cm = 1 -> Forall (fun a => 0 <= wmu_cm a /\ 0 < tcoef a) l ->
  / 10 ^ 20 <= T ^ 4 -> 0 <= T -> Forall (fun a => imcoef a = 1 /\ ircm a = T ^ 4) l -> sigma_pe p = sigma_p p -> sigma_p p <= sigma_a p + sigma_s p ->
  let '(T', irs) := AbsorptionScattering p rho T l in
  Rabs (T' - T) <= / 10 ^ 20 * (T + T' ^ 4 + (gamma p - 1) / rho * prat p * (dt p * crat p * sigma_p p) * Rmax (T ^ 4) (T' ^ 4)) /\ Forall (fun j => Rabs (j - T ^ 4) <= Rabs (T' ^ 4 - T ^ 4)) irs.
Proof.
  intros p rho T l V W F T4 HT EQ SE SL. destruct (AbsorptionScattering p rho T l) as [T' irs] eqn:E. apply (equilibrium p rho T l); auto. split; auto. rewrite Forall_forall in *. intros a A.
  destruct (F a A), (EQ a A) as [-> ->]. pose proof TINY_pos. unfold TINY in *. repeat split; auto; lra.
Qed.
Print Assumptions C89_equilibrium.
(** An absorption mean above the total mean opacity drives a weak beam below 0; the floor then creates energy: the gas gains 2, the radiation loses less. *)
Theorem C89_floor_refuted : exists p rho T l, valid p rho /\ 0 <= T /\ total l wmu_cm = 1 /\ Forall (fun a => 0 < wmu_cm a /\ tcoef a = 1 /\ imcoef a = 1 /\ 0 < ircm a) l /\
  let '(T', irs) := AbsorptionScattering p rho T l in
  rho / (gamma p - 1) * (T' - T) = 2 /\ prat p * (total l (fun a => wmu_cm a * ircm a) - total (combine l irs) (fun '(a, j) => wmu_cm a * j)) < 3 / 2.
Proof.
  exists {| crat := 1; reduced_c := 1; prat := 1; gamma := 2; dt := 1; sigma_a := 0; sigma_s := 0; sigma_p := 0; sigma_pe := 1 |}, 1, 1,
    [{| wmu_cm := 1 / 2; tcoef := 1; imcoef := 1; ircm := 7 |}; {| wmu_cm := 1 / 2; tcoef := 1; imcoef := 1; ircm := 1 |}].
  split; [unfold valid; cbn; lra|]. split; [lra|]. split; [cbn; lra|]. split; [repeat constructor; cbn; lra|].
  unfold AbsorptionScattering, sum, vn2, vn, rdtcs, dtcs. cbn [fold_left map crat reduced_c prat gamma dt sigma_a sigma_s sigma_p sigma_pe wmu_cm tcoef imcoef ircm].
  match goal with |- context [ltR TINY (Rabs ?a)] => replace a with 0 by (field; lra) end. pose proof TINY_pos as TP. rewrite Rabs_R0, ltR_f by lra. cbv beta iota zeta.
  split; [field; lra|].
  match goal with |- context [[Rmax ?a TINY; Rmax ?b TINY]] => replace a with 5 by (field; lra); replace b with (-1) by (field; lra) end.
  rewrite (Rmax_right (-1) TINY) by lra. pose proof (Rmax_l 5 TINY). unfold total. cbn [combine fold_right wmu_cm ircm]. lra.
Qed.
Print Assumptions C89_floor_refuted.

(** Momentum and energy of gas and radiation together are conserved as long as no limit acts. *)
Theorem C89_conservation : forall p vmax ceil pb tn rays before after u, 0 < crat p -> 0 < reduced_c p -> 0 < vmax -> 0 < DN u -> length before = length after ->
  let src := GetHydroSourceTerms p rays before after in let u' := AddSourceTerms p vmax ceil false pb tn src u in
  let m0 := CalculateMoment rays before in let m1 := CalculateMoment rays after in
  let '(s0, s1, s2, s3) := src in
  let u1 := {| DN := DN u; M1 := M1 u + s1; M2 := M2 u + s2; M3 := M3 u + s3; EN := EN u + s0 |} in
  (M1 u1 / DN u) ^ 2 + (M2 u1 / DN u) ^ 2 + (M3 u1 / DN u) ^ 2 <= (vmax * crat p) ^ 2 ->
  let e := EN u1 - (M1 u1 ^ 2 + M2 u1 ^ 2 + M3 u1 ^ 2) / (2 * DN u) - pb in 0 <= e -> e * (gamma p - 1) / DN u <= ceil ->
  let f := prat p / reduced_c p in
  DN u' = DN u /\ M1 u' + f * Fr1 m1 = M1 u + f * Fr1 m0 /\ M2 u' + f * Fr2 m1 = M2 u + f * Fr2 m0 /\ M3 u' + f * Fr3 m1 = M3 u + f * Fr3 m0 /\
  EN u' + f * crat p * Er m1 = EN u + f * crat p * Er m0.
Proof.
  intros p vmax ceil pb tn rays before after u Hc Hr Hv Hd LE. cbv zeta. unfold GetHydroSourceTerms at 2. rewrite !delta_moment by auto. cbv zeta.
  intros S E C. rewrite ?delta_moment in S, E, C by auto. assert (SRC : GetHydroSourceTerms p rays before after = GetHydroSourceTerms p rays before after) by auto. unfold GetHydroSourceTerms at 1 in SRC. rewrite !delta_moment in SRC by auto. cbv zeta in SRC. rewrite <- SRC. clear SRC.
  rewrite add_plain; auto.
  - cbn [plain DN M1 M2 M3 EN CalculateMoment Er Fr1 Fr2 Fr3]. repeat split; field; lra.
  - unfold speed2. cbn [plain DN M1 M2 M3]. cbn [DN M1 M2 M3] in S. match type of S with ?a <= ?b => match goal with |- ?c <= ?d => replace c with a; [replace d with b by ring; exact S|] end end. ring.
  - unfold eint. cbn [plain DN M1 M2 M3 EN]. cbn [DN M1 M2 M3 EN] in E.
    match goal with H : 0 <= ?a - ?b / ?c - ?d |- 0 <= ?a - ?b' / ?c - ?d => replace b' with b by ring; exact H end.
  - unfold eint. cbn [plain DN M1 M2 M3 EN]. cbn [DN M1 M2 M3 EN] in C.
    match goal with H : (?a - ?b / ?c - ?d) * _ / _ <= _ |- (?a - ?b' / ?c - ?d) * _ / _ <= _ => replace b' with b by ring; exact H end.
Qed.
Print Assumptions C89_conservation.
(** The limits hold afterwards: the density is kept, the speed is at most vmax times the light speed and the momentum keeps its direction; the internal energy is not
    negative and the temperature at most the ceiling or the temperature of the implicit solution. *)
Theorem C89_limits : forall p vmax ceil fl pb tn s0 s1 s2 s3 u, 0 < crat p -> 1 < gamma p -> 0 < vmax -> 0 < DN u -> 0 <= tn -> 0 <= ceil ->
  let u' := AddSourceTerms p vmax ceil fl pb tn (s0, s1, s2, s3) u in
  DN u' = DN u /\ (M1 u' / DN u) ^ 2 + (M2 u' / DN u) ^ 2 + (M3 u' / DN u) ^ 2 <= (vmax * crat p) ^ 2 /\
  (exists f, 0 < f <= 1 /\ M1 u' = f * (M1 u + s1) /\ M2 u' = f * (M2 u + s2) /\ M3 u' = f * (M3 u + s3)) /\
  let e := EN u' - (M1 u' ^ 2 + M2 u' ^ 2 + M3 u' ^ 2) / (2 * DN u) - pb in 0 <= e /\ e * (gamma p - 1) / DN u <= Rmax ceil tn.
Proof.
  intros p vmax ceil fl pb tn s0 s1 s2 s3 u Hc Hg Hv Hd Ht Hce u'. destruct (add_momentum p vmax ceil fl pb tn (s0, s1, s2, s3) u Hc Hv Hd) as [A [B C]]. destruct (add_energy p vmax ceil fl pb tn (s0, s1, s2, s3) u Hg Hd Ht Hce) as [D E].
  fold u' in A, B, C, D, E. clearbody u'. unfold eint, speed2 in *. cbn [plain DN M1 M2 M3] in *. rewrite A in *. split; auto.
  match type of B with ?q <= ?r -> _ => destruct (Rle_or_lt q r) as [H|H] end.
  - destruct (B H) as [B1 [B2 B3]]. rewrite B1, B2, B3 in *. split; [lra|]. split; [exists 1; repeat split; lra|].
    replace ((M1 u + s1) ^ 2 + (M2 u + s2) ^ 2 + (M3 u + s3) ^ 2) with ((M1 u + s1) * (M1 u + s1) + (M2 u + s2) * (M2 u + s2) + (M3 u + s3) * (M3 u + s3)) by ring. auto.
  - destruct (C H) as [S [f [F1 [F2 [F3 F4]]]]]. split; [lra|]. split; [exists f; repeat split; auto; lra|].
    replace (M1 u' ^ 2 + M2 u' ^ 2 + M3 u' ^ 2) with (M1 u' * M1 u' + M2 u' * M2 u' + M3 u' * M3 u') by ring. auto.
Qed.
Print Assumptions C89_limits.
(** The speed limit takes momentum out of the system: radiation gives up 4 units of momentum, the gas receives 1. *)
Theorem C89_speed_refuted : exists p vmax ceil u rays before after, 0 < vmax < 1 /\ 0 < DN u /\ Forall (fun r => norm2 (fst r) = 1 /\ 0 < snd r) rays /\ Forall (Forall (fun x => 0 < x)) before /\ Forall (Forall (fun x => 0 < x)) after /\
  let u' := AddSourceTerms p vmax ceil false 0 1 (GetHydroSourceTerms p rays before after) u in let f := prat p / reduced_c p in
  f * (Fr1 (CalculateMoment rays before) - Fr1 (CalculateMoment rays after)) = 4 /\ M1 u' - M1 u = 1.
Proof.
  exists {| crat := 2; reduced_c := 2; prat := 2; gamma := 2; dt := 1; sigma_a := 0; sigma_s := 0; sigma_p := 0; sigma_pe := 1 |}, (1 / 2), 1, {| DN := 1; M1 := 0; M2 := 0; M3 := 0; EN := 1 |},
    [((1, 0, 0), 1)], [[5]], [[1]].
  split; [lra|]. split; [cbn; lra|]. split; [repeat constructor; cbn; lra|]. split; [repeat constructor; lra|]. split; [repeat constructor; lra|].
  cbv zeta. split; [unfold CalculateMoment, Fr1, moment, sum; cbn [combine fold_left prat reduced_c]; field|].
  unfold GetHydroSourceTerms, delta, sum. cbn [combine fold_left prat reduced_c crat]. unfold AddSourceTerms. cbn [M1 M2 M3 DN EN crat gamma].
  match goal with |- context [sqrt ?q] => assert (Q : sqrt q = 4) by (replace q with (4 * 4) by (field; lra); apply sqrt_square; lra) end.
  rewrite Q. rewrite (ltR_t (1 / 2)) by lra. cbn [M1]. field; lra.
Qed.
Print Assumptions C89_speed_refuted.

(** Moments of intensities that are not negative along unit vectors: the trace of the pressure is the energy density, the flux is at most the energy density, the
    pressure tensor is symmetric and has no negative direction. *)
Theorem C89_moments : forall rays groups, (forall d w, In (d, w) rays -> norm2 d = 1 /\ 0 <= w) -> (forall irs x, In irs groups -> In x irs -> 0 <= x) ->
  let M := CalculateMoment rays groups in
  0 <= Er M /\ P11 M + P22 M + P33 M = Er M /\ Fr1 M ^ 2 + Fr2 M ^ 2 + Fr3 M ^ 2 <= Er M ^ 2 /\ P12 M = P21 M /\ P13 M = P31 M /\ P23 M = P32 M /\
  forall a b c, 0 <= a * a * P11 M + b * b * P22 M + c * c * P33 M + 2 * a * b * P12 M + 2 * a * c * P13 M + 2 * b * c * P23 M.
Proof.
  intros rays groups Hr Hg. cbv zeta. cbn [CalculateMoment Er Fr1 Fr2 Fr3 P11 P22 P33 P12 P13 P23 P21 P31 P32]. set (mo := moment rays groups).
  assert (LIN : forall f g a b h, (forall d, h d = a * f d + b * g d) -> mo h = a * mo f + b * mo g) by (intros; apply moment_add; auto).
  assert (POS : forall f, (forall d, norm2 d = 1 -> 0 <= f d) -> 0 <= mo f) by (intros f Hf; apply moment_pos; auto; intros d w0 I; destruct (Hr d w0 I); auto).
  assert (E0 : 0 <= mo (fun _ => 1)) by (apply POS; intros; lra). split; auto. split; [|split; [|repeat split]].
  - assert (H1 : mo (fun '(x, y, z) => x * x + y * y) = 1 * mo (fun '(x, y, z) => x * x) + 1 * mo (fun '(x, y, z) => y * y)) by (apply LIN; intros [[x y] z]; ring).
    assert (H2 : mo (fun '(x, y, z) => x * x + y * y + z * z) = 1 * mo (fun '(x, y, z) => x * x + y * y) + 1 * mo (fun '(x, y, z) => z * z)) by (apply LIN; intros [[x y] z]; ring).
    assert (H3 : mo (fun '(x, y, z) => x * x + y * y + z * z) = mo (fun _ => 1)) by (apply moment_ext; intros [[x y] z] w0 I; destruct (Hr _ _ I) as [N _]; exact N). lra.
  - set (fx := mo (fun '(x, y, z) => x)). set (fy := mo (fun '(x, y, z) => y)). set (fz := mo (fun '(x, y, z) => z)). set (E := mo (fun _ => 1)) in *.
    set (s := sqrt (fx * fx + fy * fy + fz * fz)). assert (S0 : 0 <= s) by apply sqrt_pos. assert (SS : s * s = fx * fx + fy * fy + fz * fz) by (apply sqrt_sqrt; nra).
    assert (H1 : mo (fun '(x, y, z) => fx * x + fy * y) = fx * mo (fun '(x, y, z) => x) + fy * mo (fun '(x, y, z) => y)) by (apply LIN; intros [[x y] z]; ring).
    assert (H2 : mo (fun '(x, y, z) => fx * x + fy * y + fz * z) = 1 * mo (fun '(x, y, z) => fx * x + fy * y) + fz * mo (fun '(x, y, z) => z)) by (apply LIN; intros [[x y] z]; ring).
    assert (H3 : mo (fun '(x, y, z) => s - (fx * x + fy * y + fz * z)) = s * mo (fun _ => 1) + -1 * mo (fun '(x, y, z) => fx * x + fy * y + fz * z)) by (apply LIN; intros [[x y] z]; ring).
    assert (H4 : 0 <= mo (fun '(x, y, z) => s - (fx * x + fy * y + fz * z))).
    { apply POS. intros [[x y] z] N. pose proof (schwarz (fx, fy, fz) (x, y, z)) as Q. rewrite N in Q. unfold dot, norm2 in Q. set (k := fx * x + fy * y + fz * z) in *. nra. }
    fold fx fy in H1. fold fz in H2. fold E in H3.
    assert (H5 : s * s <= s * E) by lra. assert (s <= E) by (destruct (Rle_or_lt s E); auto; nra). nra.
  - intros a b c.
    assert (H1 : mo (fun '(x, y, z) => a * a * (x * x) + b * b * (y * y)) = a * a * mo (fun '(x, y, z) => x * x) + b * b * mo (fun '(x, y, z) => y * y)) by (apply LIN; intros [[x y] z]; ring).
    assert (H2 : mo (fun '(x, y, z) => c * c * (z * z) + 2 * a * b * (x * y)) = c * c * mo (fun '(x, y, z) => z * z) + 2 * a * b * mo (fun '(x, y, z) => x * y)) by (apply LIN; intros [[x y] z]; ring).
    assert (H3 : mo (fun '(x, y, z) => 2 * a * c * (x * z) + 2 * b * c * (y * z)) = 2 * a * c * mo (fun '(x, y, z) => x * z) + 2 * b * c * mo (fun '(x, y, z) => y * z)) by (apply LIN; intros [[x y] z]; ring).
    assert (H4 : mo (fun '(x, y, z) => a * a * (x * x) + b * b * (y * y) + (c * c * (z * z) + 2 * a * b * (x * y))) = 1 * mo (fun '(x, y, z) => a * a * (x * x) + b * b * (y * y)) + 1 * mo (fun '(x, y, z) => c * c * (z * z) + 2 * a * b * (x * y))) by (apply LIN; intros [[x y] z]; ring).
    assert (H5 : mo (fun '(x, y, z) => (a * x + b * y + c * z) * (a * x + b * y + c * z)) = 1 * mo (fun '(x, y, z) => a * a * (x * x) + b * b * (y * y) + (c * c * (z * z) + 2 * a * b * (x * y))) + 1 * mo (fun '(x, y, z) => 2 * a * c * (x * z) + 2 * b * c * (y * z))) by (apply LIN; intros [[x y] z]; ring).
    assert (H6 : 0 <= mo (fun '(x, y, z) => (a * x + b * y + c * z) * (a * x + b * y + c * z))) by (apply POS; intros [[x y] z] _; apply Rle_0_sqr). lra.
Qed.
Print Assumptions C89_moments.
(** On the angular grids of C79 a single isotropic intensity has energy density I, no flux and the pressure I/3. *)
Theorem C89_isotropic : forall rays I, isotropic rays ->
  let M := CalculateMoment rays [repeat I (length rays)] in
  Er M = I /\ Fr1 M = 0 /\ Fr2 M = 0 /\ Fr3 M = 0 /\ P11 M = I / 3 /\ P22 M = I / 3 /\ P33 M = I / 3 /\ P12 M = 0 /\ P13 M = 0 /\ P23 M = 0.
Proof.
  intros rays I [_ [A [B [C [D [E [F [G [H [J K]]]]]]]]]]. cbv zeta. cbn [CalculateMoment Er Fr1 Fr2 Fr3 P11 P22 P33 P12 P13 P23].
  assert (M : forall f, moment rays [repeat I (length rays)] f = I * add_up rays (fun '(d, w) => w * f d)).
  { intros f. rewrite moment_total. unfold total at 1. cbn [fold_right]. rewrite Rplus_0_r. clear. induction rays as [|[d w0] l IH]; unfold total, add_up in *; cbn [length repeat combine fold_right]; [ring|]. rewrite IH. ring. }
  assert (X : forall (f g : (R * R * R) * R -> R), (forall r, f r = g r) -> add_up rays f = add_up rays g) by (intros f g Q; unfold add_up; clear - Q; induction rays as [|r l IH]; cbn [fold_right]; auto; rewrite IH, Q; auto).
  rewrite !M.
  repeat split.
  - rewrite (X _ (fun '(_, w) => w)), A by (intros [[[x y] z] w0]; ring). lra.
  - rewrite (X _ (fun '((x, y, z), w) => w * x)), B by (intros [[[x y] z] w0]; ring). lra.
  - rewrite (X _ (fun '((x, y, z), w) => w * y)), C by (intros [[[x y] z] w0]; ring). lra.
  - rewrite (X _ (fun '((x, y, z), w) => w * z)), D by (intros [[[x y] z] w0]; ring). lra.
  - rewrite (X _ (fun '((x, y, z), w) => w * (x * x))), E by (intros [[[x y] z] w0]; ring). lra.
  - rewrite (X _ (fun '((x, y, z), w) => w * (y * y))), F by (intros [[[x y] z] w0]; ring). lra.
  - rewrite (X _ (fun '((x, y, z), w) => w * (z * z))), G by (intros [[[x y] z] w0]; ring). lra.
  - rewrite (X _ (fun '((x, y, z), w) => w * (x * y))), H by (intros [[[x y] z] w0]; ring). lra.
  - rewrite (X _ (fun '((x, y, z), w) => w * (x * z))), J by (intros [[[x y] z] w0]; ring). lra.
  - rewrite (X _ (fun '((x, y, z), w) => w * (y * z))), K by (intros [[[x y] z] w0]; ring). lra.
Qed.
Print Assumptions C89_isotropic.

(** The hypotheses can be met. *)
Definition ex_p : params := {| crat := 1; reduced_c := 1; prat := 1; gamma := 2; dt := 1; sigma_a := 0; sigma_s := 1; sigma_p := 0; sigma_pe := 0 |}.
Example C89_valid : valid ex_p 1 /\ valid {| crat := 10; reduced_c := 5; prat := 2; gamma := 5 / 3; dt := 1 / 100; sigma_a := 3; sigma_s := 1; sigma_p := 2; sigma_pe := 2 |} 1.
Proof. unfold valid; cbn; lra. Qed.
Example C89_velocity : norm2 (3 / 5, 0, 0) < 1 * 1 /\ norm2 (1, 0, 0) = 1 /\ norm2 (0, 3 / 5, 4 / 5) = 1 /\ lorz 1 (3 / 5, 0, 0) = 5 / 4 /\ ComAngle 1 (3 / 5, 0, 0) (0, 1, 0) = (- (3 / 5), 4 / 5, 0).
Proof.
  assert (L : lorz 1 (3 / 5, 0, 0) = 5 / 4). { unfold lorz, lorzsq. match goal with |- sqrt ?q = _ => replace q with (5 / 4 * (5 / 4)) by field end. apply sqrt_square. lra. }
  unfold norm2. repeat split; try lra. unfold ComAngle. rewrite L. f_equal; [f_equal|]; field.
Qed.
Example C89_beams : let l := [{| wmu_cm := 1 / 4; tcoef := 2; imcoef := 1; ircm := 3 |}; {| wmu_cm := 3 / 4; tcoef := 1 / 2; imcoef := 3 / 2; ircm := 1 |}] in
  total l wmu_cm = 1 /\ Forall (fun a => 0 <= wmu_cm a /\ 0 < tcoef a /\ 1 <= imcoef a /\ 0 < ircm a) l.
Proof. split; [cbn; lra|]. repeat constructor; cbn; lra. Qed.
(** Two opposite beams in a scattering gas at rest: 3 and 1 become 5/2 and 3/2. *)
Definition ex_l : list angle := [{| dirw := ((1, 0, 0), 1 / 2); ini := 3; add := 0; coef := 0; now := 3 |}; {| dirw := ((-1, 0, 0), 1 / 2); ini := 1; add := 0; coef := 0; now := 1 |}].
Example C89_two_beams : total ex_l (fun a => snd (dirw a)) = 1 /\ Forall (fun a => norm2 (fst (dirw a)) = 1 /\ 0 <= snd (dirw a)) ex_l /\ Forall (fun a => add a = 0 /\ coef a = 0) ex_l /\
  Forall (fun a => / 10 ^ 20 <= ini a) ex_l /\ CalSourceTerms ex_p 1 (0, 0, 0) 1 1 ex_l = (1, [5 / 2; 3 / 2]) /\ Forall (fun o => / 10 ^ 20 < o) [5 / 2; 3 / 2].
Proof.
  assert (TS : / 10 ^ 20 < 1). { rewrite <- Rinv_1. apply Rinv_lt_contravar; [|pose proof (Rlt_pow_R1 10 20 ltac:(lra) ltac:(auto with arith)); lra]. rewrite Rmult_1_l. apply pow_lt. lra. }
  split; [cbn; lra|]. split; [repeat constructor; cbn; lra|]. split; [repeat constructor; cbn; lra|]. split; [repeat constructor; cbn [ini]; lra|]. split; [|repeat constructor; lra].
  assert (L : lorz 1 (0, 0, 0) = 1) by (unfold lorz, lorzsq; replace (1 / _) with 1 by field; apply sqrt_1).
  assert (T : forall a, In a ex_l -> tran 1 (0, 0, 0) (dirw a) = 1). { intros a A. unfold tran. rewrite L. destruct A as [<-|[<-|[]]]; cbn [dirw fst]; unfold vnc; field. }
  assert (TO : to_com 1 (0, 0, 0) ex_l = [{| wmu_cm := 1 / 2; tcoef := 1; imcoef := 1; ircm := 3 |}; {| wmu_cm := 1 / 2; tcoef := 1; imcoef := 1; ircm := 1 |}]).
  { unfold to_com. assert (T1 := T _ (or_introl eq_refl)). assert (T2 := T _ (or_intror (or_introl eq_refl))). cbn [dirw] in T1, T2. unfold ex_l, sum, cm_to_lab. cbn [map fold_left dirw snd ini add coef]. rewrite T1, T2. unfold TINY. rewrite !Rmax_left by lra. f_equal; [|f_equal]; f_equal; field. }
  unfold CalSourceTerms. cbn [ex_p crat]. fold ex_p. rewrite TO. unfold AbsorptionScattering, sum, vn2, vn, rdtcs, dtcs.
  cbn [ex_p fold_left map crat reduced_c prat gamma dt sigma_a sigma_s sigma_p sigma_pe wmu_cm tcoef imcoef ircm].
  match goal with |- context [ltR TINY (Rabs ?a)] => replace a with 0 by (field; lra) end. pose proof TINY_pos as TP. rewrite Rabs_R0, (ltR_f TINY) by lra. cbv beta iota zeta.
  match goal with |- context [[Rmax ?a TINY; Rmax ?b TINY]] => replace a with (5 / 2) by (field; lra); replace b with (3 / 2) by (field; lra) end.
  replace (1 - 1) with 0 by ring. rewrite Rabs_R0, ltR_t by lra. unfold ex_l. cbn [combine map dirw]. assert (T1 := T _ (or_introl eq_refl)). assert (T2 := T _ (or_intror (or_introl eq_refl))). cbn [dirw] in T1, T2. unfold cm_to_lab. rewrite T1, T2.
  unfold TINY. rewrite !(Rmax_left (5 / 2)), !(Rmax_left (3 / 2)) by lra. replace (5 / 2 / (1 * 1 * 1 * 1)) with (5 / 2) by field. replace (3 / 2 / (1 * 1 * 1 * 1)) with (3 / 2) by field. rewrite !Rmax_left by lra. f_equal. field.
Qed.
Example C89_gas : let u := {| DN := 1; M1 := 1; M2 := 0; M3 := 0; EN := 5 |} in 0 < DN u /\
  GetHydroSourceTerms ex_p [((1, 0, 0), 1 / 2); ((-1, 0, 0), 1 / 2)] [[3; 1]] [[5 / 2; 3 / 2]] = (0, 1 / 2, 0, 0) /\
  AddSourceTerms ex_p (9 / 10) 100 false 0 1 (0, - (1 / 2), 0, 0) u = {| DN := 1; M1 := 1 / 2; M2 := 0; M3 := 0; EN := 5 |}.
Proof.
  split; [cbn; lra|]. split.
  - unfold GetHydroSourceTerms, delta, sum. cbn [combine fold_left ex_p prat reduced_c crat]. f_equal; [f_equal; [f_equal|]|]; field.
  - rewrite add_plain; unfold plain, speed2, eint; cbn [DN M1 M2 M3 EN ex_p crat gamma]; try lra. f_equal; lra.
Qed.
