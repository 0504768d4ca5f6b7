(** C82: resistivity. *)
From Coq Require Import Reals ZArith List Bool Lra Lia Psatz.
From Verif Require Import Fv_Model Fv_Spec Pos_Model Lud_Spec Lud_Proofs Tor_Spec Tor_Proofs Dif_Model Dif_Spec Dif_Proofs Res_Model Res_Spec Res_Proofs Res_Proofs2.
Import ListNotations.
Local Open Scope R_scope.

(** The current is the curl of the field, exactly for fields linear in the coordinates, in one, two and three dimensions. *)
Theorem C82_current : forall d dx dy dz b G k j i, 0 < dx -> 0 < dy -> 0 < dz -> (f3 d = true -> f2 d = true) ->
  (f2 d = false -> forall c, G c 2%nat = 0) -> (f3 d = false -> forall c, G c 3%nat = 0) ->
  let J := CalcCurrent d (flat_dual dx dy dz) (linear_field dx dy dz b G) in x1 J k j i = curl G 1 /\ x2 J k j i = curl G 2 /\ x3 J k j i = curl G 3.
Proof.
  intros d dx dy dz b G k j i Hx Hy Hz H G2 G3. cbv zeta. unfold CalcCurrent, linear_field, flat_dual, curl. cbn [x1 x2 x3 len1 len2 len3 ar1 ar2 ar3]. rewrite !minus_IZR.
  destruct (f2 d), (f3 d); try (specialize (H eq_refl); discriminate H); try specialize (G2 eq_refl); try specialize (G3 eq_refl); try rewrite !G2 by fail; try rewrite !G3 by fail; repeat split; field; lra.
Qed.
Print Assumptions C82_current.

(** The current of a plane is made of that plane alone when there is only one, and the current of a row of that row alone: no cell outside an unused dimension is read. *)
Theorem C82_current_in_plane : forall d m b b' k j i, f3 d = false ->
  (forall j' i', (f2 d = false -> j' = j) -> x1 b k j' i' = x1 b' k j' i' /\ x2 b k j' i' = x2 b' k j' i' /\ x3 b k j' i' = x3 b' k j' i') ->
  let J := CalcCurrent d m b in let J' := CalcCurrent d m b' in x1 J k j i = x1 J' k j i /\ x2 J k j i = x2 J' k j i /\ x3 J k j i = x3 J' k j i.
Proof.
  intros d m b b' k j i E3 H. cbv zeta. unfold CalcCurrent. cbn [x1 x2 x3]. rewrite E3. cbn match. destruct (f2 d) eqn:E2; cbn match.
  - assert (G : forall j' i', x1 b k j' i' = x1 b' k j' i' /\ x2 b k j' i' = x2 b' k j' i' /\ x3 b k j' i' = x3 b' k j' i') by (intros; apply H; intros E; discriminate E).
    split; [|split]; rewrite ?(proj1 (G _ _)), ?(proj1 (proj2 (G _ _))), ?(proj2 (proj2 (G _ _))); reflexivity.
  - assert (G : forall i', x1 b k j i' = x1 b' k j i' /\ x2 b k j i' = x2 b' k j i' /\ x3 b k j i' = x3 b' k j i') by (intros; apply H; auto).
    split; [|split]; rewrite ?(proj1 (G _)), ?(proj1 (proj2 (G _))), ?(proj2 (proj2 (G _))); reflexivity.
Qed.
Print Assumptions C82_current_in_plane.

(** Ohmic resistivity, any array of coefficients that are not negative: a step within the limit of the code never raises the magnetic energy of a periodic mesh, in one, two and three dimensions. *)
Theorem C82_ohmic : forall n1 n2 n3 dx dy dz real_max eta_ohm ohm ad b bc dt, (0 < n1)%nat -> (0 < n2)%nat -> (0 < n3)%nat -> (n2 = 1%nat -> n3 = 1%nat) -> 0 < dx -> 0 < dy -> 0 < dz ->
  0 < eta_ohm -> periodic n1 n2 n3 ohm -> (forall k j i, 0 <= ohm k j i) -> periodic_field n1 n2 n3 b -> 0 <= dt ->
  dt <= dt_oa (whole n1 n2 n3) real_max (uniform dx) (uniform dy) (uniform dz) eta_ohm 0 ohm ad ->
  magnetic_energy n1 n2 n3 (field_stage (whole n1 n2 n3) dx dy dz eta_ohm 0 dt ohm ad b bc) <= magnetic_energy n1 n2 n3 b.
Proof. intros. eapply ohmic_energy; eauto. Qed.
Print Assumptions C82_ohmic.
(** Any number of steps with exchanges of boundaries between them. *)
Inductive decay (n1 n2 n3 : nat) (dx dy dz real_max eta_ohm : R) (b0 : vec) : vec -> Prop :=
| decay_start : decay n1 n2 n3 dx dy dz real_max eta_ohm b0 b0
| decay_step b ohm ad bc dt b' : decay n1 n2 n3 dx dy dz real_max eta_ohm b0 b -> periodic n1 n2 n3 ohm -> (forall k j i, 0 <= ohm k j i) -> 0 <= dt ->
    dt <= dt_oa (whole n1 n2 n3) real_max (uniform dx) (uniform dy) (uniform dz) eta_ohm 0 ohm ad ->
    exchanged n1 n2 n3 (field_stage (whole n1 n2 n3) dx dy dz eta_ohm 0 dt ohm ad b bc) b' -> decay n1 n2 n3 dx dy dz real_max eta_ohm b0 b'.
Theorem C82_decay : forall n1 n2 n3 dx dy dz real_max eta_ohm b0 b, (0 < n1)%nat -> (0 < n2)%nat -> (0 < n3)%nat -> (n2 = 1%nat -> n3 = 1%nat) -> 0 < dx -> 0 < dy -> 0 < dz ->
  0 < eta_ohm -> periodic_field n1 n2 n3 b0 -> decay n1 n2 n3 dx dy dz real_max eta_ohm b0 b -> magnetic_energy n1 n2 n3 b <= magnetic_energy n1 n2 n3 b0.
Proof.
  intros n1 n2 n3 dx dy dz rmax a b0 b N1 N2 N3 H23 Hx Hy Hz Ha P D. cut (periodic_field n1 n2 n3 b /\ magnetic_energy n1 n2 n3 b <= magnetic_energy n1 n2 n3 b0); [tauto|].
  induction D as [|b ohm ad bc dt b' D [Q IH] Po Ho Hdt Hl [X Y]]; [split; [auto|lra]|]. split; auto. eapply Rle_trans; [|exact IH].
  eapply Rle_trans; [|apply (C82_ohmic n1 n2 n3 dx dy dz rmax a ohm ad b bc dt); auto]. apply Req_le. apply box_ext_in. intros k j i Hk Hj Hi. destruct (Y k j i Hk Hj Hi) as [-> [-> ->]]. reflexivity.
Qed.
Print Assumptions C82_decay.

(** Ambipolar diffusion, with or without Ohmic resistivity, in one dimension. *)
Section Ambipolar.
Variables n1 : nat.
Variables dx dy dz : R.
Hypothesis Hx : 0 < dx.
Hypothesis Hy : 0 < dy.
Hypothesis Hz : 0 < dz.
Hypothesis N1 : (0 < n1)%nat.
Variables a c : R.
Variables ohm ad : arr.
Variables b bc : vec.
Hypothesis Ha : 0 <= a.
Hypothesis Hc : 0 < c.
Hypothesis Po : periodic n1 1 1 ohm.
Hypothesis Pa : periodic n1 1 1 ad.
Hypothesis Ho : forall k j i, 0 <= ohm k j i.
Hypothesis Hd : forall k j i, 0 <= ad k j i.
Hypothesis Pb : periodic_field n1 1 1 b.
Notation d := (whole n1 1 1).
Notation J2 := (J2 dx dz b).
Notation J3 := (J3 dx dy b).
Let mean (f : arr) : arr := fun k j i => / 2 * (f k j i + f k j (i - 1)%Z).
Let By := mean (x2 b).
Let Bz := mean (x3 b).
Let o : arr := fun k j i => if posR a then mean ohm k j i else 0.
Let E2 : arr := fun k j i => o k j i * J2 k j i + across (mean ad k j i) (J2 k j i) (By k j i) 0 (J2 k j i) (J3 k j i) (x1 b k j i) (By k j i) (Bz k j i).
Let E3 : arr := fun k j i => o k j i * J3 k j i + across (mean ad k j i) (J3 k j i) (Bz k j i) 0 (J2 k j i) (J3 k j i) (x1 b k j i) (By k j i) (Bz k j i).
Lemma per_mean f : periodic n1 1 1 f -> periodic n1 1 1 (mean f).
Proof. intros P. unfold mean. apply per_mult; [apply per_const|]. apply per_plus; auto. apply per_im; auto. Qed.
Lemma per_E : periodic n1 1 1 E2 /\ periodic n1 1 1 E3.
Proof.
  destruct (per_J n1 1 1 dx dy dz b Pb) as [_ [Q2 Q3]]. destruct Pb as [B1 [B2 B3]]. pose proof (per_mean _ B2) as M2. pose proof (per_mean _ B3) as M3. pose proof (per_mean _ Pa) as Ma. pose proof (per_mean _ Po) as Mo. fold By in M2. fold Bz in M3.
  assert (Oo : periodic n1 1 1 o). { unfold o. destruct (posR a); auto. apply per_const. }
  split; unfold E2, E3, across; cbv zeta; (apply per_plus; [apply per_mult; assumption|]); (apply per_mult; [assumption|]); (apply per_minus; [assumption|]); apply per_div;
    repeat first [assumption|apply per_const|apply per_plus|apply per_mult].
Qed.
Lemma emf_1d : let e := CalcDiffusionEMF d (flat_dual dx dy dz) a c ohm ad b bc in
  (forall k j i, (0 <= k <= 1)%Z -> (0 <= j < 1)%Z -> (0 <= i <= Z.of_nat n1)%Z -> x2 e k j i = E2 k j i) /\
  (forall k j i, (0 <= k < 1)%Z -> (0 <= j <= 1)%Z -> (0 <= i <= Z.of_nat n1)%Z -> x3 e k j i = E3 k j i).
Proof.
  cbv zeta. destruct per_E as [P2 P3].
  assert (Cu : forall k j i, let J := CalcCurrent d (flat_dual dx dy dz) b in x1 J k j i = J1 dy dz b k j i /\ x2 J k j i = J2 k j i /\ x3 J k j i = J3 k j i) by (apply current; auto). cbv zeta in Cu.
  assert (IC : isz c = false) by (unfold isz; destruct (Req_EM_T c 0); auto; lra).
  assert (IA : isz a = negb (posR a)) by (unfold isz, posR; destruct (Req_EM_T a 0), (Rlt_dec 0 a); auto; lra).
  unfold CalcDiffusionEMF. rewrite IC, IA. unfold AmbipolarEMF, OhmicEMF. change (Z.eqb (nx2 d) 1) with true. cbv iota zeta. 
  assert (W : forall i, (0 <= i <= Z.of_nat n1)%Z -> within (is_ d) (ie d + 1) i = true) by (intros; apply within_iff; cbn; lia).
  split; intros k j i Hk Hj Hi.
  - rewrite (any3 n1 1 1 ltac:(lia) ltac:(lia) ltac:(lia) E2 k 0%Z j i eq_refl P2). replace j with 0%Z by lia. assert (K : (Z.eqb k (ks d) || Z.eqb k (ke d + 1)) = true) by (rewrite orb_true_iff, !Z.eqb_eq; cbn; lia).
    cbn [x2]. rewrite (W i Hi), K. cbn [andb orb Z.eqb js ks whole]. unfold E2, o, By, Bz, mean.
    destruct (posR a); cbn [negb x2 no_field andb orb Z.eqb js ks whole]; rewrite !(proj1 (proj2 (Cu _ _ _))), !(proj2 (proj2 (Cu _ _ _))), ?(W i Hi); cbn [andb]; unfold across; cbv zeta; rewrite (Rplus_comm (ad 0%Z 0%Z (i - 1)%Z)), ?(Rplus_comm (ohm 0%Z 0%Z (i - 1)%Z)); ring.
  - rewrite (any2 n1 1 1 ltac:(lia) ltac:(lia) ltac:(lia) E3 k j 0%Z i eq_refl P3). replace k with 0%Z by lia. assert (K : (Z.eqb j (js d) || Z.eqb j (je d + 1)) = true) by (rewrite orb_true_iff, !Z.eqb_eq; cbn; lia).
    cbn [x3]. rewrite (W i Hi), K. cbn [andb orb Z.eqb js ks whole]. unfold E3, o, By, Bz, mean.
    destruct (posR a); cbn [negb x3 no_field andb orb Z.eqb js ks whole]; rewrite !(proj1 (proj2 (Cu _ _ _))), !(proj2 (proj2 (Cu _ _ _))), ?(W i Hi); cbn [andb]; unfold across; cbv zeta; rewrite (Rplus_comm (ad 0%Z 0%Z (i - 1)%Z)), ?(Rplus_comm (ohm 0%Z 0%Z (i - 1)%Z)); ring.
Qed.
(** The two coefficients act as a matrix between zero and their sum. *)
Lemma across_bound p q j2 j3 bx y z : 0 <= p -> 0 <= q ->
  let e2 := p * j2 + across q j2 y 0 j2 j3 bx y z in let e3 := p * j3 + across q j3 z 0 j2 j3 bx y z in
  e2 ^ 2 + e3 ^ 2 <= (p + q) * (e2 * j2 + e3 * j3) /\ 0 <= e2 * j2 + e3 * j3.
Proof.
  intros Hp Hq. cbv zeta. unfold across. pose proof tiny_pos as T. set (S := bx * bx + y * y + z * z + TINY_NUMBER). set (s := 0 * bx + j2 * y + j3 * z).
  assert (PS : 0 < S) by (unfold S; pose proof (pow2_ge_0 bx); pose proof (pow2_ge_0 y); pose proof (pow2_ge_0 z); nra).
  assert (QS : y ^ 2 + z ^ 2 <= S) by (unfold S; pose proof (pow2_ge_0 bx); nra).
  assert (CS : s ^ 2 <= (j2 ^ 2 + j3 ^ 2) * (y ^ 2 + z ^ 2)) by (unfold s; pose proof (pow2_ge_0 (j2 * z - j3 * y)); nra).
  assert (EJ : (p * j2 + q * (j2 - s * y / S)) * j2 + (p * j3 + q * (j3 - s * z / S)) * j3 = (p + q) * (j2 ^ 2 + j3 ^ 2) - q * (s ^ 2 / S)) by (unfold s; field; lra).
  assert (B : s ^ 2 / S <= j2 ^ 2 + j3 ^ 2). { apply Rmult_le_reg_r with S; auto. unfold Rdiv. rewrite Rmult_assoc, Rinv_l, Rmult_1_r by lra. eapply Rle_trans; [exact CS|]. apply Rmult_le_compat_l; auto. pose proof (pow2_ge_0 j2). pose proof (pow2_ge_0 j3). lra. }
  assert (P2 : 0 <= s ^ 2 / S) by (apply Rmult_le_pos; [apply pow2_ge_0|apply Rlt_le, Rinv_0_lt_compat; auto]).
  split.
  - rewrite EJ. match goal with |- ?l <= _ => replace l with ((p + q) ^ 2 * (j2 ^ 2 + j3 ^ 2) - 2 * (p + q) * q * (s ^ 2 / S) + q * q * (s ^ 2 / S) * ((y ^ 2 + z ^ 2) / S)) by (unfold s; field; lra) end.
    assert (F : (y ^ 2 + z ^ 2) / S <= 1). { apply Rmult_le_reg_r with S; auto. unfold Rdiv. rewrite Rmult_assoc, Rinv_l by lra. lra. }
    assert (q * q * (s ^ 2 / S) * ((y ^ 2 + z ^ 2) / S) <= q * q * (s ^ 2 / S) * 1) by (apply Rmult_le_compat_l; auto; apply Rmult_le_pos; [apply Rmult_le_pos|]; auto).
    assert (0 <= p * q * (s ^ 2 / S)) by (apply Rmult_le_pos; [apply Rmult_le_pos|]; auto). nra.
  - rewrite EJ. assert (q * (s ^ 2 / S) <= q * (j2 ^ 2 + j3 ^ 2)) by (apply Rmult_le_compat_l; auto). assert (0 <= p * (j2 ^ 2 + j3 ^ 2)) by (apply Rmult_le_pos; auto; pose proof (pow2_ge_0 j2); pose proof (pow2_ge_0 j3); lra). lra.
Qed.
Lemma ambipolar_energy rmax dt : 0 <= dt -> dt <= dt_oa d rmax (uniform dx) (uniform dy) (uniform dz) a c ohm ad ->
  magnetic_energy n1 1 1 (field_stage d dx dy dz a c dt ohm ad b bc) <= magnetic_energy n1 1 1 b.
Proof.
  intros Hdt Hl. destruct per_E as [P2 P3]. destruct emf_1d as [G2 G3]. pose proof (per_const n1 1 1 0) as P1.
  assert (PC : posR c = true) by (unfold posR; destruct (Rlt_dec 0 c); auto; contradiction).
  pose proof (ct_stage n1 1 1 dx dy dz Hx Hy Hz N1 ltac:(lia) ltac:(lia) ltac:(auto) (CalcDiffusionEMF d (flat_dual dx dy dz) a c ohm ad b bc) b (fun _ _ _ => 0) E2 E3 dt P1 P2 P3 ltac:(intros N; exfalso; auto) G2 G3) as CS. cbv zeta in CS.
  unfold field_stage, magnetic_energy.
  rewrite (box_ext_in n1 1 1 _ (fun k j i => (x1 b k j i - dt * C1 dy dz (fun _ _ _ => 0) E2 E3 k j i) ^ 2 + (x2 b k j i - dt * C2 dx dz (fun _ _ _ => 0) E2 E3 k j i) ^ 2 + (x3 b k j i - dt * C3 dx dy (fun _ _ _ => 0) E2 E3 k j i) ^ 2)).
  2:{ intros k j i Hk Hj Hi. destruct (CS k j i Hk Hj Hi) as [-> [-> ->]]. reflexivity. }
  destruct Pb as [B1 [B2 B3]]. apply energy_step; auto. intros k j i.
  pose proof (limit_cells n1 1 1 dx dy dz Hx Hy Hz N1 ltac:(lia) ltac:(lia) ltac:(auto) rmax a c ohm ad dt Po Pa Ho Hd Hdt ltac:(rewrite PC; apply orb_true_r) Hl) as K.
  set (S := stiff 1 1 dx dy dz) in *.
  assert (Oo : 0 <= o k j i) by (unfold o, mean; pose proof (Ho k j i); pose proof (Ho k j (i - 1)%Z); destruct (posR a); lra).
  assert (Am : 0 <= mean ad k j i) by (unfold mean; pose proof (Hd k j i); pose proof (Hd k j (i - 1)%Z); lra).
  assert (Lm : dt * (o k j i + mean ad k j i) * S <= 2). { pose proof (K k j i) as K1. pose proof (K k j (i - 1)%Z) as K2. unfold eta_total in K1, K2. rewrite PC in K1, K2. unfold o, mean. destruct (posR a); lra. }
  destruct (across_bound (o k j i) (mean ad k j i) (J2 k j i) (J3 k j i) (x1 b k j i) (By k j i) (Bz k j i) Oo Am) as [Q1 Q2]. fold (E2 k j i) (E3 k j i) in Q1, Q2.
  change (D3m dz (x1 b) k j i - D1m dx (x3 b) k j i) with (J2 k j i). change (D1m dx (x2 b) k j i - D2m dy (x1 b) k j i) with (J3 k j i).
  assert (HS : 0 <= S) by (unfold S, stiff; cbn [Nat.eqb]; assert (0 < 4 / (dx * dx)) by (apply Rmult_lt_0_compat; [lra|apply Rinv_0_lt_compat; nra]); lra).
  set (W := E2 k j i * J2 k j i + E3 k j i * J3 k j i) in *.
  assert (dt * S * (E2 k j i ^ 2 + E3 k j i ^ 2) <= dt * S * ((o k j i + mean ad k j i) * W)) by (apply Rmult_le_compat_l; auto; apply Rmult_le_pos; auto).
  assert (dt * (o k j i + mean ad k j i) * S * W <= 2 * W) by (apply Rmult_le_compat_r; auto).
  assert (Z0 : forall x, 0 * x = 0) by (intros; ring). unfold W in *. clear - H H0. cbn [pow] in *. lra.
Qed.
End Ambipolar.
Theorem C82_ambipolar : forall n1 dx dy dz real_max eta_ohm eta_ad ohm ad b bc dt, (0 < n1)%nat -> 0 < dx -> 0 < dy -> 0 < dz ->
  0 <= eta_ohm -> 0 < eta_ad -> periodic n1 1 1 ohm -> periodic n1 1 1 ad -> (forall k j i, 0 <= ohm k j i) -> (forall k j i, 0 <= ad k j i) -> periodic_field n1 1 1 b -> 0 <= dt ->
  dt <= dt_oa (whole n1 1 1) real_max (uniform dx) (uniform dy) (uniform dz) eta_ohm eta_ad ohm ad ->
  magnetic_energy n1 1 1 (field_stage (whole n1 1 1) dx dy dz eta_ohm eta_ad dt ohm ad b bc) <= magnetic_energy n1 1 1 b.
Proof. intros. eapply ambipolar_energy; eauto. Qed.
Print Assumptions C82_ambipolar.

(** Heating in one dimension: the Poynting flux, taken off the total energy, leaves beyond the change of the magnetic energy the mean of E.J at the two faces of a cell, and E.J is not negative for either effect. *)
Theorem C82_joule : forall n1 dx dy dz eta_ohm eta_ad ohm ad b i, (0 < n1)%nat -> 0 < dx -> 0 < dy -> 0 < dz -> 0 <= eta_ohm -> 0 <= eta_ad -> 0 < eta_ohm + eta_ad -> (forall k j i, 0 <= ohm k j i) -> (forall k j i, 0 <= ad k j i) ->
  periodic_field n1 1 1 b -> (0 <= i < Z.of_nat n1)%Z ->
  let bc := b in let e := CalcDiffusionEMF (whole n1 1 1) (flat_dual dx dy dz) eta_ohm eta_ad ohm ad b bc in let J := CalcCurrent (whole n1 1 1) (flat_dual dx dy dz) b in
  let EJ i := x2 e 0%Z 0%Z i * x2 J 0%Z 0%Z i + x3 e 0%Z 0%Z i * x3 J 0%Z 0%Z i in
  let S i := PoyntingFlux_1d (whole n1 1 1) e bc i in
  let db2 := (x3 e 0%Z 0%Z (i + 1)%Z - x3 e 0%Z 0%Z i) / dx in let db3 := - (x2 e 0%Z 0%Z (i + 1)%Z - x2 e 0%Z 0%Z i) / dx in
  - (S (i + 1)%Z - S i) / dx - (x2 b 0%Z 0%Z i * db2 + x3 b 0%Z 0%Z i * db3) = (EJ i + EJ (i + 1)%Z) / 2 /\ 0 <= EJ i /\ 0 <= EJ (i + 1)%Z /\
  forall dt, let b' := field_stage (whole n1 1 1) dx dy dz eta_ohm eta_ad dt ohm ad b bc in x2 b' 0%Z 0%Z i = x2 b 0%Z 0%Z i + dt * db2 /\ x3 b' 0%Z 0%Z i = x3 b 0%Z 0%Z i + dt * db3.
Proof.
  intros n1 dx dy dz a c ohm ad b i N1 Hx Hy Hz Ha Hc Hac Ho Hd Pb Hi. cbv zeta.
  set (e := CalcDiffusionEMF _ _ _ _ _ _ _ _). set (J := CalcCurrent _ _ _).
  assert (Cu : forall k j i, x2 J k j i = - (x3 b k j i - x3 b k j (i - 1)%Z) / dx /\ x3 J k j i = (x2 b k j i - x2 b k j (i - 1)%Z) / dx).
  { intros k j i0. unfold J, CalcCurrent. change (f2 (whole n1 1 1)) with false. change (f3 (whole n1 1 1)) with false. cbn [x2 x3 len1 len2 len3 ar1 ar2 ar3 flat_dual]. split; field; lra. }
  assert (Pos : forall i, (0 <= i <= Z.of_nat n1)%Z -> 0 <= x2 e 0%Z 0%Z i * x2 J 0%Z 0%Z i + x3 e 0%Z 0%Z i * x3 J 0%Z 0%Z i).
  { intros i0 H0. unfold e, CalcDiffusionEMF, AmbipolarEMF, OhmicEMF. fold J. change (Z.eqb (nx2 (whole n1 1 1)) 1) with true. cbv iota zeta.
    assert (W : within (is_ (whole n1 1 1)) (ie (whole n1 1 1) + 1) i0 = true) by (apply within_iff; cbn; lia).
    unfold isz. destruct (Req_EM_T a 0), (Req_EM_T c 0); try lra; cbn [x2 x3 no_field ks js whole]; rewrite ?W; cbn [andb orb Z.eqb x2 x3 no_field]; rewrite ?W; cbn [andb orb Z.eqb].
    - pose proof (across_bound 0 (/ 2 * (ad 0%Z 0%Z (i0 - 1)%Z + ad 0%Z 0%Z i0)) (x2 J 0%Z 0%Z i0) (x3 J 0%Z 0%Z i0) (x1 b 0%Z 0%Z i0) (/ 2 * (x2 b 0%Z 0%Z i0 + x2 b 0%Z 0%Z (i0 - 1)%Z)) (/ 2 * (x3 b 0%Z 0%Z i0 + x3 b 0%Z 0%Z (i0 - 1)%Z)) ltac:(lra) ltac:(pose proof (Hd 0%Z 0%Z i0); pose proof (Hd 0%Z 0%Z (i0 - 1)%Z); lra)) as [_ Q].
      rewrite !Rmult_0_l in Q. exact Q.
    - assert (0 <= / 2 * (ohm 0%Z 0%Z (i0 - 1)%Z + ohm 0%Z 0%Z i0)) by (pose proof (Ho 0%Z 0%Z i0); pose proof (Ho 0%Z 0%Z (i0 - 1)%Z); lra). set (h := / 2 * _) in *.
      match goal with |- 0 <= ?t => replace t with (h * (x2 J 0%Z 0%Z i0 ^ 2 + x3 J 0%Z 0%Z i0 ^ 2)) by ring end. apply Rmult_le_pos; auto. pose proof (pow2_ge_0 (x2 J 0%Z 0%Z i0)). pose proof (pow2_ge_0 (x3 J 0%Z 0%Z i0)). lra.
    - rewrite !Rplus_0_l. refine (proj2 (across_bound _ _ _ _ _ _ _ _ _)); [pose proof (Ho 0%Z 0%Z i0); pose proof (Ho 0%Z 0%Z (i0 - 1)%Z); lra|pose proof (Hd 0%Z 0%Z i0); pose proof (Hd 0%Z 0%Z (i0 - 1)%Z); lra]. }
  split; [|split; [apply Pos; lia|split; [apply Pos; lia|]]].
  - unfold PoyntingFlux_1d. cbn [ks js whole]. rewrite !(proj1 (Cu _ _ _)), !(proj2 (Cu _ _ _)). replace (i + 1 - 1)%Z with i by ring. field. lra.
  - intros dt. unfold field_stage. fold e. unfold CT. change (Z.ltb 1 (nx2 (whole n1 1 1))) with false. change (Z.ltb 1 (nx3 (whole n1 1 1))) with false. cbv iota zeta. cbn [x2 x3 A2 A3 L2 L3 cart].
    assert (W : within (is_ (whole n1 1 1)) (ie (whole n1 1 1)) i = true) by (apply within_iff; cbn; lia). rewrite W.
    change (within (ks (whole n1 1 1)) (ke (whole n1 1 1)) 0) with true. change (within (js (whole n1 1 1)) (je (whole n1 1 1)) 0) with true. change (within (ks (whole n1 1 1)) (ke (whole n1 1 1) + 1) 0) with true.
    change (within (if pole_in (whole n1 1 1) then js (whole n1 1 1) + 1 else js (whole n1 1 1))%Z (if pole_out (whole n1 1 1) then je (whole n1 1 1) else je (whole n1 1 1) + 1)%Z 0) with true. cbn [andb]. split; field; lra.
Qed.
Print Assumptions C82_joule.

(** *** Finding *)
(** In two dimensions ambipolar diffusion can make magnetic energy, for every time step: the current component is the one of the edge, its product with the field uses averages.  Two by two cells, diffusivity in one of them. *)
Definition wit_b : vec := mkV (fun _ _ _ => 0) (fun _ _ i => if Z.even i then 0 else -2) (fun _ j i => if Z.even i then 2 else if Z.even j then -1 else 1).
Definition wit_bc : vec := mkV (fun k j i => / 2 * (x1 wit_b k j i + x1 wit_b k j (i + 1)%Z)) (fun k j i => / 2 * (x2 wit_b k j i + x2 wit_b k (j + 1)%Z i)) (x3 wit_b).
Definition wit_ad : arr := fun _ j i => if Z.even i && Z.even j then 4 else 0.
Lemma wit_periodic f : (forall k j i, f k j (i + 2)%Z = f k j i) -> (forall k j i, f k (j + 2)%Z i = f k j i) -> (forall k j i, f (k + 1)%Z j i = f k j i) -> periodic 2 2 1 f.
Proof. intros A B C k j i. repeat split; auto. Qed.
Lemma even2 x : Z.even (x + 2) = Z.even x.
Proof. rewrite Z.even_add. destruct (Z.even x); reflexivity. Qed.
Theorem C82_ambipolar_refuted : forall dt, 0 < dt -> exists ad b bc, (forall k j i, 0 <= ad k j i) /\ periodic 2 2 1 ad /\ periodic_field 2 2 1 b /\
  (forall k j i, x1 bc k j i = (x1 b k j i + x1 b k j (i + 1)%Z) / 2 /\ x2 bc k j i = (x2 b k j i + x2 b k (j + 1)%Z i) / 2 /\ x3 bc k j i = (x3 b k j i + x3 b (k + 1)%Z j i) / 2) /\
  (forall k j i, x1 b k j (i + 1)%Z - x1 b k j i + (x2 b k (j + 1)%Z i - x2 b k j i) + (x3 b (k + 1)%Z j i - x3 b k j i) = 0) /\
  magnetic_energy 2 2 1 b < magnetic_energy 2 2 1 (field_stage (whole 2 2 1) 1 1 1 0 1 dt (fun _ _ _ => 0) ad b bc).
Proof.
  intros dt Hdt. exists wit_ad, wit_b, wit_bc.
  assert (Pb : periodic_field 2 2 1 wit_b) by (split; [|split]; apply wit_periodic; intros; unfold wit_b; cbn [x1 x2 x3]; rewrite ?even2; reflexivity).
  split; [intros; unfold wit_ad; destruct (_ && _); lra|]. split; [apply wit_periodic; intros; unfold wit_ad; rewrite ?even2; reflexivity|]. split; [exact Pb|].
  split; [intros; unfold wit_bc, wit_b; cbn [x1 x2 x3]; repeat split; lra|]. split; [intros; unfold wit_b; cbn [x1 x2 x3]; lra|].
  assert (EE : CalcDiffusionEMF (whole 2 2 1) (flat_dual 1 1 1) 0 1 (fun _ _ _ => 0) wit_ad wit_b wit_bc = AmbipolarEMF (whole 2 2 1) wit_ad wit_b wit_bc (CalcCurrent (whole 2 2 1) (flat_dual 1 1 1) wit_b) no_field).
  { unfold CalcDiffusionEMF, isz. destruct (Req_EM_T 0 0); [|lra]. destruct (Req_EM_T 1 0); [lra|]. reflexivity. }
  unfold field_stage, magnetic_energy. rewrite EE. set (e := AmbipolarEMF _ _ _ _ _ _).
  set (p := fun f : arr => (fun k j i => f 0%Z (if Z.even j then 0%Z else 1%Z) (if Z.even i then 0%Z else 1%Z)) : arr).
  assert (Pp : forall f, periodic 2 2 1 (p f)) by (intros; apply wit_periodic; intros; unfold p; rewrite ?even2; reflexivity).
  assert (Three : forall x, (0 <= x <= 2)%Z -> x = 0%Z \/ x = 1%Z \/ x = 2%Z) by (intros; lia).
  assert (G1 : forall k j i, (0 <= k <= 1)%Z -> (0 <= j <= 2)%Z -> (0 <= i <= 2)%Z -> x1 e k j i = p (x1 e) k j i).
  { intros k j i Hk Hj Hi. unfold p. assert (K : k = 0%Z \/ k = 1%Z) by lia. destruct K as [-> | ->], (Three j Hj) as [-> | [-> | ->]], (Three i Hi) as [-> | [-> | ->]]; reflexivity. }
  assert (G2 : forall k j i, (0 <= k <= 1)%Z -> (0 <= j < 2)%Z -> (0 <= i <= 2)%Z -> x2 e k j i = p (x2 e) k j i).
  { intros k j i Hk Hj Hi. unfold p. assert (K : k = 0%Z \/ k = 1%Z) by lia. destruct K as [-> | ->], (Three j ltac:(lia)) as [-> | [-> | ->]], (Three i Hi) as [-> | [-> | ->]]; reflexivity. }
  assert (G3 : forall k j i, (0 <= k < 1)%Z -> (0 <= j <= 2)%Z -> (0 <= i <= 2)%Z -> x3 e k j i = p (x3 e) k j i).
  { intros k j i Hk Hj Hi. unfold p. assert (K : k = 0%Z) by lia. rewrite K. destruct (Three j Hj) as [-> | [-> | ->]], (Three i Hi) as [-> | [-> | ->]]; reflexivity. }
  pose proof (ct_stage 2 2 1 1 1 1 ltac:(lra) ltac:(lra) ltac:(lra) ltac:(lia) ltac:(lia) ltac:(lia) ltac:(lia) e wit_b _ _ _ dt (Pp (x1 e)) (Pp (x2 e)) (Pp (x3 e)) (fun _ => G1) G2 G3) as CS. cbv zeta in CS.
  rewrite (box_ext_in 2 2 1 (fun k j i => x1 (CT _ _ _ _ _) k j i ^ 2 + _ + _) (fun k j i => (x1 wit_b k j i - dt * C1 1 1 (p (x1 e)) (p (x2 e)) (p (x3 e)) k j i) ^ 2 + (x2 wit_b k j i - dt * C2 1 1 (p (x1 e)) (p (x2 e)) (p (x3 e)) k j i) ^ 2 + (x3 wit_b k j i - dt * C3 1 1 (p (x1 e)) (p (x2 e)) (p (x3 e)) k j i) ^ 2)).
  2:{ intros k j i Hk Hj Hi. destruct (CS k j i Hk Hj Hi) as [-> [-> ->]]. reflexivity. }
  destruct Pb as [B1 [B2 B3]]. rewrite energy_identity by (auto; lra).
  assert (QP : forall f, 0 <= n2of 2 2 1 f) by (intros; apply box_pos; intros; apply pow2_ge_0).
  match goal with |- _ < _ - 2 * dt * ?W + dt * (dt * ?N) => assert (HN : 0 <= N) by (apply Rplus_le_le_0_compat; [apply Rplus_le_le_0_compat|]; apply QP); assert (HW : W < 0); [|assert (0 <= dt * (dt * N)) by (apply Rmult_le_pos; [lra|apply Rmult_le_pos; lra]); nra] end.
  clear - Hdt. pose proof tiny_pos as T. assert (T1 : TINY_NUMBER <= / 100) by (unfold TINY_NUMBER; apply Rinv_le_contravar; lra).
  unfold e. cbv -[Rplus Rmult Rminus Ropp Rinv Rdiv IZR TINY_NUMBER Rlt]. set (t := TINY_NUMBER) in *. clearbody t.
  match goal with |- ?W < 0 => replace W with (52 - 48 / (5 / 4 + t) - 32 / (2 + t)) by (field; lra) end.
  assert (A : 48 / (5 / 4 + / 100) <= 48 / (5 / 4 + t)) by (apply Rmult_le_compat_l; [lra|]; apply Rinv_le_contravar; lra). assert (B : 32 / (2 + / 100) <= 32 / (2 + t)) by (apply Rmult_le_compat_l; [lra|]; apply Rinv_le_contravar; lra). lra.
Qed.
Print Assumptions C82_ambipolar_refuted.
(** The hypotheses can be met: an alternating field on a periodic mesh in three dimensions with the largest step the limit allows. *)
Example C82_witness : let b := mkV (fun _ j _ => if Z.even j then 1 else -1) (fun _ _ _ => 0) (fun _ _ i => if Z.even i then 2 else 0) in
  periodic_field 4 2 2 b /\ magnetic_energy 4 2 2 b = 48 /\ 0 < dt_oa (whole 4 2 2) 100 (uniform 1) (uniform 1) (uniform 1) 1 0 (fun _ _ _ => 1) (fun _ _ _ => 0).
Proof.
  cbv zeta. assert (E4 : forall x, Z.even (x + 4) = Z.even x) by (intros; rewrite Z.even_add; destruct (Z.even x); reflexivity). split; [|split].
  - split; [|split]; intros k j i; cbn [x1 x2 x3]; change (Z.of_nat 4) with 4%Z; change (Z.of_nat 2) with 2%Z; rewrite ?even2, ?E4; auto.
  - unfold magnetic_energy, box_sum, row_sum, total. cbn [x1 x2 x3]. change (Z.of_nat 0) with 0%Z. change (Z.of_nat 1) with 1%Z. change (Z.of_nat 2) with 2%Z. change (Z.of_nat 3) with 3%Z. cbn [Z.even]. ring.
  - pose proof tiny_pos as T. unfold dt_oa. assert (PA : posR 1 = true) by (unfold posR; destruct (Rlt_dec 0 1); auto; lra). rewrite PA.
    assert (G : forall (g : R -> Z -> R) l, (forall x a, 0 < x -> 0 < g x a) -> forall x0, 0 < x0 -> 0 < fold_left g l x0) by (intros g l Hg; induction l; intros; simpl; auto).
    apply G; [|lra]. intros. apply G; auto. intros. apply G; auto. intros x2 i Hx2. cbn [orb]. apply Rmin_pos; auto. unfold eta_total. rewrite PA.
    assert (PZ : posR 0 = false) by (unfold posR; destruct (Rlt_dec 0 0); auto; lra). rewrite PZ. apply Rmult_lt_0_compat; [|apply Rinv_0_lt_compat; lra].
    unfold fac, len, uniform. change (f3 (whole 4 2 2)) with true. change (f2 (whole 4 2 2)) with true. rewrite !Rmin_left by (rewrite ?Rmin_left; lra). lra.
Qed.
