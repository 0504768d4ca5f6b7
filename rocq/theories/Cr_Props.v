(** C88: cosmic rays. *)
From Coq Require Import Reals ZArith List Bool Lra Lia Psatz.
From Verif Require Import Fv_Model Fv_Spec Met_Model Met_Spec Met_Proofs Met_Proofs4 Met_Props Lud_Model Cr_Model Cr_Spec Cr_Proofs Cr_Proofs2 Cr_Proofs3.
Local Open Scope R_scope.

(** ** Exchange with the gas *)
(** For every time step, however large, the new flux and energy solve the backward-Euler equations of scattering, with the opacities along the grid axes or along and across the field, and nothing else solves them;
    a negative energy is replaced by the old one. *)
Theorem C88_implicit : forall c dt l g u, admissible c dt l g -> let u' := snd (AddSourceTerms c dt l g u) in
  exists s e1, opacity c l s /\ (forall s', opacity c l s' -> s' = s) /\ backward_euler c dt l s (velocity c g) (working c l g) (ec u) (fc u) e1 (fc u') /\
    (forall e2 f2, backward_euler c dt l s (velocity c g) (working c l g) (ec u) (fc u) e2 f2 -> e2 = e1 /\ f2 = fc u') /\
    (0 <= e1 -> ec u' = e1) /\ (e1 < 0 -> ec u' = ec u).
Proof.
  intros c dt l g u H. pose proof H as (_ & _ & _ & D & A & _). destruct (totsigma_ok c l D A) as (O & _ & OU). cbv zeta. unfold AddSourceTerms; cbv zeta.
  destruct (implicit_update c dt l g u) as [E F] eqn:I. exists (totsigma c l), E. cbn [snd fc ec]. refine (conj O (conj OU (conj _ (conj _ (conj _ _))))).
  - apply implicit_ok; [exact H|]. symmetry. exact I.
  - intros e2 f2 B. apply implicit_ok in B; [|exact H]. rewrite I in B. injection B; auto.
  - intro P. rewrite lt_false by exact P. reflexivity.
  - intro P. rewrite lt_true by exact P. reflexivity.
Qed.
Print Assumptions C88_implicit.

(** What the flux loses the gas gains: momentum plus F/vmax is conserved along every axis, whatever the state; density never changes. *)
Theorem C88_momentum : forall c dt l g u n, vmax c <> 0 -> (0 < src_flag c)%Z -> let r := AddSourceTerms c dt l g u in
  nth3 n (mom (fst r)) + nth3 n (fc (snd r)) / vmax c = nth3 n (mom g) + nth3 n (fc u) / vmax c /\ dn (fst r) = dn g.
Proof.
  intros c dt l g u n V S. cbv zeta. unfold AddSourceTerms; cbv zeta. destruct (implicit_update c dt l g u) as [E F]. cbn [fst snd mom fc dn]. assert (Q : (0 <? src_flag c)%Z = true) by (apply Z.ltb_lt; exact S). rewrite Q. split; [|reflexivity].
  destruct (mom g) as [[m1 m2] m3]. destruct (fc u) as [[f1 f2] f3]. destruct F as [[F1 F2] F3]. cbn [zip]. destruct n as [|[|[|n]]]; cbn [nth3]; field; exact V.
Qed.
Print Assumptions C88_momentum.

(** The total energy is conserved as long as neither energy would become negative. *)
Theorem C88_energy : forall c dt l g u s e1, admissible c dt l g -> non_barotropic c = true -> (0 < src_flag c)%Z -> let r := AddSourceTerms c dt l g u in
  opacity c l s -> backward_euler c dt l s (velocity c g) (working c l g) (ec u) (fc u) e1 (fc (snd r)) -> 0 <= e1 <= en g + ec u -> en (fst r) + ec (snd r) = en g + ec u.
Proof.
  intros c dt l g u s e1 H NB S. cbv zeta. intros O B E. pose proof H as (_ & _ & _ & D & A & _). destruct (totsigma_ok c l D A) as (_ & _ & OU). rewrite (OU s O) in B. apply implicit_ok in B; [|exact H].
  revert B. unfold AddSourceTerms; cbv zeta. destruct (implicit_update c dt l g u) as [E0 F] eqn:I. cbn [fst snd en ec fc]. intro B. injection B as <-. assert (Q : (0 <? src_flag c)%Z = true) by (apply Z.ltb_lt; exact S). rewrite NB, Q. cbn [andb].
  rewrite !lt_false by lra. ring.
Qed.
Print Assumptions C88_energy.

(** Without the back reaction the gas is untouched. *)
Theorem C88_passive : forall c dt l g u, (src_flag c <= 0)%Z -> fst (AddSourceTerms c dt l g u) = g.
Proof.
  intros c dt l g u S. unfold AddSourceTerms; cbv zeta. destruct (implicit_update c dt l g u) as [E F]. cbn [fst]. assert (Q : (0 <? src_flag c)%Z = false) by (apply Z.ltb_ge; exact S). rewrite Q, andb_false_r. destruct g; reflexivity.
Qed.
Print Assumptions C88_passive.

(** Cosmic rays carried along with the gas, F = (4/3) v E / vmax, are in equilibrium. *)
Theorem C88_equilibrium : forall c dt l g u, admissible c dt l g -> fc u = scale (4 / 3 * ec u / vmax c) (velocity c g) -> (magnetic c = true -> ec_source l = 0) -> 0 <= ec u -> 0 <= en g ->
  AddSourceTerms c dt l g u = (g, u).
Proof.
  intros c dt l g u H Eq Q E0 G0. pose proof H as (_ & V & _). assert (B : backward_euler c dt l (totsigma c l) (velocity c g) (working c l g) (ec u) (fc u) (ec u) (fc u)).
  { assert (SL : forall s ax, slip c (velocity c g) s (if magnetic c then ec u - dt * ec_source l else ec u) (fc u) ax = 0).
    { intros s ax. replace (if magnetic c then ec u - dt * ec_source l else ec u) with (ec u) by (destruct (magnetic c); [rewrite Q by reflexivity; ring|reflexivity]). unfold slip. rewrite Eq. destruct (velocity c g) as [[v1 v2] v3]. destruct ax as [[a1 a2] a3]. cbn [scale dot]. field. lra. }
    unfold backward_euler; cbv zeta. split.
    - intros n _. rewrite SL. ring.
    - rewrite !SL. destruct (magnetic c); [rewrite Q by reflexivity|]; ring. }
  apply implicit_ok in B; [|exact H]. unfold AddSourceTerms; cbv zeta. rewrite <- B. replace (en g - (ec u - ec u)) with (en g) by ring. rewrite !lt_false by lra.
  f_equal.
  - destruct g as [d [[m1 m2] m3] e]. cbn [dn mom en]. f_equal.
    + destruct (0 <? src_flag c)%Z; [|reflexivity]. destruct (fc u) as [[f1 f2] f3]. cbn [zip]. f_equal; [f_equal|]; ring.
    + destruct (non_barotropic c && (0 <? src_flag c)%Z); reflexivity.
  - destruct u; reflexivity.
Qed.
Print Assumptions C88_equilibrium.

(** A case: no field, gas moving at half the limiting speed, opacity 1 along x, time step 1. *)
Definition wind : config := mkConfig false true 0 1 1 (1 / 100).
Definition air : gas := mkGas 1 (1 / 2, 0, 0) 1.
Definition fog : cell := mkCell (1, 0, 0) (0, 0, 0) (0, 0, 0) (0, 0, 0, 0) 0.
Lemma wind_velocity : velocity wind air = (1 / 2, 0, 0).
Proof. unfold velocity, wind, air; cbn [dn rho_floor mom]. rewrite Rmax_left by lra. cbn [scale]. f_equal; [f_equal|]; field. Qed.
Example C88_wind_ok : admissible wind 1 fog air.
Proof.
  unfold admissible. assert (W : working wind fog air = (1 / 2, 0, 0)) by exact wind_velocity. rewrite W, wind_velocity. unfold slow, wind, fog; cbn. rewrite !Rabs_pos_eq by lra. repeat split; try lra; try discriminate.
Qed.
(** The same with a field along (3/5, 4/5, 0) and streaming. *)
Definition gale : config := mkConfig true true 1 1 10 (1 / 100).
Definition haze : cell := mkCell (2, 5, 5) (1, 7, 7) (3 / 50, 4 / 50, 0) (1, 0, 4 / 5, 3 / 5) (1 / 10).
Example C88_gale_ok : admissible gale 1 haze air.
Proof.
  assert (VE : velocity gale air = (1 / 2, 0, 0)) by exact wind_velocity. unfold admissible. assert (W : working gale haze air = (1 / 2 + 3 / 50, 0 + 4 / 50, 0 + 0)) by (unfold working; rewrite VE; reflexivity). rewrite W, VE. unfold slow, gale, haze; cbn. rewrite Rabs_pos_eq by lra. repeat split; try lra; intros; lra.
Qed.

Lemma wind_update : forall f, implicit_update wind 1 fog air (mkRays 1 (f, 0, 0)) = (6 / 5 * (1 - f / 4), (f / 2 + (2 / 5) * (1 - f / 4), 0, 0)).
Proof.
  intro f. unfold implicit_update; cbv zeta. rewrite velocity_eq, wind_velocity. unfold wind, fog, totsigma, streaming; cbn [stream_flag Z.eqb negb sigma_diff magnetic vmax ec fc]. unfold eliminate; cbv zeta. f_equal; [field|]. f_equal; [f_equal|]; field.
Qed.
(** Finding: when the gas has less energy than the cosmic rays take, the gas keeps all of it and the cosmic rays take it as well... *)
Theorem C88_energy_gas_refuted : exists c dt l g u, admissible c dt l g /\ non_barotropic c = true /\ (0 < src_flag c)%Z /\ 0 < en g /\ 0 < ec u /\
  let r := AddSourceTerms c dt l g u in en (fst r) = en g /\ ec (snd r) > 4 * ec u.
Proof.
  exists wind, 1, fog, air, (mkRays 1 (-10, 0, 0)). split; [exact C88_wind_ok|]. split; [reflexivity|]. split; [reflexivity|]. split; [cbn; lra|]. split; [cbn; lra|]. cbv zeta. unfold AddSourceTerms; cbv zeta. rewrite wind_update. cbn [fst snd en ec non_barotropic src_flag wind Z.ltb Z.compare andb air].
  rewrite lt_true by lra. rewrite lt_false by lra. split; [reflexivity|lra].
Qed.
Print Assumptions C88_energy_gas_refuted.
(** ... and when the cosmic rays would give more than they have, the gas receives all of it and the cosmic rays keep what they had. *)
Theorem C88_energy_rays_refuted : exists c dt l g u, admissible c dt l g /\ non_barotropic c = true /\ (0 < src_flag c)%Z /\ 0 < en g /\ 0 < ec u /\
  let r := AddSourceTerms c dt l g u in ec (snd r) = ec u /\ en (fst r) > en g + 2 * ec u.
Proof.
  exists wind, 1, fog, air, (mkRays 1 (10, 0, 0)). split; [exact C88_wind_ok|]. split; [reflexivity|]. split; [reflexivity|]. split; [cbn; lra|]. split; [cbn; lra|]. cbv zeta. unfold AddSourceTerms; cbv zeta. rewrite wind_update. cbn [fst snd en ec non_barotropic src_flag wind Z.ltb Z.compare andb air].
  rewrite lt_true by lra. rewrite lt_false by lra. split; [reflexivity|lra].
Qed.
Print Assumptions C88_energy_rays_refuted.

(** ** The direction of the field *)
(** With streaming the default opacity sets proper angles, aligned with the field (when its components are not negligible). *)
Theorem C88_angles : forall c old b1 b2 b3, magnetic c = true -> (0 < stream_flag c)%Z -> let a := DefaultOpacity_angle c old (b1, b2, b3) in
  unit_angles a /\ (TINY < sqrt (b1 * b1 + b2 * b2) \/ (b1 = 0 /\ b2 = 0) -> TINY < sqrt (b1 * b1 + b2 * b2 + b3 * b3) -> (b1, b2, b3) = scale (sqrt (b1 * b1 + b2 * b2 + b3 * b3)) (axis true a 1)).
Proof.
  intros c old b1 b2 b3 M S. cbv zeta. unfold DefaultOpacity_angle. assert (Q : (0 <? stream_flag c)%Z = true) by (apply Z.ltb_lt; exact S). rewrite M, Q. cbn [andb]. split; [apply angles_unit|intros; apply angles_aligned; assumption].
Qed.
Print Assumptions C88_angles.
Example C88_angles_case : TINY < sqrt (3 * 3 + 4 * 4) /\ TINY < sqrt (3 * 3 + 4 * 4 + 12 * 12).
Proof.
  replace (3 * 3 + 4 * 4 + 12 * 12) with (13 * 13) by ring. replace (3 * 3 + 4 * 4) with (5 * 5) by ring. rewrite !sqrt_square by lra. assert (TINY < 1) by (unfold TINY; rewrite <- Rinv_1; apply Rinv_lt_contravar; [rewrite Rmult_1_l; apply pow_lt; lra|apply Rlt_pow_R1; [lra|lia]]). lra.
Qed.
(** Finding: with a magnetic field but without streaming nothing sets the angles; they stay zero, and one source step, even of no duration, removes the whole flux and gives it to the gas. *)
Theorem C88_no_streaming_refuted : forall c dt sd sa va q b g u, magnetic c = true -> stream_flag c = 0%Z -> (0 < src_flag c)%Z -> vmax c <> 0 ->
  let l := mkCell sd sa va (DefaultOpacity_angle c (0, 0, 0, 0) b) q in let r := AddSourceTerms c dt l g u in
  fc (snd r) = (0, 0, 0) /\ forall n, nth3 n (mom (fst r)) = nth3 n (mom g) + nth3 n (fc u) / vmax c.
Proof.
  intros c dt s0 sa va q b g u M S0 S V. cbv zeta. set (l := mkCell s0 sa va (DefaultOpacity_angle c (0, 0, 0, 0) b) q).
  assert (F : fc (snd (AddSourceTerms c dt l g u)) = (0, 0, 0)).
  { unfold AddSourceTerms; cbv zeta. unfold implicit_update; cbv zeta. rewrite M. assert (BA : b_angle l = (0, 0, 0, 0)) by (unfold l, DefaultOpacity_angle; cbn [b_angle]; rewrite M, S0; reflexivity). rewrite BA.
    destruct (rotate (0, 0, 0, 0) (if streaming c then zip Rplus _ (v_adv l) else _)) as [[? ?] ?]. destruct (eliminate _ _ _ _ _ _ _) as [E [[F1 F2] F3]]. cbn [snd fc unrotate InvRotateVec]. f_equal; [f_equal|]; ring. }
  split; [exact F|]. intro n. destruct (C88_momentum c dt l g u n V S) as (P & _). rewrite F in P. rewrite <- P. destruct n as [|[|[|n]]]; cbn [nth3]; field; exact V.
Qed.
Print Assumptions C88_no_streaming_refuted.

(** Streaming runs along the field at the Alfven speed, down the gradient of the pressure, and its opacity is the one for which the flux relative to the gas is that of the streaming population. *)
Theorem C88_streaming : forall c mo rho b g e old, (0 < stream_flag c)%Z -> 0 < rho -> vmax c <> 0 -> 0 < e -> let '(va, sa) := DefaultStreaming c mo rho b g e old in
  dot va g <= 0 /\ (exists k, va = scale k b) /\
  (TINY < Rabs (dot b g) -> dot va va = dot b b / rho) /\ (dot b g = 0 -> va = (0, 0, 0)) /\
  (TINY < Rabs (dot b g) -> TINY < sqrt (dot b b) / sqrt rho -> nth3 1 sa * (dot va va * (4 / 3 * e / vmax c)) = - dot va g).
Proof.
  intros c mo rho [[b1 b2] b3] [[g1 g2] g3] e old S P V E. unfold DefaultStreaming; cbv zeta. assert (Q : (0 <? stream_flag c)%Z = true) by (apply Z.ltb_lt; exact S). rewrite Q. cbn [dot].
  pose proof TINY_pos as T. set (bg := b1 * g1 + b2 * g2 + b3 * g3). assert (SR : 0 < sqrt rho) by (apply sqrt_lt_R0; exact P). pose proof (sqrt_sqrt rho (Rlt_le _ _ P)) as RR. set (sr := sqrt rho) in *.
  set (sg := if lt TINY bg then 1 else if lt TINY (- bg) then -1 else 0).
  assert (G : (bg * sg >= 0) /\ (TINY < Rabs bg -> sg * sg = 1 /\ bg * sg = Rabs bg) /\ (bg = 0 -> sg = 0)).
  { unfold sg. destruct (lt_case TINY bg) as [(-> & L)|(-> & L)]. { split; [lra|]. split; [intros _; split; [ring|rewrite Rabs_pos_eq by lra; ring]|intro; lra]. }
    destruct (lt_case TINY (- bg)) as [(-> & L2)|(-> & L2)]. { split; [lra|]. split; [intros _; split; [ring|rewrite Rabs_left1 by lra; ring]|intro; lra]. }
    split; [lra|]. split; [|reflexivity]. intro A. exfalso. assert (Rabs bg <= TINY) by (apply Rabs_le; lra). lra. }
  destruct G as (G1 & G2 & G3). clearbody sg. assert (DG : - (b1 * (1 / sr)) * sg * g1 + - (b2 * (1 / sr)) * sg * g2 + - (b3 * (1 / sr)) * sg * g3 = - (bg * sg / sr)) by (unfold bg; field; lra).
  assert (DD : - (b1 * (1 / sr)) * sg * (- (b1 * (1 / sr)) * sg) + - (b2 * (1 / sr)) * sg * (- (b2 * (1 / sr)) * sg) + - (b3 * (1 / sr)) * sg * (- (b3 * (1 / sr)) * sg) = sg * sg * ((b1 * b1 + b2 * b2 + b3 * b3) / (sr * sr))) by (field; lra).
  refine (conj _ (conj _ (conj _ (conj _ _)))).
  - rewrite DG. assert (0 <= bg * sg / sr) by (unfold Rdiv; apply Rmult_le_pos; [lra|left; apply Rinv_0_lt_compat; exact SR]). lra.
  - exists (- (1 / sr) * sg). cbn [scale]. f_equal; [f_equal|]; ring.
  - intro A. destruct (G2 A) as (A1 & _). rewrite DD, A1, RR. ring.
  - intro A. rewrite (G3 A). f_equal; [f_equal|]; ring.
  - intros A W. destruct (G2 A) as (A1 & A2). rewrite DG, DD, A1, A2. set (q := sqrt (b1 * b1 + b2 * b2 + b3 * b3)) in *. assert (QQ : q * q = b1 * b1 + b2 * b2 + b3 * b3) by (apply sqrt_sqrt; nra).
    assert (q * (1 / sr) = q / sr) by (unfold Rdiv; ring). rewrite lt_true by (rewrite H; exact W). cbn [nth3]. rewrite <- QQ.
    assert (q <> 0). { intro Z. rewrite Z in W. unfold Rdiv in W. rewrite Rmult_0_l in W. lra. } field. repeat split; lra.
Qed.
Print Assumptions C88_streaming.

(** The explicit part of the work is that of the gas velocity against the pressure gradient, both perpendicular to the field. *)
Theorem C88_perpendicular_work : forall a v p, unit_angles a -> let b := axis true a 1 in perpendicular_work a v p = dot v p - dot v b * dot p b.
Proof.
  intros [[[st ct] sp] cp] [[v1 v2] v3] [[p1 p2] p3] (H1 & H2). cbv zeta. unfold perpendicular_work, rotate, RotateVec; cbv zeta. cbn [axis dot]. assert (E1 : ct * ct = 1 - st * st) by lra. assert (E2 : cp * cp = 1 - sp * sp) by lra.
  transitivity ((sp * sp * v1 * p1 - sp * cp * (v1 * p2 + v2 * p1) + (cp * cp) * v2 * p2) + ((ct * ct) * (cp * v1 + sp * v2) * (cp * p1 + sp * p2) - ct * st * ((cp * v1 + sp * v2) * p3 + v3 * (cp * p1 + sp * p2)) + st * st * v3 * p3)); [ring|].
  transitivity (v1 * p1 + v2 * p2 + v3 * p3 - (st * st * (cp * v1 + sp * v2) * (cp * p1 + sp * p2) + st * ct * ((cp * v1 + sp * v2) * p3 + v3 * (cp * p1 + sp * p2)) + (ct * ct) * v3 * p3)); [|ring].
  rewrite E1. transitivity ((sp * sp + cp * cp) * (v1 * p1 + v2 * p2) - st * st * (cp * v1 + sp * v2) * (cp * p1 + sp * p2) - ct * st * ((cp * v1 + sp * v2) * p3 + v3 * (cp * p1 + sp * p2)) + st * st * v3 * p3); [ring|rewrite H2; ring].
Qed.
Print Assumptions C88_perpendicular_work.

(** ** Fluxes between cells *)
(** The flux is the two-speed flux of Harten, Lax and van Leer; signal speeds never exceed vmax/sqrt 3. *)
Theorem C88_flux : forall fdir vm l r n, (1 <= fdir <= 3)%nat -> (n <= 3)%nat -> 0 < vm -> let bp := fastest_right vm l r in let bm := fastest_left vm l r in
  0 <= bp <= vm * sqrt (1 / 3) /\ - (vm * sqrt (1 / 3)) <= bm <= 0 /\
  (TINY < bp - bm -> comp n (CRFlux fdir vm l r) = hll bp bm (comp n (physical fdir vm (sE l) (sF l))) (comp n (physical fdir vm (sE r) (sF r))) (comp n (sE l, sF l)) (comp n (sE r, sF r))).
Proof.
  intros fdir vm l r n F N V. cbv zeta. destruct (speeds_bounds vm l r V) as (B1 & B2). split; [exact B1|]. split; [exact B2|]. intro H. rewrite CRFlux_comp by assumption. apply blend_hll. exact H.
Qed.
Print Assumptions C88_flux.
(** Between equal states it is the flux of that state, exactly if the diffusion speed is not negligible and to a negligible amount otherwise. *)
Theorem C88_flux_consistent : forall fdir vm w n, (1 <= fdir <= 3)%nat -> (n <= 3)%nat -> 0 < vm ->
  Rabs (comp n (CRFlux fdir vm w w) - comp n (physical fdir vm (sE w) (sF w))) <= TINY / 2 * Rabs (comp n (sE w, sF w)) /\
  (TINY < sd w -> TINY < vm * sqrt (1 / 3) -> comp n (CRFlux fdir vm w w) = comp n (physical fdir vm (sE w) (sF w))).
Proof.
  intros fdir vm w n F N V. destruct (speeds_bounds vm w w V) as (B1 & B2). rewrite CRFlux_comp by assumption.
  destruct (blend_same (fastest_right vm w w) (fastest_left vm w w) (comp n (physical fdir vm (sE w) (sF w))) (comp n (state w)) ltac:(lra)) as (H1 & H2). split; [exact H1|]. intros D C. apply H2. apply fastest_gap; assumption.
Qed.
Print Assumptions C88_flux_consistent.
(** If all signals move one way the flux is that of the side they come from. *)
Theorem C88_flux_upwind : forall fdir vm l r n, (1 <= fdir <= 3)%nat -> (n <= 3)%nat -> 0 < vm ->
  (fastest_left vm l r = 0 -> TINY < fastest_right vm l r -> comp n (CRFlux fdir vm l r) = comp n (physical fdir vm (sE l) (sF l))) /\
  (fastest_right vm l r = 0 -> fastest_left vm l r < - TINY -> comp n (CRFlux fdir vm l r) = comp n (physical fdir vm (sE r) (sF r))).
Proof.
  intros fdir vm l r n F N V. pose proof TINY_pos as T. split; intros H G; rewrite CRFlux_comp by assumption; rewrite H; rewrite blend_hll by lra; unfold hll; field; lra.
Qed.
Print Assumptions C88_flux_upwind.
(** Seen in a mirror parallel to the face: the pressure flux of the normal component is the same, every other flux is reversed. *)
Theorem C88_flux_mirror : forall fdir vm l r n, (1 <= fdir <= 3)%nat -> (n <= 3)%nat ->
  comp n (CRFlux fdir vm (mirror fdir r) (mirror fdir l)) = if Nat.eqb n fdir then comp n (CRFlux fdir vm l r) else - comp n (CRFlux fdir vm l r).
Proof.
  intros fdir vm l r n F N. rewrite !CRFlux_comp by assumption. destruct (mirror_speeds fdir vm l r) as (-> & ->). set (bp := fastest_right vm l r). set (bm := fastest_left vm l r). clearbody bp bm.
  destruct l as [el [[l1 l2] l3] vl dl]. destruct r as [er [[r1 r2] r3] vr dr]. assert (Fq : fdir = 1%nat \/ fdir = 2%nat \/ fdir = 3%nat) by lia. assert (Nq : n = 0%nat \/ n = 1%nat \/ n = 2%nat \/ n = 3%nat) by lia.
  destruct Fq as [->|[->| ->]]; destruct Nq as [->|[->|[->| ->]]]; unfold state, mirror; cbn [sE sF sv sd comp physical nth3 fst snd Nat.eqb].
  all: match goal with |- _ = - _ => rewrite <- (proj2 (blend_mirror _ _ _ _ _ _)); f_equal; ring | |- _ => rewrite <- (proj1 (blend_mirror bp bm _ _ _ _)); reflexivity end.
Qed.
Print Assumptions C88_flux_mirror.
Example C88_flux_case : let a := mkSide 3 (1, 2, 0) (1 / 10) (1 / 5) in TINY < sd a /\ fastest_left 10 (mkSide 3 (1, 2, 0) 1 (1 / 5)) (mkSide 4 (1, 2, 0) 1 (1 / 5)) = 0.
Proof.
  assert (TINY < 1 / 5). { unfold TINY. apply Rlt_trans with (/ 10 ^ 1); [apply Rinv_lt_contravar; [apply Rmult_lt_0_compat; apply pow_lt; lra|apply Rlt_pow; [lra|lia]]|lra]. }
  cbv zeta. split; [cbn; exact H|]. unfold fastest_left; cbn [sv sd]. apply Rmin_left. apply Rle_trans with (1 - 1 / 5); [lra|]. replace ((1 + 1) / 2 - (1 / 5 + 1 / 5) / 2) with (1 - 1 / 5) by field. rewrite (Rmin_left (1 - 1 / 5)) by lra. apply Rmax_r.
Qed.

(** The diffusion speed is positive and at most vmax/sqrt 3, which it is when the cell is transparent. *)
Theorem C88_diffusion_speed : forall vm tf s w, 0 < vm -> 0 <= tf * s * w -> 0 < diffusion_speed vm tf s w <= vm * sqrt (1 / 3) /\ diffusion_speed vm tf 0 w = vm * sqrt (1 / 3).
Proof. intros. split; [apply diffusion_bounds; assumption|apply diffusion_free]. Qed.
Print Assumptions C88_diffusion_speed.
(** Finding: with a magnetic field the three speeds are rotated as if they were the components of a vector.  In a transparent medium, where signals run at vmax/sqrt 3 in every direction, the speed along x is
    zero for a field at 45 degrees to it. *)
Theorem C88_diffusion_speed_refuted : exists c l b, magnetic c = true /\ (0 < stream_flag c)%Z /\ b_angle l = DefaultOpacity_angle c (0, 0, 0, 0) b /\ sigma_diff l = (0, 0, 0) /\ 0 < vmax c /\
  forall tf w, nth3 1 (v_diff c tf l w) = 0.
Proof.
  exists gale, (mkCell (0, 0, 0) (0, 0, 0) (0, 0, 0) (DefaultOpacity_angle gale (0, 0, 0, 0) (1, 1, 0)) 0), (1, 1, 0). split; [reflexivity|]. split; [reflexivity|]. split; [reflexivity|]. split; [reflexivity|]. split; [cbn; lra|].
  intros tf [[w1 w2] w3]. unfold v_diff, totsigma; cbn [magnetic gale sigma_diff sigma_adv b_angle streaming stream_flag Z.eqb negb zip].
  assert (SZ : series 0 0 = 0) by (unfold series; destruct (Req_EM_T 0 0); [reflexivity|lra]). rewrite SZ, !diffusion_free. unfold DefaultOpacity_angle, angles; cbn [magnetic gale stream_flag Z.ltb Z.compare andb]. cbv zeta.
  assert (T1 : TINY < sqrt 1) by (rewrite sqrt_1; unfold TINY; rewrite <- Rinv_1; apply Rinv_lt_contravar; [rewrite Rmult_1_l; apply pow_lt; lra|apply Rlt_pow_R1; [lra|lia]]).
  assert (T2 : TINY < sqrt (1 * 1 + 1 * 1)) by (eapply Rlt_le_trans; [exact T1|apply sqrt_le_1_alt; lra]). assert (T3 : TINY < sqrt (1 * 1 + 1 * 1 + 0 * 0)) by (eapply Rlt_le_trans; [exact T1|apply sqrt_le_1_alt; lra]).
  rewrite !lt_true by assumption. replace (1 * 1 + 1 * 1 + 0 * 0) with (1 * 1 + 1 * 1) in * by ring. pose proof TINY_pos. set (q := sqrt (1 * 1 + 1 * 1)) in *. set (p := sqrt (1 / 3)). clearbody q p.
  cbn [unrotate InvRotateVec vmax nth3]. match goal with |- Rabs ?x = 0 => replace x with 0; [apply Rabs_R0|field; lra] end.
Qed.
Print Assumptions C88_diffusion_speed_refuted.

(** ** A uniform population at rest *)
(** In all three coordinate systems, in one, two and three dimensions and next to axis and poles, the flux divergence and the geometric source cancel: the population stays uniform and at rest. *)
Theorem C88_uniform : forall s d g vm wght e f out n k j i, nonempty d -> proper_block s d g -> is_active d k j i -> uniform_fluxes vm e f -> (n <= 3)%nat -> (n = 0%nat -> TINY <= out n k j i) ->
  FluxDivergence s g d vm wght f (fun _ _ _ => e) out n k j i = out n k j i.
Proof. intros; apply uniform_kept; assumption. Qed.
Print Assumptions C88_uniform.

(** Every row sees its own pressure gradient: flux divergence over vmax, less the coordinate term of that row once, although each earlier row subtracted that term over the whole block. *)
Theorem C88_gradient : forall s g d vm f e stale rows n k j i, vm <> 0 -> is_active d k j i ->
  grad_row s g d vm f e (grad_rows s g d vm f e stale rows) k j n k j i =
  dflx s g d f (S n) k j i / GetCellVolume s g k j i / vm - match n, s with 0%nat, cylindrical => coord_src1_i s g i * (e k j i / 3) | 0%nat, spherical_polar => coord_src1_i s g i * (2 / 3 * e k j i) | _, _ => 0 end.
Proof.
  intros s g d vm f e stale rows n k j i V Ha. apply active_iff in Ha. unfold grad_row, CRGradPcCoordTermsDivergence, dflx; cbv zeta. rewrite !Z.eqb_refl, Ha. cbn [andb]. destruct s, n; destruct (Z.ltb 1 (nx2 d)), (Z.ltb 1 (nx3 d)); unfold Rdiv; ring.
Qed.
Print Assumptions C88_gradient.
(** In Cartesian and cylindrical coordinates a uniform population has no pressure gradient, and none in spherical-polar coordinates along r and phi. *)
Theorem C88_no_gradient : forall s d g vm e f stale n k j i, vm <> 0 -> nonempty d -> proper_block s d g -> is_active d k j i -> uniform_fluxes vm e f -> (n < 3)%nat -> (s = spherical_polar -> n <> 1%nat) ->
  grad_row s g d vm f (fun _ _ _ => e) stale k j n k j i = 0.
Proof. intros s d g vm e f stale n k j i V N B Ha U Nn Q. rewrite (grad_uniform s d g vm e f stale n k j i V N B Ha U Nn). destruct s; try reflexivity. destruct n as [|[|n]]; try reflexivity. destruct (Q eq_refl eq_refl). Qed.
Print Assumptions C88_no_gradient.
(** Finding: in spherical-polar coordinates the term cot(theta)/r is missing, so a uniform population has a pressure gradient along theta wherever the two theta faces of a cell have different sines, and cosmic rays
    stream along theta at the Alfven speed. *)
Theorem C88_spherical_gradient_refuted : forall d g vm e f stale k j i, vm <> 0 -> nonempty d -> proper_block spherical_polar d g -> is_active d k j i -> uniform_fluxes vm e f -> 0 < e -> sin (x2f g j) <> sin (x2f g (j + 1)%Z) ->
  let p := grad_row spherical_polar g d vm f (fun _ _ _ => e) stale k j in p 1%nat k j i <> 0 /\
  forall c mo rho b old, (0 < stream_flag c)%Z -> 0 < rho -> TINY < Rabs (b * p 1%nat k j i) -> let va := fst (DefaultStreaming c mo rho (0, b, 0) (p 0%nat k j i, p 1%nat k j i, p 2%nat k j i) e old) in Rabs (nth3 2 va) = Rabs b / sqrt rho.
Proof.
  intros d g vm e f stale k j i V N B Ha U E H. cbv zeta. pose proof (grad_uniform spherical_polar d g vm e f stale 1 k j i V N B Ha U ltac:(lia)) as G. cbn [Nat.eqb] in G.
  pose proof B as (A & P & _). specialize (P k j i Ha). pose proof (vi_pos _ g k j i A P) as Hv. pose proof (vj_pos _ g k j i A P) as Hj. unfold vi, vj in Hv, Hj. destruct (sines g k j i P) as (S1 & S2 & _). pose proof P as (L1 & _ & _ & Rk & _). cbn [radius_ok] in Rk. split.
  - rewrite G. assert (0 < coord_area2_i g i) by (unfold coord_area2_i; nra). assert (C1 : coord_src1_i spherical_polar g i <> 0) by (unfold coord_src1_i; apply Rgt_not_eq; apply Rdiv_lt_0_compat; lra).
    assert (C2 : coord_src1_j g j <> 0). { unfold coord_src1_j. rewrite S1, S2. apply Rmult_integral_contrapositive_currified; [lra|apply Rinv_neq_0_compat; lra]. }
    apply Rmult_integral_contrapositive_currified; [apply Rmult_integral_contrapositive_currified; assumption|lra].
  - intros c mo rho b old S R T. set (q := grad_row spherical_polar g d vm f (fun _ _ _ => e) stale k j 1%nat k j i) in *. clearbody q. unfold DefaultStreaming; cbv zeta. assert (Q : (0 <? stream_flag c)%Z = true) by (apply Z.ltb_lt; exact S). rewrite Q. cbn [fst nth3].
    assert (SR : 0 < sqrt rho) by (apply sqrt_lt_R0; exact R). match goal with |- context [lt TINY ?x] => replace x with (b * q) by ring end.
    set (sg := if lt TINY (b * q) then 1 else if lt TINY (- (b * q)) then -1 else 0). assert (SG : Rabs sg = 1).
    { unfold sg. destruct (lt_case TINY (b * q)) as [(-> & _)|(-> & L)]; [apply Rabs_R1|]. destruct (lt_case TINY (- (b * q))) as [(-> & _)|(-> & L2)]; [rewrite Rabs_left by lra; ring|]. exfalso. assert (Rabs (b * q) <= TINY) by (apply Rabs_le; lra). lra. }
    clearbody sg. rewrite Rabs_mult, SG, Rabs_Ropp, Rabs_mult. rewrite (Rabs_pos_eq (1 / sqrt rho)) by (left; apply Rdiv_lt_0_compat; lra). unfold Rdiv. ring.
Qed.
Print Assumptions C88_spherical_gradient_refuted.
Definition calm (vm e : R) : fluxes := mkFluxes (fun n _ _ _ => comp n (physical 1 vm e (0, 0, 0))) (fun n _ _ _ => comp n (physical 2 vm e (0, 0, 0))) (fun n _ _ _ => comp n (physical 3 vm e (0, 0, 0))).
Example C88_ball : nonempty ball /\ proper_block spherical_polar ball (ball_grid 2) /\ is_active ball 2 2 2 /\ uniform_fluxes 100 3 (calm 100 3) /\ sin (x2f (ball_grid 2) 2) <> sin (x2f (ball_grid 2) (2 + 1)%Z).
Proof.
  destruct C50_ball as (N & B & _). split; [exact N|]. split; [exact B|]. split; [unfold is_active, ball; cbn; lia|]. split; [intros n k j i; repeat split|]. unfold ball_grid; cbn [x2f]. change (2 - 2)%Z with 0%Z. change (2 + 1 - 2)%Z with 1%Z.
  replace (PI * (0 / 4)) with 0 by field. rewrite sin_0. replace (PI * (1 / 4)) with (PI / 4) by field. apply Rlt_not_eq. apply sin_gt_0; pose proof PI_RGT_0; lra.
Qed.
