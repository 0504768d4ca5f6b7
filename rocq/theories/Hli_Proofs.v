(** Proofs for C94. *)
From Coq Require Import Reals Lra Bool.
From Verif Require Import Time_Model Time_Proofs Eos_Model Eos_Proofs Eos_Props Rie_Model Rie_Spec Rie_Proofs Rie_Proofs2 Rie_Proofs3 Hli_Model Hli_Spec.
Local Open Scope R_scope.

Lemma iso_cons_eq m : iso_cons m = conserved m.
Proof. unfold iso_cons, conserved. apply mcons_eq; [apply cons_eq | |]; ring. Qed.
Lemma iso_flux_eq c bx m : iso_flux c bx m = physical_mhd (Iso c) bx m.
Proof. unfold iso_flux, physical_mhd, mP, P, iso_cons, SQR. cbn [gasf u_m1 u_m2 u_m3 f_by f_bz]. cbv zeta. apply mcons_eq; [apply cons_eq | |]; field. Qed.

Lemma cfast_alfven c bx m : 0 < c -> 0 < w_d (gas m) -> Rabs bx / sqrt (w_d (gas m)) <= cfast (Iso c) bx m.
Proof.
  intros C D. unfold cfast. destruct (C61_fast_speed (c * c * w_d (gas m)) (w_d (gas m)) bx (m_by m) (m_bz m) ltac:(nra) D) as (N & _ & _ & _ & B). cbv zeta in N, B.
  set (cf := FastMagnetosonicSpeed _ _ _ _ _) in *. pose proof (sqrt_lt_R0 _ D) as Q. pose proof (sqrt_sqrt _ (Rlt_le _ _ D)) as QQ. set (q := sqrt (w_d (gas m))) in *.
  apply (Rmult_le_reg_r q); [exact Q | ]. replace (Rabs bx / q * q) with (Rabs bx) by (field; lra). apply Rsqr_incr_0_var; [ | nra]. rewrite <- Rsqr_abs. unfold Rsqr.
  assert (B2 : bx ^ 2 + m_by m ^ 2 + m_bz m ^ 2 <= w_d (gas m) * cf ^ 2).
  { apply (Rmult_le_reg_r (/ w_d (gas m))); [apply Rinv_0_lt_compat; exact D | ]. replace (w_d (gas m) * cf ^ 2 * / w_d (gas m)) with (cf ^ 2) by (field; lra). exact B. }
  pose proof (pow2_ge_0 (m_by m)). pose proof (pow2_ge_0 (m_bz m)). nra.
Qed.

Section Fan.
Variables (c dfloor bx : R) (ml mr : mprim).
Hypothesis C : 0 < c.
Hypothesis Dl : 0 < w_d (gas ml).
Hypothesis Dr : 0 < w_d (gas mr).
Notation f := (fan_of c dfloor bx ml mr).

Lemma outer : spd_0 f <= w_vx (gas ml) - cfast (Iso c) bx ml /\ spd_0 f <= w_vx (gas mr) - cfast (Iso c) bx mr /\
  w_vx (gas ml) + cfast (Iso c) bx ml <= spd_4 f /\ w_vx (gas mr) + cfast (Iso c) bx mr <= spd_4 f /\ 0 < cfast (Iso c) bx ml /\ 0 < cfast (Iso c) bx mr.
Proof using C Dl Dr.
  unfold fan_of. cbn [spd_0 spd_4]. pose proof (cfast_pos (Iso c) bx ml C (conj Dl I)). pose proof (cfast_pos (Iso c) bx mr C (conj Dr I)).
  set (p := cfast (Iso c) bx ml) in *. set (q := cfast (Iso c) bx mr) in *.
  pose proof (Rmin_l (w_vx (gas ml) - p) (w_vx (gas mr) - q)). pose proof (Rmin_r (w_vx (gas ml) - p) (w_vx (gas mr) - q)).
  pose proof (Rmax_l (w_vx (gas ml) + p) (w_vx (gas mr) + q)). pose proof (Rmax_r (w_vx (gas ml) + p) (w_vx (gas mr) + q)). lra.
Qed.
(** The mean density without the floor. *)
Definition mean_density : R := (w_d (gas mr) * (spd_4 f - w_vx (gas mr)) + w_d (gas ml) * (w_vx (gas ml) - spd_0 f)) / (spd_4 f - spd_0 f).
Lemma dhll_eq : dhll f = Rmax mean_density dfloor.
Proof using. change (dhll f) with (Rmax ((spd_4 f * w_d (gas mr) - spd_0 f * w_d (gas ml) - w_vx (gas mr) * w_d (gas mr) + w_vx (gas ml) * w_d (gas ml)) * (1 / (spd_4 f - spd_0 f))) dfloor). unfold mean_density. apply f_equal2; [ | reflexivity]. unfold Rdiv. ring. Qed.
Lemma mean_pos : 0 < mean_density.
Proof using C Dl Dr. pose proof outer. unfold mean_density. apply Rdiv_lt_0_compat; nra. Qed.
Lemma dhll_pos : 0 < dhll f.
Proof using C Dl Dr. rewrite dhll_eq. pose proof mean_pos. pose proof (Rmax_l mean_density dfloor). lra. Qed.

Hypothesis Floor : dfloor <= mean_density.
Lemma dhll_mean : dhll f = mean_density.
Proof using Floor. rewrite dhll_eq. apply Rmax_left. exact Floor. Qed.
Lemma mass_left : dhll f * (ustar f - spd_0 f) = w_d (gas ml) * (w_vx (gas ml) - spd_0 f).
Proof using C Dl Dr Floor.
  pose proof outer as O. pose proof dhll_pos as D. assert (U : ustar f * dhll f = (spd_4 f * (w_vx (gas ml) * w_d (gas ml)) - spd_0 f * (w_vx (gas mr) * w_d (gas mr)) + spd_4 f * spd_0 f * (w_d (gas mr) - w_d (gas ml))) * (1 / (spd_4 f - spd_0 f))).
  { change (ustar f) with ((spd_4 f * (w_vx (gas ml) * w_d (gas ml)) - spd_0 f * (w_vx (gas mr) * w_d (gas mr)) + spd_4 f * spd_0 f * (w_d (gas mr) - w_d (gas ml))) * (1 / (spd_4 f - spd_0 f)) / dhll f). field. split; lra. }
  pose proof dhll_mean as M. unfold mean_density in M. rewrite Rmult_minus_distr_l, (Rmult_comm (dhll f) (ustar f)), U, M. field. lra.
Qed.
Lemma mass_right : dhll f * (ustar f - spd_4 f) = w_d (gas mr) * (w_vx (gas mr) - spd_4 f).
Proof using C Dl Dr Floor.
  pose proof outer as O. pose proof dhll_pos as D. pose proof mass_left as L. pose proof dhll_mean as M. unfold mean_density in M.
  assert (X : dhll f * (spd_4 f - spd_0 f) = w_d (gas mr) * (spd_4 f - w_vx (gas mr)) + w_d (gas ml) * (w_vx (gas ml) - spd_0 f)) by (rewrite M; field; lra). lra.
Qed.
Lemma between : spd_0 f < ustar f < spd_4 f.
Proof using C Dl Dr Floor. pose proof outer as O. pose proof dhll_pos as D. pose proof mass_left as L. pose proof mass_right as Rr. split; nra. Qed.
Lemma momentum_left : fmxhll f - u_m1 (gasf (iso_flux c bx ml)) = spd_0 f * (mxhll f - w_vx (gas ml) * w_d (gas ml)).
Proof using C Dl Dr.
  pose proof outer as O.
  change (fmxhll f) with ((spd_4 f * u_m1 (gasf (iso_flux c bx ml)) - spd_0 f * u_m1 (gasf (iso_flux c bx mr)) + spd_4 f * spd_0 f * (w_vx (gas mr) * w_d (gas mr) - w_vx (gas ml) * w_d (gas ml))) * (1 / (spd_4 f - spd_0 f))).
  change (mxhll f) with ((spd_4 f * (w_vx (gas mr) * w_d (gas mr)) - spd_0 f * (w_vx (gas ml) * w_d (gas ml)) - u_m1 (gasf (iso_flux c bx mr)) + u_m1 (gasf (iso_flux c bx ml))) * (1 / (spd_4 f - spd_0 f))).
  field. lra.
Qed.
Lemma momentum_right : fmxhll f - u_m1 (gasf (iso_flux c bx mr)) = spd_4 f * (mxhll f - w_vx (gas mr) * w_d (gas mr)).
Proof using C Dl Dr.
  pose proof outer as O.
  change (fmxhll f) with ((spd_4 f * u_m1 (gasf (iso_flux c bx ml)) - spd_0 f * u_m1 (gasf (iso_flux c bx mr)) + spd_4 f * spd_0 f * (w_vx (gas mr) * w_d (gas mr) - w_vx (gas ml) * w_d (gas ml))) * (1 / (spd_4 f - spd_0 f))).
  change (mxhll f) with ((spd_4 f * (w_vx (gas mr) * w_d (gas mr)) - spd_0 f * (w_vx (gas ml) * w_d (gas ml)) - u_m1 (gasf (iso_flux c bx mr)) + u_m1 (gasf (iso_flux c bx ml))) * (1 / (spd_4 f - spd_0 f))).
  field. lra.
Qed.
End Fan.

(** Products of the distances to the Alfven waves. *)
Lemma alfven_product c dfloor bx ml mr s : 0 < dhll (fan_of c dfloor bx ml mr) ->
  let f := fan_of c dfloor bx ml mr in dhll f * ((s - spd_1 f) * (s - spd_3 f)) = dhll f * (s - ustar f) ^ 2 - bx * bx.
Proof.
  intros D f. change (spd_1 f) with (ustar f - Rabs bx / sqrt (dhll f)). change (spd_3 f) with (ustar f + Rabs bx / sqrt (dhll f)). fold f in D. pose proof (sqrt_lt_R0 _ D) as Q. pose proof (sqrt_sqrt _ (Rlt_le _ _ D)) as QQ.
  assert (A : Rabs bx * Rabs bx = bx * bx) by (rewrite <- Rabs_mult; apply Rabs_right; nra).
  set (q := sqrt (dhll f)) in *. assert (X : dhll f * (Rabs bx / q * (Rabs bx / q)) = bx * bx) by (rewrite <- A, <- QQ; field; lra).
  replace (dhll f * ((s - (ustar f - Rabs bx / q)) * (s - (ustar f + Rabs bx / q)))) with (dhll f * (s - ustar f) ^ 2 - dhll f * (Rabs bx / q * (Rabs bx / q))) by ring. rewrite X. reflexivity.
Qed.

(** The jump across an outer wave, outside the degenerate case. *)
Lemma star_jump c bx f s near m : 0 < dhll f -> 1/10000 * c <= Rabs (s - near) -> (s - spd_1 f) * (s - spd_3 f) <> 0 ->
  dhll f * ((s - spd_1 f) * (s - spd_3 f)) = dhll f * (s - ustar f) ^ 2 - bx * bx ->
  dhll f * (ustar f - s) = w_d (gas m) * (w_vx (gas m) - s) -> fmxhll f - u_m1 (gasf (iso_flux c bx m)) = s * (mxhll f - w_vx (gas m) * w_d (gas m)) ->
  jump s (iso_flux c bx m) (iso_cons m) (fan_flux bx (dhll f) (ustar f) (fmxhll f) (iso_star c bx f s near m)) (iso_star c bx f s near m) /\
  u_d (gasf (iso_star c bx f s near m)) = dhll f /\ u_m1 (gasf (iso_star c bx f s near m)) = mxhll f.
Proof.
  intros D Nd T Pr Ms Mo. unfold iso_star. replace (ltR (Rabs (s - near)) (1/10000 * c)) with false by (symmetry; apply ltR_false; exact Nd).
  split; [ | split; reflexivity]. unfold iso_flux, iso_cons in *. cbv zeta in *. cbn [gasf f_by f_bz u_d u_m1 u_m2 u_m3 u_e] in *. set (t := (s - spd_1 f) * (s - spd_3 f)) in *. set (d := dhll f) in *. set (v := ustar f) in *. set (mx := mxhll f) in *. set (fm := fmxhll f) in *.
  set (w := gas m) in *. set (dl := w_d w) in *. set (u := w_vx w) in *. clearbody t d v mx fm dl u.
  assert (Mf : forall vy B, (d * vy - B * (bx * (v - u) / t)) * v - bx * (B * ((dl * SQR (s - u) - bx * bx) / (d * t))) - (vy * dl * u - bx * B) = s * (d * vy - B * (bx * (v - u) / t) - vy * dl)).
  { intros vy B. apply (Rmult_eq_reg_l (d * t)); [ | apply Rmult_integral_contrapositive_currified; lra].
    replace (d * t * ((d * vy - B * (bx * (v - u) / t)) * v - bx * (B * ((dl * SQR (s - u) - bx * bx) / (d * t))) - (vy * dl * u - bx * B)))
      with (d * t * (d * vy * v - vy * dl * u + bx * B) - d * B * bx * (v - u) * v - bx * B * (dl * SQR (s - u) - bx * bx)) by (field; lra).
    replace (d * t * (s * (d * vy - B * (bx * (v - u) / t) - vy * dl))) with (d * t * s * (d * vy - vy * dl) - s * d * B * bx * (v - u)) by (field; lra).
    rewrite Pr. unfold SQR. assert (K : dl * (u - s) = d * (v - s)) by lra.
    replace (dl * ((s - u) * (s - u)) - bx * bx) with (dl * (u - s) * (u - s) - bx * bx) by ring. rewrite K.
    apply Rminus_diag_uniq.
    replace ((d * (s - v) ^ 2 - bx * bx) * (d * vy * v - vy * dl * u + bx * B) - d * B * bx * (v - u) * v - bx * B * (d * (v - s) * (u - s) - bx * bx) - ((d * (s - v) ^ 2 - bx * bx) * s * (d * vy - vy * dl) - s * d * B * bx * (v - u)))
      with ((d * (s - v) ^ 2 - bx * bx) * vy * (d * (v - s) - dl * (u - s))) by ring. rewrite K. ring. }
  assert (Bf : forall vy B, B * ((dl * SQR (s - u) - bx * bx) / (d * t)) * v - bx * ((d * vy - B * (bx * (v - u) / t)) / d) - (B * u - bx * vy) = s * (B * ((dl * SQR (s - u) - bx * bx) / (d * t)) - B)).
  { intros vy B. apply (Rmult_eq_reg_l (d * t)); [ | apply Rmult_integral_contrapositive_currified; lra].
    replace (d * t * (B * ((dl * SQR (s - u) - bx * bx) / (d * t)) * v - bx * ((d * vy - B * (bx * (v - u) / t)) / d) - (B * u - bx * vy)))
      with (B * (dl * SQR (s - u) - bx * bx) * v + bx * B * bx * (v - u) - d * t * (B * u)) by (field; lra).
    replace (d * t * (s * (B * ((dl * SQR (s - u) - bx * bx) / (d * t)) - B))) with (s * B * (dl * SQR (s - u) - bx * bx) - d * t * s * B) by (field; lra).
    rewrite Pr. unfold SQR. assert (K : dl * (u - s) = d * (v - s)) by lra. replace (dl * ((s - u) * (s - u)) - bx * bx) with (dl * (u - s) * (u - s) - bx * bx) by ring. rewrite K. ring. }
  intros q Hq. destruct Hq as [-> | [-> | [-> | [-> | [-> | [-> | ->]]]]]]; unfold fan_flux; cbn [gasf f_by f_bz u_d u_m1 u_m2 u_m3 u_e].
  - lra.
  - exact Mo.
  - apply Mf.
  - apply Mf.
  - ring.
  - apply Bf.
  - apply Bf.
Qed.
(** The jump across the Alfven waves. *)
Lemma bsign_abs bx : bx * bsign bx = Rabs bx /\ bsign bx * bsign bx = 1.
Proof. unfold bsign. destruct (ltR 0 bx) eqn:E; [apply ltR_true in E; rewrite Rabs_right by lra | apply ltR_false in E; rewrite Rabs_left1 by lra]; lra. Qed.
Lemma middle_jump bx d v fm (l r : mcons) f : dhll f = d -> ustar f = v -> 0 < d -> spd_1 f = v - Rabs bx / sqrt d -> spd_3 f = v + Rabs bx / sqrt d ->
  u_d (gasf l) = d -> u_d (gasf r) = d -> u_m1 (gasf l) = mxhll f -> u_m1 (gasf r) = mxhll f -> u_e (gasf l) = 0 -> u_e (gasf r) = 0 ->
  jump (spd_1 f) (fan_flux bx d v fm l) l (fan_flux bx d v fm (iso_middle bx f l r)) (iso_middle bx f l r) /\
  jump (spd_3 f) (fan_flux bx d v fm r) r (fan_flux bx d v fm (iso_middle bx f l r)) (iso_middle bx f l r).
Proof.
  intros <- <- D S1 S3 L1 R1 L2 R2 L3 R3. rewrite S1, S3. destruct (bsign_abs bx) as (A & B). unfold iso_middle. pose proof (sqrt_lt_R0 _ D) as Q. pose proof (sqrt_sqrt _ (Rlt_le _ _ D)) as QQ.
  set (q := sqrt (dhll f)) in *. set (g := bsign bx) in *. set (v := ustar f). set (d := dhll f) in *. rewrite <- A. clearbody q g v d.
  assert (G : g = 1 \/ g = -1) by (destruct (Rmult_integral (g - 1) (g + 1)) as [E | E]; [ring_simplify; lra | left; lra | right; lra]).
  destruct l as [[dl ml1 my mz el] by_ bz], r as [[dr mr1 my' mz' er] by' bz']. cbn [gasf f_by f_bz u_d u_m1 u_m2 u_m3 u_e] in *. subst dl dr ml1 mr1 el er.
  clear A B. split; intros p Hp; destruct Hp as [-> | [-> | [-> | [-> | [-> | [-> | ->]]]]]]; unfold fan_flux; cbn [gasf f_by f_bz u_d u_m1 u_m2 u_m3 u_e]; try ring; rewrite <- ?QQ; destruct G as [-> | ->]; field; lra.
Qed.

(** The flux the solver returns, in terms of the fan. *)
Lemma u_e_star c bx f s near m : u_e (gasf (iso_star c bx f s near m)) = 0.
Proof. unfold iso_star. destruct (ltR _ _); reflexivity. Qed.
Lemma step_flux s fl ul fs us : jump s fl ul fs us -> u_e (gasf fl) = 0 -> u_e (gasf ul) = 0 -> u_e (gasf us) = 0 -> mmap3 (fun f0 a b => f0 + s * (a - b)) fl us ul = fs.
Proof.
  intros J E1 E2 E3. destruct fs as [[a1 a2 a3 a4 a5] a6 a7]. unfold mmap3, map3.
  pose proof (J _ (or_introl eq_refl)) as J1. pose proof (J _ (or_intror (or_introl eq_refl))) as J2. pose proof (J _ (or_intror (or_intror (or_introl eq_refl)))) as J3. pose proof (J _ (or_intror (or_intror (or_intror (or_introl eq_refl))))) as J4.
  pose proof (J _ (or_intror (or_intror (or_intror (or_intror (or_introl eq_refl)))))) as J5. pose proof (J _ (or_intror (or_intror (or_intror (or_intror (or_intror (or_introl eq_refl))))))) as J6. pose proof (J _ (or_intror (or_intror (or_intror (or_intror (or_intror (or_intror eq_refl))))))) as J7.
  cbn [gasf f_by f_bz u_d u_m1 u_m2 u_m3 u_e] in *. apply mcons_eq; [apply cons_eq | |]; lra.
Qed.
Lemma flux_cases c dfloor bx ml mr : let f := fan_of c dfloor bx ml mr in
  let ulst := iso_star c bx f (spd_0 f) (spd_1 f) ml in let urst := iso_star c bx f (spd_4 f) (spd_3 f) mr in
  let F := fan_flux bx (dhll f) (ustar f) (fmxhll f) in
  jump (spd_0 f) (iso_flux c bx ml) (iso_cons ml) (F ulst) ulst -> jump (spd_4 f) (iso_flux c bx mr) (iso_cons mr) (F urst) urst -> 0 < dhll f ->
  HLLD_iso c dfloor bx ml mr = if leR 0 (spd_0 f) then iso_flux c bx ml else if leR (spd_4 f) 0 then iso_flux c bx mr else if leR 0 (spd_1 f) then F ulst else if leR (spd_3 f) 0 then F urst else F (iso_middle bx f ulst urst).
Proof.
  intros f ulst urst F Jl Jr D. unfold HLLD_iso. cbv zeta. fold f. fold ulst urst.
  rewrite (step_flux _ _ _ _ _ Jl eq_refl eq_refl (u_e_star _ _ _ _ _ _)), (step_flux _ _ _ _ _ Jr eq_refl eq_refl (u_e_star _ _ _ _ _ _)).
  destruct (leR 0 (spd_0 f)); [reflexivity | ]. destruct (leR (spd_4 f) 0); [reflexivity | ]. destruct (leR 0 (spd_1 f)); [reflexivity | ]. destruct (leR (spd_3 f) 0); [reflexivity | ].
  unfold F, fan_flux. change (u_d (gasf (iso_middle bx f ulst urst))) with (dhll f). apply mcons_eq; [apply cons_eq | |]; field; lra.
Qed.

(** States that agree in density, normal velocity and field strength. *)
Section Equal.
Variables (c dfloor bx : R) (ml mr : mprim).
Hypothesis C : 0 < c.
Hypothesis Dl : 0 < w_d (gas ml).
Hypothesis Ed : w_d (gas mr) = w_d (gas ml).
Hypothesis Ev : w_vx (gas mr) = w_vx (gas ml).
Hypothesis Eb : m_by mr ^ 2 + m_bz mr ^ 2 = m_by ml ^ 2 + m_bz ml ^ 2.
Hypothesis Floor : dfloor <= w_d (gas ml).
Notation f := (fan_of c dfloor bx ml mr).
Notation a := (Rabs bx / sqrt (w_d (gas ml))).

Lemma cfast_equal : cfast (Iso c) bx mr = cfast (Iso c) bx ml.
Proof using Ed Eb. unfold cfast, FastMagnetosonicSpeed. rewrite Ed. cbv zeta. replace (m_by mr * m_by mr + m_bz mr * m_bz mr) with (m_by ml * m_by ml + m_bz ml * m_bz ml) by lra. reflexivity. Qed.
Lemma fan_equal : spd_0 f = w_vx (gas ml) - cfast (Iso c) bx ml /\ spd_4 f = w_vx (gas ml) + cfast (Iso c) bx ml /\ dhll f = w_d (gas ml) /\ ustar f = w_vx (gas ml) /\
  mxhll f = w_d (gas ml) * w_vx (gas ml) /\ fmxhll f = u_m1 (gasf (iso_flux c bx ml)) /\ spd_1 f = w_vx (gas ml) - a /\ spd_3 f = w_vx (gas ml) + a /\ u_m1 (gasf (iso_flux c bx mr)) = u_m1 (gasf (iso_flux c bx ml)).
Proof using C Dl Ed Ev Eb Floor.
  assert (Dr : 0 < w_d (gas mr)) by lra. pose proof (cfast_pos (Iso c) bx ml C (conj Dl I)) as P0.
  assert (S0 : spd_0 f = w_vx (gas ml) - cfast (Iso c) bx ml) by (unfold fan_of; cbn [spd_0]; rewrite cfast_equal, Ev; apply Rmin_left; lra).
  assert (S4 : spd_4 f = w_vx (gas ml) + cfast (Iso c) bx ml) by (unfold fan_of; cbn [spd_4]; rewrite cfast_equal, Ev; apply Rmax_left; lra).
  assert (M : mean_density c dfloor bx ml mr = w_d (gas ml)) by (unfold mean_density; rewrite S0, S4, Ed, Ev; field; lra).
  assert (D : dhll f = w_d (gas ml)) by (rewrite dhll_eq, M; apply Rmax_left; exact Floor).
  assert (U : ustar f = w_vx (gas ml)).
  { pose proof (mass_left c dfloor bx ml mr C Dl Dr ltac:(rewrite M; exact Floor)) as L. rewrite D in L. apply (Rmult_eq_reg_l (w_d (gas ml))); lra. }
  assert (F : u_m1 (gasf (iso_flux c bx mr)) = u_m1 (gasf (iso_flux c bx ml))) by (unfold iso_flux, iso_cons, SQR; cbn [gasf u_m1]; rewrite Ed, Ev; lra).
  pose proof (momentum_left c dfloor bx ml mr C Dl Dr) as ML. pose proof (momentum_right c dfloor bx ml mr C Dl Dr) as MR. rewrite F, Ev, Ed in MR.
  assert (X : mxhll f = w_d (gas ml) * w_vx (gas ml)) by (rewrite S0 in ML; rewrite S4 in MR; nra).
  rewrite X in ML. repeat split; try assumption; [lra | | ].
  - change (spd_1 f) with (ustar f - Rabs bx / sqrt (dhll f)). rewrite U, D. reflexivity.
  - change (spd_3 f) with (ustar f + Rabs bx / sqrt (dhll f)). rewrite U, D. reflexivity.
Qed.
Lemma star_equal s near m : (m = ml \/ m = mr) -> (s = spd_0 f /\ near = spd_1 f \/ s = spd_4 f /\ near = spd_3 f) -> iso_star c bx f s near m = iso_cons m.
Proof using C Dl Ed Ev Eb Floor.
  intros Hm Hs. destruct fan_equal as (S0 & S4 & D & U & X & F & S1 & S3 & _). unfold iso_star.
  assert (Dm : w_d (gas m) = w_d (gas ml)) by (destruct Hm as [-> | ->]; auto). assert (Vm : w_vx (gas m) = w_vx (gas ml)) by (destruct Hm as [-> | ->]; auto).
  pose proof (cfast_pos (Iso c) bx ml C (conj Dl I)) as P0. pose proof (sqrt_lt_R0 _ Dl) as Q. pose proof (Rabs_pos bx) as AB. assert (A0 : 0 <= a) by (apply Rmult_le_pos; [exact AB | apply Rlt_le, Rinv_0_lt_compat; exact Q]).
  destruct (ltR (Rabs (s - near)) (1/10000 * c)) eqn:E.
  - unfold iso_cons. cbn [gasf u_m2 u_m3 f_by f_bz]. rewrite X, D, Dm, Vm. apply mcons_eq; [apply cons_eq | |]; ring.
  - apply ltR_false in E. assert (N : s - near <> 0) by (intro Z; rewrite Z, Rabs_R0 in E; lra).
    assert (T : (s - spd_1 f) * (s - spd_3 f) <> 0).
    { destruct Hs as [(-> & ->) | (-> & ->)]; apply Rmult_integral_contrapositive_currified; try exact N; rewrite ?S0, ?S4, ?S1, ?S3; lra. }
    pose proof (alfven_product c dfloor bx ml mr s ltac:(rewrite D; exact Dl)) as Pr. cbv zeta in Pr. rewrite U, D in Pr. rewrite U, D, X, Dm, Vm.
    set (t := (s - spd_1 f) * (s - spd_3 f)) in *. unfold SQR. replace (w_d (gas ml) * ((s - w_vx (gas ml)) * (s - w_vx (gas ml))) - bx * bx) with (w_d (gas ml) * t) by (rewrite Pr; ring).
    unfold iso_cons. rewrite Dm, Vm. apply mcons_eq; [apply cons_eq | |]; try ring; field; lra.
Qed.
Lemma flux_equal m : (m = ml \/ m = mr) -> fan_flux bx (dhll f) (ustar f) (fmxhll f) (iso_cons m) = iso_flux c bx m.
Proof using C Dl Ed Ev Eb Floor.
  intros Hm. destruct fan_equal as (S0 & S4 & D & U & X & F & S1 & S3 & F2). assert (Dm : w_d (gas m) = w_d (gas ml)) by (destruct Hm as [-> | ->]; auto). assert (Vm : w_vx (gas m) = w_vx (gas ml)) by (destruct Hm as [-> | ->]; auto).
  assert (Fm : u_m1 (gasf (iso_flux c bx m)) = fmxhll f) by (rewrite F; destruct Hm as [-> | ->]; auto). unfold fan_flux. rewrite <- Fm, D, U. unfold iso_flux, iso_cons. cbn [gasf u_m1 u_m2 u_m3 f_by f_bz]. rewrite Dm, Vm. apply mcons_eq; [apply cons_eq | |]; try ring; field; lra.
Qed.
Lemma HLLD_equal : HLLD_iso c dfloor bx ml mr =
  if leR 0 (spd_0 f) then iso_flux c bx ml else if leR (spd_4 f) 0 then iso_flux c bx mr else if leR 0 (spd_1 f) then iso_flux c bx ml else if leR (spd_3 f) 0 then iso_flux c bx mr
  else fan_flux bx (dhll f) (ustar f) (fmxhll f) (iso_middle bx f (iso_cons ml) (iso_cons mr)).
Proof using C Dl Ed Ev Eb Floor.
  pose proof (star_equal (spd_0 f) (spd_1 f) ml (or_introl eq_refl) (or_introl (conj eq_refl eq_refl))) as El.
  pose proof (star_equal (spd_4 f) (spd_3 f) mr (or_intror eq_refl) (or_intror (conj eq_refl eq_refl))) as Er.
  destruct fan_equal as (S0 & S4 & D & _). rewrite flux_cases; rewrite ?El, ?Er, ?(flux_equal ml (or_introl eq_refl)), ?(flux_equal mr (or_intror eq_refl)).
  - reflexivity.
  - intros q _. ring.
  - intros q _. ring.
  - rewrite D. exact Dl.
Qed.
End Equal.
