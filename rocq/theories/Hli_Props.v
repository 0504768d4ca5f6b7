(** C94: the isothermal HLLD solver. *)
From Coq Require Import Reals Lra Bool.
From Verif Require Import Time_Model Time_Proofs Eos_Model Eos_Proofs Eos_Props Rie_Model Rie_Spec Rie_Proofs Rie_Proofs2 Rie_Proofs3 Hli_Model Hli_Spec Hli_Proofs.
Local Open Scope R_scope.

(** Equal states give the physical flux, and states whose waves all move in one direction the flux of the side the waves come from. *)
Lemma middle_same bx f m : dhll f = w_d (gas m) -> mxhll f = w_d (gas m) * w_vx (gas m) -> iso_middle bx f (iso_cons m) (iso_cons m) = iso_cons m.
Proof. intros D X. unfold iso_middle, iso_cons. cbn [gasf u_m2 u_m3 f_by f_bz]. cbv zeta. rewrite D, X. apply mcons_eq; [apply cons_eq | |]; try ring; unfold Rdiv; rewrite ?Rminus_diag_eq by reflexivity; lra. Qed.
Theorem C94_consistent : forall c dfloor bx m, 0 < c -> 0 < w_d (gas m) -> dfloor <= w_d (gas m) -> HLLD_iso c dfloor bx m m = physical_mhd (Iso c) bx m.
Proof.
  intros c dfloor bx m C D Fl. rewrite (HLLD_equal c dfloor bx m m C D eq_refl eq_refl eq_refl Fl). destruct (fan_equal c dfloor bx m m C D eq_refl eq_refl eq_refl Fl) as (S0 & S4 & Dd & U & X & _).
  rewrite (middle_same bx _ m Dd X), (flux_equal c dfloor bx m m C D eq_refl eq_refl eq_refl Fl m (or_introl eq_refl)). rewrite <- iso_flux_eq. repeat match goal with |- context [leR ?x ?y] => destruct (leR x y) end; reflexivity.
Qed.
Print Assumptions C94_consistent.
Theorem C94_upwind : forall c dfloor bx ml mr, 0 < c -> 0 < w_d (gas ml) -> 0 < w_d (gas mr) ->
  (cfast (Iso c) bx ml <= w_vx (gas ml) /\ cfast (Iso c) bx mr <= w_vx (gas mr) -> HLLD_iso c dfloor bx ml mr = physical_mhd (Iso c) bx ml) /\
  (cfast (Iso c) bx ml <= - w_vx (gas ml) /\ cfast (Iso c) bx mr <= - w_vx (gas mr) -> HLLD_iso c dfloor bx ml mr = physical_mhd (Iso c) bx mr).
Proof.
  intros c dfloor bx ml mr C Dl Dr. pose proof (outer c dfloor bx ml mr C Dl Dr) as O. rewrite <- !iso_flux_eq. unfold HLLD_iso. cbv zeta. split; intros (A & B).
  - replace (leR 0 (spd_0 (fan_of c dfloor bx ml mr))) with true; [reflexivity | ]. symmetry. apply leR_true. unfold fan_of. cbn [spd_0]. apply Rmin_glb; lra.
  - replace (leR 0 (spd_0 (fan_of c dfloor bx ml mr))) with false by (symmetry; apply leR_false; lra). replace (leR (spd_4 (fan_of c dfloor bx ml mr)) 0) with true; [reflexivity | ]. symmetry. apply leR_true. unfold fan_of. cbn [spd_4]. apply Rmax_lub; lra.
Qed.
Print Assumptions C94_upwind.

(** Outside the degenerate case and above the floor: four discontinuities, each satisfying the jump conditions, around gas of positive density; the inner ones move with the Alfven speed of that gas.
    The flux is that of the region around the face. *)
Theorem C94_fan : forall c dfloor bx ml mr, 0 < c -> 0 < w_d (gas ml) -> 0 < w_d (gas mr) ->
  let f := fan_of c dfloor bx ml mr in dfloor < dhll f -> c / 10000 <= Rabs (spd_0 f - spd_1 f) -> c / 10000 <= Rabs (spd_4 f - spd_3 f) ->
  exists s0 s1 s3 s4 d v fm u1 u2 u3, let F := fan_flux bx d v fm in let fl := physical_mhd (Iso c) bx ml in let fr := physical_mhd (Iso c) bx mr in
  s0 = Rmin (w_vx (gas ml) - cfast (Iso c) bx ml) (w_vx (gas mr) - cfast (Iso c) bx mr) /\ s4 = Rmax (w_vx (gas ml) + cfast (Iso c) bx ml) (w_vx (gas mr) + cfast (Iso c) bx mr) /\
  0 < d /\ s0 < v < s4 /\ s1 = v - Rabs bx / sqrt d /\ s3 = v + Rabs bx / sqrt d /\ u_d (gasf u1) = d /\ u_d (gasf u2) = d /\ u_d (gasf u3) = d /\
  (jump s0 fl (conserved ml) (F u1) u1 /\ jump s1 (F u1) u1 (F u2) u2 /\ jump s3 (F u3) u3 (F u2) u2 /\ jump s4 fr (conserved mr) (F u3) u3) /\
  (0 <= s0 -> HLLD_iso c dfloor bx ml mr = fl) /\ (s0 < 0 -> s4 <= 0 -> HLLD_iso c dfloor bx ml mr = fr) /\ (s0 < 0 < s4 -> 0 <= s1 -> HLLD_iso c dfloor bx ml mr = F u1) /\
  (s0 < 0 < s4 -> s1 < 0 -> s3 <= 0 -> HLLD_iso c dfloor bx ml mr = F u3) /\ (s0 < 0 < s4 -> s1 < 0 < s3 -> HLLD_iso c dfloor bx ml mr = F u2).
Proof.
  intros c dfloor bx ml mr C Dl Dr f Fl N0 N4. assert (Floor : dfloor <= mean_density c dfloor bx ml mr).
  { unfold f in Fl. rewrite dhll_eq in Fl. unfold Rmax in Fl. destruct (Rle_dec (mean_density c dfloor bx ml mr) dfloor); lra. }
  pose proof (outer c dfloor bx ml mr C Dl Dr) as O. pose proof (dhll_pos c dfloor bx ml mr C Dl Dr) as D. pose proof (between c dfloor bx ml mr C Dl Dr Floor) as B. fold f in O, D, B.
  pose proof (sqrt_lt_R0 _ D) as Q. pose proof (Rabs_pos bx) as AB. assert (A0 : 0 <= Rabs bx / sqrt (dhll f)) by (apply Rmult_le_pos; [exact AB | apply Rlt_le, Rinv_0_lt_compat; exact Q]).
  assert (S1 : spd_1 f = ustar f - Rabs bx / sqrt (dhll f)) by reflexivity. assert (S3 : spd_3 f = ustar f + Rabs bx / sqrt (dhll f)) by reflexivity.
  assert (Z0 : spd_0 f - spd_1 f <> 0) by (intro Z; rewrite Z, Rabs_R0 in N0; lra). assert (Z4 : spd_4 f - spd_3 f <> 0) by (intro Z; rewrite Z, Rabs_R0 in N4; lra).
  destruct (star_jump c bx f (spd_0 f) (spd_1 f) ml D ltac:(lra) ltac:(apply Rmult_integral_contrapositive_currified; [exact Z0 | rewrite S3; lra]) (alfven_product c dfloor bx ml mr (spd_0 f) D)
    (mass_left c dfloor bx ml mr C Dl Dr Floor) (momentum_left c dfloor bx ml mr C Dl Dr)) as (Jl & L1 & L2).
  destruct (star_jump c bx f (spd_4 f) (spd_3 f) mr D ltac:(lra) ltac:(apply Rmult_integral_contrapositive_currified; [rewrite S1; lra | exact Z4]) (alfven_product c dfloor bx ml mr (spd_4 f) D)
    (mass_right c dfloor bx ml mr C Dl Dr Floor) (momentum_right c dfloor bx ml mr C Dl Dr)) as (Jr & R1 & R2).
  destruct (middle_jump bx (dhll f) (ustar f) (fmxhll f) (iso_star c bx f (spd_0 f) (spd_1 f) ml) (iso_star c bx f (spd_4 f) (spd_3 f) mr) f eq_refl eq_refl D S1 S3 L1 R1 L2 R2 (u_e_star _ _ _ _ _ _) (u_e_star _ _ _ _ _ _)) as (J1 & J3).
  pose proof (flux_cases c dfloor bx ml mr Jl Jr D) as H. cbv zeta in H. fold f in H.
  exists (spd_0 f), (spd_1 f), (spd_3 f), (spd_4 f), (dhll f), (ustar f), (fmxhll f), (iso_star c bx f (spd_0 f) (spd_1 f) ml), (iso_middle bx f (iso_star c bx f (spd_0 f) (spd_1 f) ml) (iso_star c bx f (spd_4 f) (spd_3 f) mr)), (iso_star c bx f (spd_4 f) (spd_3 f) mr).
  cbv zeta. rewrite <- !iso_cons_eq, <- !iso_flux_eq. do 2 (split; [reflexivity | ]). do 2 (split; [assumption | ]). do 2 (split; [reflexivity | ]). split; [exact L1 | split; [reflexivity | split; [exact R1 | ]]].
  split; [repeat split; assumption | ]. rewrite H.
  repeat split; intros; repeat match goal with |- context [leR ?x ?y] => let E := fresh in destruct (leR x y) eqn:E; [apply leR_true in E | apply leR_false in E] end; first [reflexivity | exfalso; lra].
Qed.
Print Assumptions C94_fan.

(** A single Alfven wave is resolved exactly: the flux is that of the state the wave has not reached at the face. *)
Theorem C94_alfven : forall c dfloor bx dir s ml mr, 0 < c -> 0 < w_d (gas ml) -> dfloor <= w_d (gas ml) -> alfven_wave bx dir s ml mr ->
  (0 < s -> HLLD_iso c dfloor bx ml mr = physical_mhd (Iso c) bx ml) /\ (s < 0 -> HLLD_iso c dfloor bx ml mr = physical_mhd (Iso c) bx mr).
Proof.
  intros c dfloor bx dir s ml mr C D Fl (Hd & Bx & Ed & Ev & Eb & Hs & Ty & Tz). rewrite (HLLD_equal c dfloor bx ml mr C D Ed Ev Eb Fl). destruct (fan_equal c dfloor bx ml mr C D Ed Ev Eb Fl) as (S0 & S4 & Dd & U & X & F & S1 & S3 & _).
  pose proof (flux_equal c dfloor bx ml mr C D Ed Ev Eb Fl) as FE. set (f := fan_of c dfloor bx ml mr) in *. rewrite <- !iso_flux_eq.
  pose proof (cfast_alfven c bx ml C D) as CA. pose proof (sqrt_lt_R0 _ D) as Q. pose proof (sqrt_sqrt _ (Rlt_le _ _ D)) as QQ. pose proof (Rabs_pos_lt bx Bx) as AB. assert (A0 : 0 < Rabs bx / sqrt (w_d (gas ml))) by (apply Rdiv_lt_0_compat; assumption).
  destruct (bsign_abs bx) as (B1 & B2). set (g := bsign bx) in *. set (q := sqrt (w_d (gas ml))) in *. set (a := Rabs bx / q) in *.
  assert (G : g = 1 \/ g = -1) by (destruct (Rmult_integral (g - 1) (g + 1)) as [E | E]; [ring_simplify; lra | left; lra | right; lra]).
  assert (Mid : iso_middle bx f (iso_cons ml) (iso_cons mr) = if Rlt_dec 0 dir then iso_cons ml else iso_cons mr).
  { assert (T : forall dv db, Rabs bx * q * dv = - dir * bx * db -> db = - dir * g * q * dv).
    { intros dv db T. apply (Rmult_eq_reg_l bx); [ | exact Bx]. rewrite <- B1 in T. destruct Hd as [-> | ->]; nra. }
    pose proof (T _ _ Ty) as Y. pose proof (T _ _ Tz) as Zz. unfold iso_middle. rewrite Dd. fold q g. unfold iso_cons. cbn [gasf u_m2 u_m3 f_by f_bz]. cbv zeta. rewrite X, Ed, Ev. rewrite <- QQ.
    assert (By : m_by mr = m_by ml + - dir * g * q * (w_vy (gas mr) - w_vy (gas ml))) by lra. assert (Bz : m_bz mr = m_bz ml + - dir * g * q * (w_vz (gas mr) - w_vz (gas ml))) by lra.
    rewrite By, Bz. clear - Hd G Q. destruct Hd as [-> | ->]; [destruct (Rlt_dec 0 1); [ | exfalso; lra] | destruct (Rlt_dec 0 (-1)); [exfalso; lra | ]]; (apply mcons_eq; [apply cons_eq | |]); try ring; destruct G as [-> | ->]; field; lra. }
  rewrite Mid. split; intros Sg.
  - destruct Hd as [-> | ->]; [destruct (Rlt_dec 0 1); [ | exfalso; lra] | destruct (Rlt_dec 0 (-1)); [exfalso; lra | ]];
    repeat match goal with |- context [leR ?x ?y] => let E := fresh in destruct (leR x y) eqn:E; [apply leR_true in E | apply leR_false in E] end; first [reflexivity | apply FE; left; reflexivity | exfalso; lra].
  - destruct Hd as [-> | ->]; [destruct (Rlt_dec 0 1); [ | exfalso; lra] | destruct (Rlt_dec 0 (-1)); [exfalso; lra | ]];
    repeat match goal with |- context [leR ?x ?y] => let E := fresh in destruct (leR x y) eqn:E; [apply leR_true in E | apply leR_false in E] end; first [reflexivity | apply FE; right; reflexivity | exfalso; lra].
Qed.
Print Assumptions C94_alfven.

(** Exchanging the sides in a mirror mirrors the flux. *)
Section Mirror.
Variables (c dfloor bx : R) (ml mr : mprim).
Hypothesis C : 0 < c.
Hypothesis Dl : 0 < w_d (gas ml).
Hypothesis Dr : 0 < w_d (gas mr).
Notation f := (fan_of c dfloor bx ml mr).
Notation f' := (fan_of c dfloor (- bx) (mmirror mr) (mmirror ml)).
Lemma iso_cons_mirror m : iso_cons (mmirror m) = umirror (iso_cons m).
Proof using. unfold iso_cons, umirror, mmirror, mirror. cbn [gasf f_by f_bz u_d u_m1 u_m2 u_m3 u_e gas m_by m_bz w_d w_vx w_vy w_vz w_p]. apply mcons_eq; [apply cons_eq | |]; ring. Qed.
Lemma iso_flux_mirror m : iso_flux c (- bx) (mmirror m) = mmirror_flux (iso_flux c bx m).
Proof using. rewrite !iso_flux_eq. apply mphysical_mirror. Qed.
Lemma fan_mirror : spd_0 f' = - spd_4 f /\ spd_4 f' = - spd_0 f /\ dhll f' = dhll f /\ ustar f' = - ustar f /\ mxhll f' = - mxhll f /\ fmxhll f' = fmxhll f /\ spd_1 f' = - spd_3 f /\ spd_3 f' = - spd_1 f.
Proof using C Dl Dr.
  pose proof (outer c dfloor bx ml mr C Dl Dr) as O. pose proof (dhll_pos c dfloor bx ml mr C Dl Dr) as D.
  assert (S0 : spd_0 f' = - spd_4 f). { unfold fan_of. cbn [spd_0 spd_4]. rewrite !cfast_mirror. rewrite <- min_opp, Rmin_comm. unfold mmirror, mirror. cbn [gas w_vx]. f_equal; ring. }
  assert (S4 : spd_4 f' = - spd_0 f).
  { unfold fan_of. cbn [spd_0 spd_4]. rewrite !cfast_mirror. unfold mmirror, mirror. cbn [gas w_vx]. set (p := cfast (Iso c) bx ml). set (q := cfast (Iso c) bx mr). unfold Rmax, Rmin. destruct (Rle_dec _ _), (Rle_dec _ _); lra. }
  assert (I : 1 / (spd_4 f' - spd_0 f') = 1 / (spd_4 f - spd_0 f)) by (rewrite S0, S4; f_equal; ring).
  assert (Dd : dhll f' = dhll f). { rewrite !dhll_eq. f_equal. unfold mean_density. rewrite S0, S4. unfold mmirror, mirror. cbn [gas w_d w_vx]. field. lra. }
  assert (U : ustar f' = - ustar f).
  { change (ustar f') with ((spd_4 f' * u_d (gasf (iso_flux c (- bx) (mmirror mr))) - spd_0 f' * u_d (gasf (iso_flux c (- bx) (mmirror ml))) + spd_4 f' * spd_0 f' * (w_d (gas ml) - w_d (gas mr))) * (1 / (spd_4 f' - spd_0 f')) / dhll f').
    change (ustar f) with ((spd_4 f * u_d (gasf (iso_flux c bx ml)) - spd_0 f * u_d (gasf (iso_flux c bx mr)) + spd_4 f * spd_0 f * (w_d (gas mr) - w_d (gas ml))) * (1 / (spd_4 f - spd_0 f)) / dhll f).
    rewrite I, Dd, S0, S4, !iso_flux_mirror. unfold mmirror_flux, mirror_flux. cbn [gasf u_d]. unfold Rdiv. ring. }
  assert (X : mxhll f' = - mxhll f).
  { change (mxhll f') with ((spd_4 f' * (- w_vx (gas ml) * w_d (gas ml)) - spd_0 f' * (- w_vx (gas mr) * w_d (gas mr)) - u_m1 (gasf (iso_flux c (- bx) (mmirror ml))) + u_m1 (gasf (iso_flux c (- bx) (mmirror mr)))) * (1 / (spd_4 f' - spd_0 f'))).
    change (mxhll f) with ((spd_4 f * (w_vx (gas mr) * w_d (gas mr)) - spd_0 f * (w_vx (gas ml) * w_d (gas ml)) - u_m1 (gasf (iso_flux c bx mr)) + u_m1 (gasf (iso_flux c bx ml))) * (1 / (spd_4 f - spd_0 f))).
    rewrite I, S0, S4, !iso_flux_mirror. unfold mmirror_flux, mirror_flux. cbn [gasf u_m1]. ring. }
  assert (Fm : fmxhll f' = fmxhll f).
  { change (fmxhll f') with ((spd_4 f' * u_m1 (gasf (iso_flux c (- bx) (mmirror mr))) - spd_0 f' * u_m1 (gasf (iso_flux c (- bx) (mmirror ml))) + spd_4 f' * spd_0 f' * (- w_vx (gas ml) * w_d (gas ml) - - w_vx (gas mr) * w_d (gas mr))) * (1 / (spd_4 f' - spd_0 f'))).
    change (fmxhll f) with ((spd_4 f * u_m1 (gasf (iso_flux c bx ml)) - spd_0 f * u_m1 (gasf (iso_flux c bx mr)) + spd_4 f * spd_0 f * (w_vx (gas mr) * w_d (gas mr) - w_vx (gas ml) * w_d (gas ml))) * (1 / (spd_4 f - spd_0 f))).
    rewrite I, S0, S4, !iso_flux_mirror. unfold mmirror_flux, mirror_flux. cbn [gasf u_m1]. ring. }
  repeat split; try assumption.
  - change (spd_1 f') with (ustar f' - Rabs (- bx) / sqrt (dhll f')). change (spd_3 f) with (ustar f + Rabs bx / sqrt (dhll f)). rewrite U, Dd, Rabs_Ropp. ring.
  - change (spd_3 f') with (ustar f' + Rabs (- bx) / sqrt (dhll f')). change (spd_1 f) with (ustar f - Rabs bx / sqrt (dhll f)). rewrite U, Dd, Rabs_Ropp. ring.
Qed.
Lemma iso_star_mirror s near m : iso_star c (- bx) f' (- s) (- near) (mmirror m) = umirror (iso_star c bx f s near m).
Proof using C Dl Dr.
  destruct fan_mirror as (S0 & S4 & Dd & U & X & Fm & S1 & S3). unfold iso_star. rewrite Dd, U, X, S1, S3. replace (- s - - near) with (- (s - near)) by ring. rewrite Rabs_Ropp.
  unfold iso_cons, mmirror, mirror. cbn [gasf f_by f_bz u_d u_m1 u_m2 u_m3 u_e gas m_by m_bz w_d w_vx w_vy w_vz w_p]. cbv zeta.
  replace ((- s - - spd_3 f) * (- s - - spd_1 f)) with ((s - spd_1 f) * (s - spd_3 f)) by ring. replace (- bx * (- ustar f - - w_vx (gas m))) with (bx * (ustar f - w_vx (gas m))) by ring.
  replace (w_d (gas m) * SQR (- s - - w_vx (gas m)) - - bx * - bx) with (w_d (gas m) * SQR (s - w_vx (gas m)) - bx * bx) by (unfold SQR; ring).
  destruct (ltR (Rabs (s - near)) (1/10000 * c)); reflexivity.
Qed.
Lemma iso_middle_mirror l r : bx <> 0 -> iso_middle (- bx) f' (umirror r) (umirror l) = umirror (iso_middle bx f l r).
Proof using C Dl Dr.
  intros N. destruct fan_mirror as (S0 & S4 & Dd & U & X & Fm & S1 & S3). unfold iso_middle. rewrite bsign_opp by exact N. rewrite Dd, X. unfold umirror. cbn [gasf f_by f_bz u_d u_m1 u_m2 u_m3 u_e]. cbv zeta.
  set (y := sqrt (dhll f) * bsign bx). replace (sqrt (dhll f) * - bsign bx) with (- y) by (unfold y; ring). unfold Rdiv. rewrite Rinv_opp. apply mcons_eq; [apply cons_eq | |]; ring.
Qed.
End Mirror.
Theorem C94_mirror : forall c dfloor bx ml mr, 0 < c -> 0 < w_d (gas ml) -> 0 < w_d (gas mr) -> bx <> 0 ->
  HLLD_iso c dfloor (- bx) (mmirror mr) (mmirror ml) = mmirror_flux (HLLD_iso c dfloor bx ml mr).
Proof.
  intros c dfloor bx ml mr C Dl Dr N. destruct (fan_mirror c dfloor bx ml mr C Dl Dr) as (S0 & S4 & Dd & U & X & Fm & S1 & S3).
  pose proof (outer c dfloor bx ml mr C Dl Dr) as O. pose proof (dhll_pos c dfloor bx ml mr C Dl Dr) as D. unfold HLLD_iso. cbv zeta.
  rewrite S0, S4, S1, S3, Dd, U, Fm, !iso_star_mirror, iso_middle_mirror, !iso_flux_mirror, !iso_cons_mirror, !step_mirror, !leR_flip, !leR_flip' by assumption.
  set (f := fan_of c dfloor bx ml mr) in *. set (ulst := iso_star c bx f (spd_0 f) (spd_1 f) ml). set (urst := iso_star c bx f (spd_4 f) (spd_3 f) mr). set (uc := iso_middle bx f ulst urst).
  assert (W : spd_1 f < spd_3 f).
  { change (spd_1 f) with (ustar f - Rabs bx / sqrt (dhll f)). change (spd_3 f) with (ustar f + Rabs bx / sqrt (dhll f)). pose proof (Rdiv_lt_0_compat _ _ (Rabs_pos_lt bx N) (sqrt_lt_R0 _ D)). lra. }
  assert (Q : spd_0 f < spd_4 f) by lra. clear O.
  destruct (leR 0 (spd_0 f)) eqn:E0; [apply leR_true in E0 | apply leR_false in E0]; (destruct (leR (spd_4 f) 0) eqn:E4; [apply leR_true in E4 | apply leR_false in E4]); try reflexivity; [exfalso; lra | ].
  destruct (leR 0 (spd_1 f)) eqn:E1; [apply leR_true in E1 | apply leR_false in E1]; (destruct (leR (spd_3 f) 0) eqn:E3; [apply leR_true in E3 | apply leR_false in E3]); try reflexivity; [exfalso; lra | ].
  unfold mmirror_flux, mirror_flux, umirror. cbn [gasf f_by f_bz u_d u_m1 u_m2 u_m3 u_e]. unfold Rdiv. apply mcons_eq; [apply cons_eq | |]; ring.
Qed.
Print Assumptions C94_mirror.

(** Gas with a density jump at rest in a normal field: not degenerate, above the floor. *)
Definition light : mprim := mkMW (mkW 1 0 0 0 0) 0 0.
Definition dense : mprim := mkMW (mkW 4 0 0 0 0) 0 0.
Lemma cfast_no_transverse c bx d : 0 < d -> 0 <= c -> c * c * d <= bx * bx -> cfast (Iso c) bx (mkMW (mkW d 0 0 0 0) 0 0) = Rabs bx / sqrt d.
Proof.
  intros D C H. unfold cfast, FastMagnetosonicSpeed. cbn [gas m_by m_bz w_d]. cbv zeta.
  replace ((bx * bx + (0 * 0 + 0 * 0) - c * c * d) * (bx * bx + (0 * 0 + 0 * 0) - c * c * d) + 4 * (c * c * d) * (0 * 0 + 0 * 0)) with ((bx * bx - c * c * d) * (bx * bx - c * c * d)) by ring. rewrite sqrt_square by lra.
  replace (1 / 2 * (bx * bx + (0 * 0 + 0 * 0) + c * c * d + (bx * bx - c * c * d)) / d) with (bx * bx / d) by (field; lra). rewrite sqrt_div_alt by exact D. f_equal. apply sqrt_Rsqr_abs.
Qed.
Lemma light_dense : let f := fan_of (1/10) 0 1 light dense in spd_0 f = -1 /\ spd_4 f = 1 /\ dhll f = 5 / 2 /\ ustar f = - (3 / 5).
Proof.
  assert (Cl : cfast (Iso (1/10)) 1 light = 1) by (unfold light; rewrite cfast_no_transverse by lra; rewrite sqrt_1, Rabs_R1; lra).
  assert (Cd : cfast (Iso (1/10)) 1 dense = 1 / 2) by (unfold dense; rewrite cfast_no_transverse by lra; rewrite Rabs_R1; replace 4 with (2 * 2) by lra; rewrite sqrt_square by lra; reflexivity).
  intros f. assert (S0 : spd_0 f = -1) by (unfold f, fan_of; cbn [spd_0]; rewrite Cl, Cd; cbn [gas light dense w_vx]; rewrite Rmin_left; lra).
  assert (S4 : spd_4 f = 1) by (unfold f, fan_of; cbn [spd_4]; rewrite Cl, Cd; cbn [gas light dense w_vx]; rewrite Rmax_left; lra).
  assert (M : mean_density (1/10) 0 1 light dense = 5 / 2) by (unfold mean_density; fold f; rewrite S0, S4; cbn [gas light dense w_vx w_d]; field).
  assert (Dd : dhll f = 5 / 2) by (unfold f; rewrite dhll_eq, M; apply Rmax_left; lra).
  repeat split; try assumption. pose proof (mass_left (1/10) 0 1 light dense ltac:(lra) ltac:(cbn; lra) ltac:(cbn; lra) ltac:(rewrite M; lra)) as L. fold f in L. rewrite Dd, S0 in L. cbn [gas light w_vx w_d] in L. lra.
Qed.
Lemma root52 : 1 / 2 < 1 / sqrt (5 / 2) /\ 31 / 50 < 1 / sqrt (5 / 2) /\ 1 / sqrt (5 / 2) < 7 / 10.
Proof.
  assert (A : sqrt (5 / 2) < 8 / 5) by (rewrite <- (sqrt_square (8 / 5)) by lra; apply sqrt_lt_1; lra). assert (B : 3 / 2 < sqrt (5 / 2)) by (rewrite <- (sqrt_square (3 / 2)) by lra; apply sqrt_lt_1; lra).
  assert (I : 1 / sqrt (5 / 2) * sqrt (5 / 2) = 1) by (field; lra). repeat split; nra.
Qed.
Example C94_example : let f := fan_of (1/10) 0 1 light dense in 0 < dhll f /\ 1/10 / 10000 <= Rabs (spd_0 f - spd_1 f) /\ 1/10 / 10000 <= Rabs (spd_4 f - spd_3 f).
Proof.
  intros f. destruct light_dense as (S0 & S4 & D & U). fold f in S0, S4, D, U. destruct root52 as (A & B & E).
  change (spd_1 f) with (ustar f - Rabs 1 / sqrt (dhll f)). change (spd_3 f) with (ustar f + Rabs 1 / sqrt (dhll f)). rewrite S0, S4, D, U, Rabs_R1. set (r := 1 / sqrt (5 / 2)) in *.
  rewrite !Rabs_right by lra. lra.
Qed.
Example C94_wave : alfven_wave 1 1 2 (mkMW (mkW 1 1 0 0 0) 1 0) (mkMW (mkW 1 1 1 (-1) 0) 0 1).
Proof. unfold alfven_wave. cbn [gas m_by m_bz w_d w_vx w_vy w_vz]. rewrite sqrt_1, Rabs_R1. repeat split; try lra. Qed.

(** Refuted: that the waves are ordered.  At this density jump the left Alfven wave is faster than the fast wave that should run ahead of it. *)
Theorem C94_order_refuted : exists c bx ml mr, 0 < c /\ 0 < w_d (gas ml) /\ 0 < w_d (gas mr) /\ spd_1 (fan_of c 0 bx ml mr) < spd_0 (fan_of c 0 bx ml mr).
Proof.
  exists (1/10), 1, light, dense. split; [lra | split; [cbn; lra | split; [cbn; lra | ]]]. destruct light_dense as (S0 & S4 & D & U). set (f := fan_of (1/10) 0 1 light dense) in *. destruct root52 as (A & B & E).
  change (spd_1 f) with (ustar f - Rabs 1 / sqrt (dhll f)). rewrite S0, D, U, Rabs_R1. lra.
Qed.
Print Assumptions C94_order_refuted.
