(** C05, C06, C56, C57, C58: time integrators.  Vocabulary: RK_Spec.v; model: RK_Model.v. *)
From Coq Require Import List QArith Qreals Reals Lra Lia FunctionalExtensionality.
From Verif Require Import RK_Model RK_Spec RK_Proofs RK_Proofs2.
Import ListNotations.
Local Open Scope R_scope.

(** ** C05 *)
(** Every configuration of vl2, rk1, rk2, rk3, ssprk5_4 (the last without second order orbital
    splitting) is one explicit Runge-Kutta method, whose coefficients satisfy Butcher's conditions of
    the documented order: exactly for the first four, to 1e-14 for the decimal coefficients. *)
Theorem C05_runge_kutta_of_documented_order : forall i o sh ml ws,
  i <> rk4 -> ~ (i = ssprk5_4 /\ o = Orb2) -> stage_wghts i o sh ml = Some ws ->
  exists A b, order_conditions (doc_order i) (tol i) A b /\
    forall I t dt F S O (v v1 v2 : I -> R), no_source S -> no_orbital ws O ->
      explicit_rk F dt A b v (step i ws t dt F S O v v1 v2).
Proof. exact integrator_rk. Qed.
Print Assumptions C05_runge_kutta_of_documented_order.

(** rk4: the same up to 1e-14 in the weight of the initial state as well. *)
Theorem C05_rk4_fourth_order : forall o sh ml ws, stage_wghts rk4 o sh ml = Some ws ->
  exists a0 A b0 b,
    Forall (fun q => near (1 # 100000000000000) q 1) a0 /\ near (1 # 100000000000000) b0 1 /\
    order_conditions 4 (1 # 100000000000000) A b /\
    forall I t dt F S O (v v1 v2 : I -> R), no_source S -> no_orbital ws O ->
      explicit_rk0 F dt a0 A b0 b v (step rk4 ws t dt F S O v v1 v2).
Proof. intros o sh ml ws H. apply (integrator_rk0 rk4 o sh ml ws); [intros [E _]; discriminate E|exact H]. Qed.
Print Assumptions C05_rk4_fourth_order.

Theorem C05_steady_states_preserved : forall i o sh ml ws I t dt F S O (v v1 v2 : I -> R),
  i <> rk4 -> ~ (i = ssprk5_4 /\ o = Orb2) -> stage_wghts i o sh ml = Some ws ->
  no_source S -> no_orbital ws O -> (forall x, F v x = 0) ->
  forall x, step i ws t dt F S O v v1 v2 x = v x.
Proof.
  intros i o sh ml ws I t dt F S O v v1 v2 Hi Ho H HS HO HF.
  destruct (integrator_rk i o sh ml ws Hi Ho H) as (A & b & _ & Hrk).
  exact (rk_steady I F dt A b v _ (Hrk I t dt F S O v v1 v2 HS HO) HF).
Qed.
Print Assumptions C05_steady_states_preserved.

Theorem C05_constant_rhs : forall i o sh ml ws I t dt (g : I -> R) S O v v1 v2,
  ~ (i = ssprk5_4 /\ o = Orb2) -> stage_wghts i o sh ml = Some ws -> no_source S -> no_orbital ws O ->
  forall x, Rabs (step i ws t dt (fun _ => g) S O v v1 v2 x - (v x + dt * g x))
            <= Q2R (tol i) * (Rabs (v x) + Rabs (dt * g x)).
Proof. exact integrator_constant. Qed.
Print Assumptions C05_constant_rhs.

Theorem C05_constant_rhs_exact : forall i o sh ml ws I t dt (g : I -> R) S O v v1 v2,
  i = vl2 \/ i = rk1 \/ i = rk2 \/ i = rk3 -> stage_wghts i o sh ml = Some ws -> no_source S -> no_orbital ws O ->
  forall x, step i ws t dt (fun _ => g) S O v v1 v2 x = v x + dt * g x.
Proof.
  intros i o sh ml ws I t dt g S O v v1 v2 Hi H HS HO x.
  assert (Ho : splitting_ok i o) by (intros [E _]; subst i; intuition discriminate).
  assert (Ht : tol i = 0%Q) by (destruct Hi as [->|[->|[->| ->]]]; reflexivity).
  pose proof (integrator_constant i o sh ml ws I t dt g S O v v1 v2 Ho H HS HO x) as B.
  rewrite Ht, Q2R0, Rmult_0_l in B.
  pose proof (Rabs_pos (step i ws t dt (fun _ => g) S O v v1 v2 x - (v x + dt * g x))) as P.
  assert (Z : Rabs (step i ws t dt (fun _ => g) S O v v1 v2 x - (v x + dt * g x)) = 0) by lra.
  destruct (Req_dec (step i ws t dt (fun _ => g) S O v v1 v2 x - (v x + dt * g x)) 0) as [E|E]; [lra|].
  apply Rabs_no_R0 in E. contradiction.
Qed.
Print Assumptions C05_constant_rhs_exact.

Theorem C05_linear_rhs : forall i o sh ml ws I t dt A S O (v v1 v2 : I -> R),
  ~ (i = ssprk5_4 /\ o = Orb2) -> stage_wghts i o sh ml = Some ws -> linear A -> no_source S -> no_orbital ws O ->
  forall x, Rabs (step i ws t dt A S O v v1 v2 x - taylor A dt (doc_order i) v x)
            <= Q2R (tol i) * power_size A dt (doc_order i) v x
               + Q2R (top_coeff i) * Rabs (dt ^ (1 + doc_order i) * iterate A (1 + doc_order i) v x).
Proof. exact integrator_linear. Qed.
Print Assumptions C05_linear_rhs.

Theorem C05_linear_rhs_exact : forall i o sh ml ws I t dt A S O (v v1 v2 : I -> R),
  i = vl2 \/ i = rk1 \/ i = rk2 \/ i = rk3 -> stage_wghts i o sh ml = Some ws -> linear A -> no_source S -> no_orbital ws O ->
  forall x, step i ws t dt A S O v v1 v2 x = taylor A dt (doc_order i) v x.
Proof.
  intros i o sh ml ws I t dt A S O v v1 v2 Hi H HA HS HO x.
  assert (Ho : splitting_ok i o) by (intros [E _]; subst i; intuition discriminate).
  assert (Ht : tol i = 0%Q /\ top_coeff i = 0%Q) by (destruct Hi as [->|[->|[->| ->]]]; split; reflexivity).
  pose proof (integrator_linear i o sh ml ws I t dt A S O v v1 v2 Ho H HA HS HO x) as B.
  destruct Ht as [-> ->] in B. rewrite Q2R0, !Rmult_0_l in B.
  pose proof (Rabs_pos (step i ws t dt A S O v v1 v2 x - taylor A dt (doc_order i) v x)) as P.
  assert (Z : Rabs (step i ws t dt A S O v v1 v2 x - taylor A dt (doc_order i) v x) = 0) by lra.
  destruct (Req_dec (step i ws t dt A S O v v1 v2 x - taylor A dt (doc_order i) v x) 0) as [E|E]; [lra|].
  apply Rabs_no_R0 in E. contradiction.
Qed.
Print Assumptions C05_linear_rhs_exact.

(** Finding: ssprk5_4 with second order orbital splitting (the extra update is tied to stage 4 but the
    main stages start at stage 2) does not even preserve a uniform state. *)
Theorem C05_ssprk5_4_second_order_splitting_refuted : forall ws t dt v1 v2,
  stage_wghts ssprk5_4 Orb2 false false = Some ws ->
  step ssprk5_4 ws t dt (fun _ _ => 0) (fun _ _ _ => 0) (fun _ f => f) (fun _ : unit => 1) v1 v2 tt < 9 / 10.
Proof. exact ssprk_orb2. Qed.
Print Assumptions C05_ssprk5_4_second_order_splitting_refuted.

(** ** C06: stage times.  [clock] integrates du/dt = 1 from t with the same registers. *)
Theorem C06_stage_times_partial : forall i sh ml ws pre w post t dt,
  i = vl2 \/ i = rk1 \/ i = rk2 \/ i = rk3 -> stage_wghts i NoOrb sh ml = Some ws -> ws = pre ++ w :: post ->
  clock i pre t dt = t + Q2R (sbeta w) * dt /\ clock i (pre ++ [w]) t dt = t + Q2R (ebeta w) * dt.
Proof. exact stage_times. Qed.
Print Assumptions C06_stage_times_partial.

(** Finding: for rk4 and ssprk5_4 the third stage is given a start time more than dt/10 too early. *)
Theorem C06_fourth_order_stage_times_refuted : forall i sh ml ws,
  i = rk4 \/ i = ssprk5_4 -> stage_wghts i NoOrb sh ml = Some ws ->
  exists w1 w2 w3 post, ws = w1 :: w2 :: w3 :: post /\
    forall dt, 0 < dt -> dt / 10 < clock i [w1; w2] 0 dt - (0 + Q2R (sbeta w3) * dt).
Proof. exact stage_times_bad. Qed.
Print Assumptions C06_fourth_order_stage_times_refuted.

(** ** C56: explicit sources are integrated like the fluxes. *)
Theorem C56_sources_integrated_like_fluxes_partial : forall I i ws t dt F (S : (I -> R) -> I -> R) O v v1 v2,
  i <> ssprk5_4 ->
  step i ws t dt F (fun _ => S) O v v1 v2
  = step i ws t dt (fun f x => F f x + S f x) (fun _ _ _ => 0) O v v1 v2.
Proof. intros. unfold step. rewrite source_as_rhs by assumption. reflexivity. Qed.
Print Assumptions C56_sources_integrated_like_fluxes_partial.

(** Finding: ssprk5_4 forgets the source in the register kept for the last stage: a unit source adds
    less than 0.94 dt. *)
Theorem C56_ssprk5_4_sources_refuted : forall sh ml ws t dt, stage_wghts ssprk5_4 NoOrb sh ml = Some ws -> 0 < dt ->
  step ssprk5_4 ws t dt (fun _ _ => 0) (fun _ _ _ => 1) (fun _ f => f) (fun _ : unit => 0) (fun _ => 0) (fun _ => 0) tt
  < 94 / 100 * dt.
Proof. exact ssprk_source. Qed.
Print Assumptions C56_ssprk5_4_sources_refuted.

(** ** C57: orbital advection covers exactly one step. *)
Theorem C57_orbital_advection_covers_the_step_partial : forall I i o sh ml ws t dt (g v v1 v2 : I -> R),
  i = vl2 \/ i = rk1 \/ i = rk2 \/ i = rk3 -> o <> NoOrb -> stage_wghts i o sh ml = Some ws ->
  forall x, step i ws t dt (fun _ _ => 0) (fun _ _ _ => 0) (fun tau f y => f y + tau * g y) v v1 v2 x = v x + dt * g x.
Proof. exact orbital_total. Qed.
Print Assumptions C57_orbital_advection_covers_the_step_partial.

(** The same for the integrators with rounded coefficients, up to their accuracy. *)
Theorem C57_fourth_order_integrators : forall I i o sh ml ws t dt (g v v1 v2 : I -> R),
  i = rk4 /\ o <> NoOrb \/ i = ssprk5_4 /\ o = Orb1 -> stage_wghts i o sh ml = Some ws ->
  forall x, Rabs (step i ws t dt (fun _ _ => 0) (fun _ _ _ => 0) (fun tau f y => f y + tau * g y) v v1 v2 x - (v x + dt * g x))
            <= Q2R (tol i) * (Rabs (v x) + Rabs (dt * g x)).
Proof. exact orbital_total_high. Qed.
Print Assumptions C57_fourth_order_integrators.
(** Finding: with ssprk5_4 and second order splitting the displacement is that of more than 1.1 steps. *)
Theorem C57_ssprk5_4_second_order_splitting_refuted : forall ws t dt v1 v2, stage_wghts ssprk5_4 Orb2 false false = Some ws -> 0 < dt ->
  step ssprk5_4 ws t dt (fun _ _ => 0) (fun _ _ _ => 0) (fun tau f y => f y + tau) (fun _ : unit => 0) v1 v2 tt > 11 / 10 * dt.
Proof. exact ssprk_orb2_remap. Qed.
Print Assumptions C57_ssprk5_4_second_order_splitting_refuted.

(** ** C58: the weighted average. *)
Theorem C58_weighted_average : forall w0 w1 w2 w3 w4 o a b c d,
  WeightedAve w0 w1 w2 w3 w4 o a b c d
  = Q2R w0 * o + Q2R w1 * a + Q2R w2 * b + Q2R w3 * c + Q2R w4 * d.
Proof. exact WeightedAve_sum. Qed.
Print Assumptions C58_weighted_average.

(** ** The hypotheses are met: every integrator has configurations, and du/dt = -u is covered. *)
Example rk_configurations : forall i, exists ws, stage_wghts i NoOrb false true = Some ws /\ ws <> [].
Proof. intros []; eexists; (split; [reflexivity|discriminate]). Qed.
Example rk_orbital_configurations : forall i o, exists ws, stage_wghts i o false false = Some ws /\ ws <> [].
Proof. intros [] []; eexists; (split; [reflexivity|discriminate]). Qed.
Example rk_linear_decay : linear (fun (f : nat -> R) x => - f x).
Proof. intros a b f g x. ring. Qed.
Example rk2_decay_step : forall ws, stage_wghts rk2 NoOrb false false = Some ws ->
  step rk2 ws 0 (1/2) (fun (f : nat -> R) x => - f x) (fun _ _ _ => 0) (fun _ f => f) (fun _ => 8) (fun _ => 3) (fun _ => 7) 0%nat = 5.
Proof.
  intros ws H. rewrite (C05_linear_rhs_exact rk2 NoOrb false false ws); auto.
  - cbn. field.
  - exact rk_linear_decay.
  - intros t f x. reflexivity.
  - intros w _ _ tau f. reflexivity.
Qed.
Example rk3_time_of_second_stage : exists ws w1 w2 w3, stage_wghts rk3 NoOrb false false = Some ws /\ ws = [w1; w2; w3] /\
  clock rk3 [w1; w2] 10 2 = 11.
Proof.
  do 4 eexists. split; [reflexivity|]. split; [reflexivity|].
  match goal with |- clock rk3 [?a; ?b] _ _ = _ =>
    destruct (C06_stage_times_partial rk3 false false [a; b; main_w (0, 2#3, 1#3, 0, 2#3)%Q (1#2) 1 false] [a] b [main_w (0, 2#3, 1#3, 0, 2#3)%Q (1#2) 1 false] 10 2) as [_ H];
    [auto|reflexivity|reflexivity|] end.
  cbn [app] in H. rewrite H. cbn [ebeta main_w]. unfold Q2R. cbn. lra.
Qed.
