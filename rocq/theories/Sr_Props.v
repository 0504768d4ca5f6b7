(** C90: special-relativistic hydrodynamics. *)
From Coq Require Import Reals Lra Bool Psatz.
From Verif Require Import Time_Model Sr_Model Sr_Spec Sr_Proofs Sr_Proofs2 Sr_Proofs3 Sr_Proofs4.
Local Open Scope R_scope.

(** The conserved variables are the densities of rest mass, energy and momentum of the gas. *)
Theorem C90_conserved : forall g w, let c := PrimitiveToConserved g w in
  describes g (DD c) (EE c) (MM1 c) (MM2 c) (MM3 c) (rho w) (pgas w) (u1 w) (u2 w) (u3 w).
Proof. exact p2c_describes. Qed.
Print Assumptions C90_conserved.

(** They determine the gas: no two states of positive density share them. *)
Theorem C90_unique : forall g d e m1 m2 m3 r p x y z r' p' x' y' z',
  1 < g <= 2 -> 0 < r -> 0 <= p -> 0 < r' -> 0 <= p' ->
  describes g d e m1 m2 m3 r p x y z -> describes g d e m1 m2 m3 r' p' x' y' z' -> r = r' /\ p = p' /\ x = x' /\ y = y' /\ z = z'.
Proof. exact describes_unique. Qed.
Print Assumptions C90_unique.

(** Converting a state above the floors to conserved variables and back returns it exactly, when the cell still holds its pressure. *)
Theorem C90_round_trip : forall e w w0,
  1 < gam e <= 2 -> 0 < dfloor e <= rho w -> pfloor e <= pgas w -> / 10 ^ 12 < pgas w ->
  lfac (u1 w) (u2 w) (u3 w) <= gmax e -> lfac (u1 w) (u2 w) (u3 w) <= 700 -> pgas w0 = pgas w ->
  ConservedToPrimitive e (PrimitiveToConserved (gam e) w) w0 = (PrimitiveToConserved (gam e) w, w).
Proof. exact c2p_recovers. Qed.
Print Assumptions C90_round_trip.

(** Whatever pressure the search starts from: the state it accepts has exactly the given rest-mass density, the energy up to the tolerance, and a momentum along the given one. *)
Theorem C90_accuracy : forall e c w q ga,
  1 < gam e <= 2 -> 0 <= dfloor e -> 0 < dfloor e + pfloor e / (gam e - 1) ->
  dfloor e <= DD c -> dfloor e + pfloor e / (gam e - 1) <= EE c ->
  MM1 c * MM1 c + MM2 c * MM2 c + MM3 c * MM3 c <= (1 - / 10 ^ 12) * (EE c * EE c) ->
  DD c * DD c + (MM1 c * MM1 c + MM2 c * MM2 c + MM3 c * MM3 c) <= EE c * EE c ->
  ConservedToPrimitiveNormal (gam e) (DD c) (EE c) (MM1 c * MM1 c + MM2 c * MM2 c + MM3 c * MM3 c) (MM1 c) (MM2 c) (MM3 c) (Rmax (pgas w) (pfloor e)) = Some (q, ga) ->
  dfloor e <= rho q -> pfloor e <= pgas q -> ga <= gmax e ->
  ConservedToPrimitive e c w = (c, q) /\
  exists d' e' m1' m2' m3', describes (gam e) d' e' m1' m2' m3' (rho q) (pgas q) (u1 q) (u2 q) (u3 q) /\
    d' = DD c /\
    Rabs (e' - EE c) <= (lfac (u1 q) (u2 q) (u3 q)) ^ 2 * (gam e / (gam e - 1) * (1 + gam e / (gam e - 1))) * / 10 ^ 12 /\
    m1' * (EE c + pgas q) = MM1 c * (e' + pgas q) /\ m2' * (EE c + pgas q) = MM2 c * (e' + pgas q) /\ m3' * (EE c + pgas q) = MM3 c * (e' + pgas q).
Proof.
  intros e c w q ga Hg Hf Hf2 Hd He Hm Ha N Hr Hp Hl. split; [eapply c2p_clean; try eassumption; lra | ].
  destruct (normal_accuracy (gam e) (DD c) (EE c) _ _ _ _ q ga Hg ltac:(lra) ltac:(lra) Hm Ha N) as (A & B & C & D & E).
  set (c' := PrimitiveToConserved (gam e) q) in *. exists (DD c'), (EE c'), (MM1 c'), (MM2 c'), (MM3 c').
  split; [apply p2c_describes | repeat split; assumption].
Qed.
Print Assumptions C90_accuracy.

(** After the conversion every cell respects the floors and the limit of the Lorentz factor, and its conserved variables are either untouched or those of the primitive ones. *)
Theorem C90_settled : forall e c w,
  1 < gam e -> 0 < dfloor e -> 0 < pfloor e -> 1 <= gmax e ->
  let c' := fst (ConservedToPrimitive e c w) in let w' := snd (ConservedToPrimitive e c w) in
  dfloor e <= rho w' /\ pfloor e <= pgas w' /\ lfac (u1 w') (u2 w') (u3 w') <= gmax e /\
  (c' = c \/ describes (gam e) (DD c') (EE c') (MM1 c') (MM2 c') (MM3 c') (rho w') (pgas w') (u1 w') (u2 w') (u3 w')).
Proof.
  intros e c w Hg Hd Hp Hx. destruct (c2p_settled e c w Hg Hd Hp Hx) as (A & B & C & D). cbv zeta. repeat split; try assumption.
  destruct D as [D | D]; [left; exact D | right; rewrite D; apply p2c_describes].
Qed.
Print Assumptions C90_settled.

(** Sound travels slower than light and faster than the gas, in both directions. *)
Theorem C90_sound_speeds : forall g r p x y z,
  1 < g <= 2 -> 0 < r -> 0 < p ->
  let l := lfac x y z in
  let '(lp, lm) := SoundSpeedsSR g (enthalpy g r p) p (x / l) (l ^ 2) in -1 < lm /\ lm < x / l < lp /\ lp < 1.
Proof.
  intros g r p x y z Hg Hr Hp l. pose proof (lfac_ge x y z) as L. pose proof (lfac_sq x y z) as L2. fold l in L, L2.
  apply speeds_ok; [exact Hg | apply cs_bounds; assumption | | apply pow_lt; lra].
  assert (x * x < l * l) by (rewrite L2; unfold usq; nra).
  assert (- l < x < l) by nra. split; apply Rmult_lt_reg_r with l; try lra; replace (x / l * l) with x by (field; lra); lra.
Qed.
Print Assumptions C90_sound_speeds.

(** Along the motion the sound speed is added to the velocity by the relativistic rule. *)
Theorem C90_sound_addition : forall g rh p v cs,
  0 < cs < 1 -> g * p / rh = cs * cs -> -1 < v < 1 ->
  SoundSpeedsSR g rh p v (1 / (1 - v * v)) = (add_velocities v cs, add_velocities v (- cs)).
Proof. exact speeds_add. Qed.
Print Assumptions C90_sound_addition.

(** Refuted: that gas above the floors keeps its density.  Gas of any density at rest with a pressure of half of 1e-12, twice the pressure floor, is replaced by the density floor although the cell held that very state. *)
Theorem C90_cold_refuted : forall r, 1 <= r ->
  exists e w, dfloor e <= rho w /\ pfloor e < pgas w /\ rho w = r /\ lfac (u1 w) (u2 w) (u3 w) <= gmax e /\
    rho (snd (ConservedToPrimitive e (PrimitiveToConserved (gam e) w) w)) = dfloor e /\ dfloor e < / 10 ^ 12.
Proof.
  intros r Hr. exists {| gam := 2; dfloor := tol / 4; pfloor := tol / 4; gmax := 100 |}, (at_rest r (tol / 2)).
  pose proof tol_pos. pose proof tol_small. pose proof (cold_lost r Hr) as C. cbv zeta in C. cbn [gam dfloor pfloor gmax] in *. rewrite C. cbn [at_rest rho pgas u1 u2 u3].
  replace (lfac 0 0 0) with 1. 2: { unfold lfac, usq. replace (1 + (0 ^ 2 + 0 ^ 2 + 0 ^ 2)) with 1 by ring. symmetry. apply sqrt_1. }
  fold tol. repeat split; lra.
Qed.
Print Assumptions C90_cold_refuted.

(** Refuted: that gas below the pressure floor is raised to the floor.  The energy added to gas at rest at half of the floor takes it to twice the floor. *)
Theorem C90_floor_refuted : exists e w,
  dfloor e < rho w /\ 2 * pgas w = pfloor e /\ u1 w = 0 /\ u2 w = 0 /\ u3 w = 0 /\
  pgas (snd (ConservedToPrimitive e (PrimitiveToConserved (gam e) w) w)) = 2 * pfloor e.
Proof.
  exists {| gam := 2; dfloor := 1 / 2; pfloor := 1; gmax := 100 |}, (at_rest 1 (1 / 2)).
  pose proof floor_overshoots as C. cbv zeta in C. cbn [gam dfloor pfloor gmax] in *. rewrite C. cbn [at_rest rho pgas u1 u2 u3]. repeat split; lra.
Qed.
Print Assumptions C90_floor_refuted.

(** The hypotheses are met: moving gas; a search that ends after several iterations. *)
Definition ex_eos : eos := {| gam := 5 / 3; dfloor := / 10 ^ 6; pfloor := / 10 ^ 8; gmax := 1000 |}.
Definition ex_gas : prim := {| rho := 1; pgas := 1 / 10; u1 := 2; u2 := 1; u3 := 2 |}.
Example C90_example_moving : lfac (u1 ex_gas) (u2 ex_gas) (u3 ex_gas) = sqrt 10 /\
  ConservedToPrimitive ex_eos (PrimitiveToConserved (gam ex_eos) ex_gas) ex_gas = (PrimitiveToConserved (gam ex_eos) ex_gas, ex_gas).
Proof.
  assert (L : lfac (u1 ex_gas) (u2 ex_gas) (u3 ex_gas) = sqrt 10) by (unfold lfac, usq, ex_gas; cbn [u1 u2 u3]; f_equal; ring).
  assert (S : sqrt 10 <= 4). { replace 4 with (sqrt (4 * 4)) by (apply sqrt_square; lra). apply sqrt_le_1_alt. lra. }
  split; [exact L | ]. apply C90_round_trip; rewrite ?L; unfold ex_eos, ex_gas; cbn [gam dfloor pfloor gmax rho pgas]; simpl pow; try lra; reflexivity.
Qed.
Definition rest_eos : eos := {| gam := 2; dfloor := / 10 ^ 6; pfloor := / 10 ^ 8; gmax := 1000 |}.
Definition rest_cons : cons := {| DD := 1; EE := 3; MM1 := 0; MM2 := 0; MM3 := 0 |}.
Example C90_example_search : ConservedToPrimitiveNormal 2 1 3 0 0 0 0 1 = Some ({| rho := 1; pgas := 2; u1 := 0; u2 := 0; u3 := 0 |}, 1) /\
  fst (ConservedToPrimitive rest_eos rest_cons {| rho := 5; pgas := 1; u1 := 0; u2 := 3; u3 := 0 |}) = rest_cons.
Proof.
  pose proof tol_pos. pose proof tol_small. assert (N : ConservedToPrimitiveNormal 2 1 3 0 0 0 0 1 = Some ({| rho := 1; pgas := 2; u1 := 0; u2 := 0; u3 := 0 |}, 1)) by (apply normal_rest; try lra; rewrite Rabs_left; lra).
  split; [exact N | ]. assert (P : 0 < / 10 ^ 12) by exact tol_pos. assert (P1 : / 10 ^ 12 < / 1000000) by exact tol_small.
  rewrite (proj1 (C90_accuracy rest_eos rest_cons {| rho := 5; pgas := 1; u1 := 0; u2 := 3; u3 := 0 |} {| rho := 1; pgas := 2; u1 := 0; u2 := 0; u3 := 0 |} 1
    ltac:(cbn; lra) ltac:(cbn; lra) ltac:(cbn; lra) ltac:(cbn; lra) ltac:(cbn; lra) ltac:(unfold rest_cons; cbn [DD EE MM1 MM2 MM3]; rewrite msq0; lra) ltac:(cbn; lra)
    ltac:(unfold rest_cons, rest_eos; cbn [gam pfloor pgas DD EE MM1 MM2 MM3]; rewrite msq0, Rmax_left by (simpl pow; lra); exact N)
    ltac:(cbn; lra) ltac:(cbn; lra) ltac:(cbn; lra))). reflexivity.
Qed.
Example C90_example_sound : SoundSpeedsSR 2 8 1 (1 / 2) (1 / (1 - 1 / 2 * (1 / 2))) = (4 / 5, 0).
Proof. rewrite (C90_sound_addition 2 8 1 (1 / 2) (1 / 2)) by lra. unfold add_velocities. f_equal; field. Qed.
