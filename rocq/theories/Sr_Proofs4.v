(** Sound speeds; the inversion of gas at rest. *)
From Coq Require Import Reals Lra Bool Psatz.
From Verif Require Import Time_Model Sr_Model Sr_Spec Sr_Proofs Sr_Proofs2 Sr_Proofs3.
Local Open Scope R_scope.

Lemma cs_bounds g r p : 1 < g <= 2 -> 0 < r -> 0 < p -> 0 < g * p / enthalpy g r p < 1.
Proof.
  intros Hg Hr Hp. pose proof (enthalpy_pos g r p ltac:(lra) Hr ltac:(lra)) as H. split; [apply Rdiv_lt_0_compat; nra | ].
  apply Rmult_lt_reg_r with (enthalpy g r p); [exact H | ]. replace (g * p / enthalpy g r p * enthalpy g r p) with (g * p) by (field; lra).
  unfold enthalpy. assert (K : g <= g / (g - 1)). { apply Rmult_le_reg_r with (g - 1); [lra | ]. replace (g / (g - 1) * (g - 1)) with g by (field; lra). nra. }
  assert (g * p <= g / (g - 1) * p) by (apply Rmult_le_compat_r; lra). lra.
Qed.
Lemma speeds_general s vx : 0 < s -> -1 < vx < 1 ->
  let d := sqrt (s * (1 + s - vx * vx)) in
  - (1 + s) < vx - d /\ vx - d < vx * (1 + s) < vx + d /\ vx + d < 1 + s.
Proof.
  intros Hs Hv d. assert (V : vx * vx < 1) by nra. assert (D0 : 0 < s * (1 + s - vx * vx)) by (apply Rmult_lt_0_compat; lra).
  assert (D1 : 0 < d) by (apply sqrt_lt_R0; exact D0). assert (D2 : d * d = s * (1 + s - vx * vx)) by (apply sqrt_sqrt; lra). clearbody d.
  assert (U : d * d < (1 + s - vx) * (1 + s - vx)).
  { assert (0 < (1 - vx) * (1 - vx) * (1 + s)) by (apply Rmult_lt_0_compat; nra). rewrite D2. lra. }
  assert (L : d * d < (1 + s + vx) * (1 + s + vx)).
  { assert (0 < (1 + vx) * (1 + vx) * (1 + s)) by (apply Rmult_lt_0_compat; nra). rewrite D2. lra. }
  assert (M : (s * vx) * (s * vx) < d * d). { rewrite D2. assert (s * (vx * vx) < 1 + s - vx * vx) by nra. nra. }
  repeat split; nra.
Qed.
Lemma speeds_ok g rh p vx l2 :
  1 < g <= 2 -> 0 < g * p / rh < 1 -> -1 < vx < 1 -> 0 < l2 ->
  let '(lp, lm) := SoundSpeedsSR g rh p vx l2 in -1 < lm /\ lm < vx < lp /\ lp < 1.
Proof.
  intros Hg Hc Hv Hl. unfold SoundSpeedsSR. cbv zeta. set (cs := g * p / rh) in *. clearbody cs.
  assert (Hs : 0 < cs / (l2 * (1 - cs))) by (apply Rdiv_lt_0_compat; [lra | apply Rmult_lt_0_compat; lra]). set (s := cs / (l2 * (1 - cs))) in *. clearbody s.
  pose proof (speeds_general s vx Hs Hv) as H. cbv zeta in H. set (d := sqrt (s * (1 + s - vx * vx))) in *. clearbody d. destruct H as (A & (B1 & B2) & C).
  assert (X : forall y, 1 / (1 + s) * y * (1 + s) = y) by (intros; field; lra).
  repeat split; apply Rmult_lt_reg_r with (1 + s); try lra; rewrite X; lra.
Qed.
(** Motion along the axis: the sound speed is added to the velocity relativistically. *)
Lemma speeds_add g rh p vx cs :
  0 < cs < 1 -> g * p / rh = cs * cs -> -1 < vx < 1 ->
  SoundSpeedsSR g rh p vx (1 / (1 - vx * vx)) = (add_velocities vx cs, add_velocities vx (- cs)).
Proof.
  intros Hc Hg Hv. unfold SoundSpeedsSR. rewrite Hg. assert (V : 0 < 1 - vx * vx) by nra. assert (C2 : 0 < 1 - cs * cs) by nra.
  set (s := cs * cs / (1 / (1 - vx * vx) * (1 - cs * cs))).
  assert (Es : s = cs * cs * (1 - vx * vx) / (1 - cs * cs)) by (unfold s; field; lra).
  assert (E1 : 1 + s = (1 - vx * vx * (cs * cs)) / (1 - cs * cs)) by (rewrite Es; field; lra).
  assert (Ed : sqrt (s * (1 + s - vx * vx)) = cs * (1 - vx * vx) / (1 - cs * cs)).
  { replace (s * (1 + s - vx * vx)) with ((cs * (1 - vx * vx) / (1 - cs * cs)) * (cs * (1 - vx * vx) / (1 - cs * cs))) by (rewrite Es; field; lra).
    apply sqrt_square. apply Rmult_le_pos; [nra | left; apply Rinv_0_lt_compat; lra]. }
  rewrite Ed, E1. assert (P1 : 0 < 1 + vx * cs) by nra. assert (P2 : 0 < 1 - vx * cs) by nra. assert (P3 : 0 < 1 - vx * vx * (cs * cs)) by nra.
  assert (F : 1 - vx * vx * (cs * cs) = (1 + vx * cs) * (1 - vx * cs)) by ring.
  unfold add_velocities. f_equal; rewrite F; field; repeat split; lra.
Qed.

(** Gas at rest, gamma = 2: the map is p -> (t + p) / 2 with t the excess of energy over rest mass. *)
Lemma next_rest dd ee pm p : tol <= ee + p -> next 2 dd ee 0 pm p = Rmax ((ee - dd + p) / 2) pm.
Proof.
  intros H. pose proof tol_pos. pose proof tol_small. rewrite next_eq; [ | lra | lra | split; [lra | apply Rmult_le_pos; nra]].
  f_equal. unfold FF. replace (1 - 0 / ((ee + p) * (ee + p))) with 1 by (unfold Rdiv; ring). rewrite sqrt_1. field. lra.
Qed.
Lemma iterate_stuck n g dd ee msq pm : next g dd ee msq pm pm = pm -> iterate n g dd ee msq pm pm = None.
Proof.
  intros N. induction n as [ | n IH]; [reflexivity | ]. cbn [iterate]. rewrite !N.
  assert (C : converged pm pm pm = false). { unfold converged. apply andb_false_iff. left. apply ltR_false. lra. }
  rewrite !C. destruct (Req_EM_T (pm - pm) 0) as [z | z]; [exact IH | exfalso; apply z; ring].
Qed.
Lemma not_converged pm x y : tol <= Rabs (x - y) -> converged pm x y = false.
Proof. intros H. unfold converged. apply andb_false_iff. right. apply ltR_false. exact H. Qed.
Lemma iterate_rest n dd ee p0 t :
  tol < t -> 0 < ee -> ee - dd = t -> tol <= p0 -> 4 * tol <= Rabs (p0 - t) -> iterate (S (S n)) 2 dd ee 0 tol p0 = Some t.
Proof.
  intros Ht He Et H0 Hd. pose proof tol_pos as T0. pose proof tol_small as T1.
  assert (N : forall p, tol <= p -> next 2 dd ee 0 tol p = (t + p) / 2). { intros p Hp. rewrite next_rest by lra. rewrite Et. apply Rmax_left. lra. }
  assert (N1 : next 2 dd ee 0 tol p0 = (t + p0) / 2) by (apply N; lra).
  assert (N2 : next 2 dd ee 0 tol ((t + p0) / 2) = (3 * t + p0) / 4) by (rewrite N by lra; field).
  assert (O : iterate (S n) 2 dd ee 0 tol t = Some t).
  { assert (N3 : next 2 dd ee 0 tol t = t) by (rewrite N by lra; field). rewrite iterate_once; rewrite N3; [reflexivity | ]. unfold converged. apply andb_true_iff. rewrite !ltR_true.
    replace (t - t) with 0 by ring. rewrite Rabs_R0. lra. }
  assert (A : forall c x, 0 < c -> x = c * (p0 - t) \/ x = - (c * (p0 - t)) -> Rabs x = c * Rabs (p0 - t)).
  { intros c x Hc [-> | ->]; rewrite ?Rabs_Ropp, Rabs_mult, (Rabs_right c) by lra; reflexivity. }
  set (m := S n) in *. cbn [iterate]. rewrite N1, N2.
  rewrite (not_converged tol ((t + p0) / 2) p0) by (rewrite (A (1 / 2)); [lra | lra | right; field]).
  rewrite (not_converged tol ((3 * t + p0) / 4) ((t + p0) / 2)) by (rewrite (A (1 / 4)); [lra | lra | right; field]).
  assert (Z : p0 - t <> 0). { intros Z. rewrite Z, Rabs_R0 in Hd. lra. }
  destruct (Req_EM_T _ 0) as [z | z]; [exfalso; apply Z; lra | ].
  replace (((3 * t + p0) / 4 - (t + p0) / 2) / ((t + p0) / 2 - p0)) with (1 / 2) by (field; lra).
  assert (B : ltR (1 - tol) (Rabs (1 / 2)) = false) by (apply ltR_false; rewrite Rabs_right; lra). rewrite B.
  replace ((t + p0) / 2 + ((3 * t + p0) / 4 - (t + p0) / 2) / (1 - 1 / 2)) with t by field. rewrite (Rmax_left t tol) by lra.
  rewrite (not_converged tol t ((3 * t + p0) / 4)) by (rewrite (A (1 / 4)); [lra | lra | right; field]). exact O.
Qed.
Lemma normal_rest dd ee p0 t :
  tol < t -> 0 < ee -> ee - dd = t -> tol <= p0 -> 4 * tol <= Rabs (p0 - t) ->
  ConservedToPrimitiveNormal 2 dd ee 0 0 0 0 p0 = Some ({| rho := dd; pgas := t; u1 := 0; u2 := 0; u3 := 0 |}, 1).
Proof.
  intros Ht He Et H0 Hd. pose proof tol_pos as T0. pose proof tol_small as T1. unfold ConservedToPrimitiveNormal. rewrite (Rmax_right (- ee) tol) by lra. rewrite (Rmax_left p0) by lra.
  rewrite (iterate_rest 3 dd ee p0 t) by assumption. unfold a_of. rewrite Rmax_left by lra.
  rewrite vsq_eq; [ | lra | split; [lra | apply Rmult_le_pos; nra]].
  replace (1 / (1 - 0 / ((ee + t) * (ee + t)))) with 1 by (replace (0 / ((ee + t) * (ee + t))) with 0 by (unfold Rdiv; ring); field). rewrite sqrt_1.
  replace (dd / 1) with dd by field. replace (1 * (0 / (ee + t))) with 0 by (unfold Rdiv; ring). reflexivity.
Qed.
Definition at_rest (r p : R) : prim := {| rho := r; pgas := p; u1 := 0; u2 := 0; u3 := 0 |}.
Lemma p2c_rest r p : PrimitiveToConserved 2 (at_rest r p) = {| DD := r; EE := r + p; MM1 := 0; MM2 := 0; MM3 := 0 |}.
Proof.
  unfold PrimitiveToConserved, at_rest. cbn [rho pgas u1 u2 u3]. replace (1 + 0 * 0 + 0 * 0 + 0 * 0) with 1 by ring. rewrite sqrt_1. f_equal; field.
Qed.
Lemma msq0 : 0 * 0 + 0 * 0 + 0 * 0 = 0. Proof. ring. Qed.
(** Cold gas is lost. *)
Lemma cold_lost r :
  1 <= r -> let e := {| gam := 2; dfloor := tol / 4; pfloor := tol / 4; gmax := 100 |} in
  snd (ConservedToPrimitive e (PrimitiveToConserved 2 (at_rest r (tol / 2))) (at_rest r (tol / 2))) = at_rest (tol / 4) (tol / 4).
Proof.
  intros Hr e. pose proof tol_pos as T0. pose proof tol_small as T1. rewrite p2c_rest. unfold ConservedToPrimitive. cbn [DD EE MM1 MM2 MM3 gam dfloor pfloor gmax e]. rewrite msq0.
  assert (C1 : ltR r (tol / 4) = false) by (apply ltR_false; lra). rewrite C1.
  assert (C2 : ltR (r + tol / 2) (tol / 4 + tol / 4 / (2 - 1)) = false) by (apply ltR_false; lra). rewrite C2.
  assert (C3 : ltR ((1 - tol) * ((r + tol / 2) * (r + tol / 2))) 0 = false) by (apply ltR_false; apply Rmult_le_pos; nra). rewrite C3.
  cbn [at_rest rho pgas u1 u2 u3]. rewrite (Rmax_left (tol / 2)) by lra.
  assert (N : ConservedToPrimitiveNormal 2 r (r + tol / 2) 0 0 0 0 (tol / 2) = None).
  { unfold ConservedToPrimitiveNormal. rewrite (Rmax_right (- (r + tol / 2)) tol), (Rmax_right (tol / 2)) by lra.
    rewrite iterate_stuck; [reflexivity | ]. rewrite next_rest by lra. apply Rmax_right. lra. }
  rewrite N. cbv beta iota zeta.
  clear C1 C2 C3 N. repeat match goal with |- context [ltR ?a ?b] => destruct (ltR a b) end; reflexivity.
Qed.
(** The pressure floor at rest doubles the floor. *)
Lemma floor_overshoots :
  let e := {| gam := 2; dfloor := 1 / 2; pfloor := 1; gmax := 100 |} in
  snd (ConservedToPrimitive e (PrimitiveToConserved 2 (at_rest 1 (1 / 2))) (at_rest 1 (1 / 2))) = at_rest 1 2.
Proof.
  intros e. pose proof tol_pos as T0. pose proof tol_small as T1. rewrite p2c_rest. unfold ConservedToPrimitive. cbn [DD EE MM1 MM2 MM3 gam dfloor pfloor gmax e]. rewrite msq0.
  assert (C1 : ltR 1 (1 / 2) = false) by (apply ltR_false; lra). rewrite C1.
  assert (C2 : ltR (1 + 1 / 2) (1 / 2 + 1 / (2 - 1)) = false) by (apply ltR_false; lra). rewrite C2.
  assert (C3 : ltR ((1 - tol) * ((1 + 1 / 2) * (1 + 1 / 2))) 0 = false) by (apply ltR_false; lra). rewrite C3.
  cbn [at_rest rho pgas u1 u2 u3]. rewrite (Rmax_right (1 / 2) 1) by lra.
  rewrite (normal_rest 1 (1 + 1 / 2) 1 (1 / 2)) by (try lra; rewrite Rabs_right; lra). cbn [rho pgas u1 u2 u3].
  rewrite (Rmax_right (1 / 2 - 1) 0), (Rmax_left (1 - 1 / 2) 0) by lra.
  assert (C4 : ltR 0 (1 - 1 / 2) = true) by (apply ltR_true; lra). rewrite C4, orb_true_r.
  replace (1 + 0 * 1) with 1 by ring. replace (1 + 1 / 2 + ((0 + 2 / (2 - 1) * (1 - 1 / 2)) * (1 * 1) + (1 - 1 / 2))) with 3 by field.
  rewrite (normal_rest 1 3 1 2) by (try lra; rewrite Rabs_left; lra). cbv beta iota zeta. cbn [rho pgas u1 u2 u3].
  assert (C5 : ltR 100 1 = false) by (apply ltR_false; lra). rewrite C5. cbn [rho pgas u1 u2 u3]. rewrite C1.
  assert (C6 : ltR 2 1 = false) by (apply ltR_false; lra). rewrite C6. reflexivity.
Qed.
(** Nothing to correct. *)
Lemma c2p_clean e c w q ga :
  1 < gam e -> dfloor e <= DD c -> dfloor e + pfloor e / (gam e - 1) <= EE c ->
  MM1 c * MM1 c + MM2 c * MM2 c + MM3 c * MM3 c <= (1 - tol) * (EE c * EE c) ->
  ConservedToPrimitiveNormal (gam e) (DD c) (EE c) (MM1 c * MM1 c + MM2 c * MM2 c + MM3 c * MM3 c) (MM1 c) (MM2 c) (MM3 c) (Rmax (pgas w) (pfloor e)) = Some (q, ga) ->
  dfloor e <= rho q -> pfloor e <= pgas q -> ga <= gmax e -> ConservedToPrimitive e c w = (c, q).
Proof.
  intros Hg Hd He Hm N Hr Hp Hl. unfold ConservedToPrimitive. rewrite <- ltR_false in Hd, He, Hm. rewrite Hd, He, Hm, N.
  rewrite (Rmax_right (dfloor e - rho q)), (Rmax_right (pfloor e - pgas q)) by lra.
  assert (C4 : ltR 0 0 = false) by (apply ltR_false; lra). rewrite C4. replace (false || false) with false by reflexivity. cbv beta iota zeta.
  rewrite <- ltR_false in Hl, Hr, Hp. rewrite Hl, Hr, Hp. destruct q; reflexivity.
Qed.
