(** C96: the LLF and HLLE solvers of special-relativistic hydrodynamics. *)
From Coq Require Import Reals Lra Bool.
From Verif Require Import Time_Model Time_Proofs Sr_Model Sr_Spec Sr_Proofs2 Sr_Proofs4 Srr_Model Srr_Spec Srr_Proofs.
Local Open Scope R_scope.

(** The waves considered are slower than light and include the sound waves of both states. *)
Theorem C96_speeds : forall g wl wr, 1 < g <= 2 -> gas_ok wl -> gas_ok wr ->
  -1 < lambda_l g wl wr /\ lambda_l g wl wr < lambda_r g wl wr /\ lambda_r g wl wr < 1 /\
  (forall w, w = wl \/ w = wr -> let '(lp, lm) := SoundSpeedsSR g (enthalpy g (rho w) (pgas w)) (pgas w) (velocity w) (lfac (u1 w) (u2 w) (u3 w) ^ 2) in lambda_l g wl wr <= lm /\ lp <= lambda_r g wl wr).
Proof.
  intros g wl wr G Gl Gr. destruct (lambda_order g wl wr G Gl Gr) as (A & B & C). repeat (split; [assumption | ]). intros w H.
  assert (E : lambdas g w = SoundSpeedsSR g (enthalpy g (rho w) (pgas w)) (pgas w) (velocity w) (lfac (u1 w) (u2 w) (u3 w) ^ 2)) by (unfold lambdas, velocity; rewrite wgas_enthalpy, lorentz_lfac; f_equal; ring).
  rewrite <- E. assert (K : lambda_l g wl wr <= snd (lambdas g w) /\ fst (lambdas g w) <= lambda_r g wl wr) by (unfold lambda_l, lambda_r; destruct H as [-> | ->]; split; first [apply Rmin_l | apply Rmin_r | apply Rmax_l | apply Rmax_r]).
  destruct (lambdas g w) as [lp lm]. exact K.
Qed.
Print Assumptions C96_speeds.

(** Equal states give the flux of that gas. *)
Theorem C96_consistent : forall g c w, 1 < g <= 2 -> gas_ok w -> densities g c w ->
  LLF_SR g w w = carried c (velocity w) (pgas w) /\ HLLE_SR g w w = carried c (velocity w) (pgas w).
Proof.
  intros g c w G Gw H. rewrite <- (flux_carried g c w H). destruct (lambda_order g w w G Gw Gw) as (_ & O & _). split.
  - unfold LLF_SR. cbv zeta. apply cons_ext; cbn [each DD EE MM1 MM2 MM3]; field.
  - unfold HLLE_SR. cbv zeta. destruct (leR 0 _); [reflexivity | ]. destruct (leR _ 0); [reflexivity | ]. apply cons_ext; cbn [each DD EE MM1 MM2 MM3]; field; lra.
Qed.
Print Assumptions C96_consistent.

(** When all waves move in one direction HLLE returns the flux of the gas upstream. *)
Theorem C96_upwind : forall g cl cr wl wr, 1 < g <= 2 -> gas_ok wl -> gas_ok wr -> densities g cl wl -> densities g cr wr ->
  (0 <= lambda_l g wl wr -> HLLE_SR g wl wr = carried cl (velocity wl) (pgas wl)) /\ (lambda_r g wl wr <= 0 -> HLLE_SR g wl wr = carried cr (velocity wr) (pgas wr)).
Proof.
  intros g cl cr wl wr G Gl Gr Hl Hr. rewrite <- (flux_carried g cl wl Hl), <- (flux_carried g cr wr Hr). destruct (lambda_order g wl wr G Gl Gr) as (_ & O & _). unfold HLLE_SR. cbv zeta. split; intro H.
  - replace (leR 0 (lambda_l g wl wr)) with true; [reflexivity | ]. symmetry. apply leR_true. exact H.
  - replace (leR 0 (lambda_l g wl wr)) with false by (symmetry; apply leR_false; lra). replace (leR (lambda_r g wl wr) 0) with true; [reflexivity | ]. symmetry. apply leR_true. exact H.
Qed.
Print Assumptions C96_upwind.

(** Mirroring the states mirrors the flux. *)
Theorem C96_mirror : forall g wl wr, 1 < g <= 2 -> gas_ok wl -> gas_ok wr ->
  LLF_SR g (mirror wr) (mirror wl) = mirror_flux (LLF_SR g wl wr) /\ HLLE_SR g (mirror wr) (mirror wl) = mirror_flux (HLLE_SR g wl wr).
Proof.
  intros g wl wr G Gl Gr. destruct (lambda_order g wl wr G Gl Gr) as (_ & O & _). unfold LLF_SR, HLLE_SR. cbv zeta. rewrite lambda_l_mirror, lambda_r_mirror, !cons_mirror, !flux_mirror. split.
  - rewrite Ropp_involutive, Rmax_comm. apply cons_ext; cbn [each mirror_flux umirror DD EE MM1 MM2 MM3]; ring.
  - destruct (leR 0 (lambda_l g wl wr)) eqn:A; [apply leR_true in A | apply leR_false in A].
    + replace (leR 0 (- lambda_r g wl wr)) with false by (symmetry; apply leR_false; lra). replace (leR (- lambda_l g wl wr) 0) with true by (symmetry; apply leR_true; lra). reflexivity.
    + replace (leR (- lambda_l g wl wr) 0) with false by (symmetry; apply leR_false; lra). destruct (leR (lambda_r g wl wr) 0) eqn:B; [apply leR_true in B | apply leR_false in B].
      * replace (leR 0 (- lambda_r g wl wr)) with true by (symmetry; apply leR_true; lra). reflexivity.
      * replace (leR 0 (- lambda_r g wl wr)) with false by (symmetry; apply leR_false; lra). apply cons_ext; cbn [each mirror_flux umirror DD EE MM1 MM2 MM3]; field; lra.
Qed.
Print Assumptions C96_mirror.

(** The flux is that of two waves slower than light, one to each side, around densities that a gas can have: positive rest mass, and more energy than rest mass and momentum require. *)
Definition fan (a b : R) (f c fl cl fr cr : cons) : Prop := -1 < a <= 0 /\ 0 <= b < 1 /\ a < b /\ jump a f c fl cl /\ jump b f c fr cr /\ admissible c.
Lemma between_jump a b g wl wr f : a < b -> f = each (fun fl fr ul ur => (b * fl - a * fr + a * b * (ur - ul)) / (b - a)) (flux_of g wl) (flux_of g wr) (cons_of g wl) (cons_of g wr) ->
  jump a f (between a b g wl wr) (flux_of g wl) (cons_of g wl) /\ jump b f (between a b g wl wr) (flux_of g wr) (cons_of g wr).
Proof. intros H ->. unfold jump, across, between, each. cbn [DD EE MM1 MM2 MM3]. split; repeat apply conj; field; lra. Qed.
Lemma llf_fan g wl wr : 1 < g <= 2 -> gas_ok wl -> gas_ok wr -> let s := Rmax (lambda_r g wl wr) (- lambda_l g wl wr) in
  fan (- s) s (LLF_SR g wl wr) (between (- s) s g wl wr) (flux_of g wl) (cons_of g wl) (flux_of g wr) (cons_of g wr).
Proof.
  intros G Gl Gr s. destruct (lambda_order g wl wr G Gl Gr) as (A & O & B). pose proof (Rmax_l (lambda_r g wl wr) (- lambda_l g wl wr)) as M1. pose proof (Rmax_r (lambda_r g wl wr) (- lambda_l g wl wr)) as M2. assert (M3 : s < 1) by (apply Rmax_lub_lt; lra). fold s in M1, M2. assert (S0 : 0 < s) by lra.
  assert (J : LLF_SR g wl wr = each (fun fl fr ul ur => (s * fl - (- s) * fr + (- s) * s * (ur - ul)) / (s - - s)) (flux_of g wl) (flux_of g wr) (cons_of g wl) (cons_of g wr)).
  { unfold LLF_SR. cbv zeta. fold s. clearbody s. apply cons_ext; cbn [each DD EE MM1 MM2 MM3]; field; lra. }
  destruct (between_jump (- s) s g wl wr _ ltac:(lra) J) as (J1 & J2). unfold fan. repeat (split; [lra | ]). split; [exact J1 | split; [exact J2 | ]]. apply cone_admissible, between_cone; try assumption; try lra.
  - pose proof (Rmin_l (snd (lambdas g wl)) (snd (lambdas g wr))). unfold lambda_l in M2. lra.
  - pose proof (Rmax_r (fst (lambdas g wl)) (fst (lambdas g wr))). unfold lambda_r in M1. lra.
Qed.
Lemma hlle_fan g wl wr : 1 < g <= 2 -> gas_ok wl -> gas_ok wr -> let a := Rmin (lambda_l g wl wr) 0 in let b := Rmax (lambda_r g wl wr) 0 in
  fan a b (HLLE_SR g wl wr) (between a b g wl wr) (flux_of g wl) (cons_of g wl) (flux_of g wr) (cons_of g wr).
Proof.
  intros G Gl Gr a b. destruct (lambda_order g wl wr G Gl Gr) as (A & O & B). pose proof (Rmin_l (lambda_l g wl wr) 0) as M1. pose proof (Rmin_r (lambda_l g wl wr) 0) as M2. pose proof (Rmax_l (lambda_r g wl wr) 0) as M3. pose proof (Rmax_r (lambda_r g wl wr) 0) as M4.
  assert (A1 : -1 < a) by (apply Rmin_glb_lt; lra). assert (B1 : b < 1) by (apply Rmax_lub_lt; lra). assert (AB : a < b) by (unfold a, b; lra).
  assert (J : HLLE_SR g wl wr = each (fun fl fr ul ur => (b * fl - a * fr + a * b * (ur - ul)) / (b - a)) (flux_of g wl) (flux_of g wr) (cons_of g wl) (cons_of g wr)).
  { unfold HLLE_SR. cbv zeta. destruct (leR 0 (lambda_l g wl wr)) eqn:X; [apply leR_true in X | apply leR_false in X].
    - assert (Ea : a = 0) by (apply Rmin_right; lra). rewrite Ea in *. clearbody b. apply cons_ext; cbn [each DD EE MM1 MM2 MM3]; field; lra.
    - assert (Ea : a = lambda_l g wl wr) by (apply Rmin_left; lra). destruct (leR (lambda_r g wl wr) 0) eqn:Y; [apply leR_true in Y | apply leR_false in Y].
      + assert (Eb : b = 0) by (apply Rmax_right; lra). rewrite Eb in *. clearbody a. apply cons_ext; cbn [each DD EE MM1 MM2 MM3]; field; lra.
      + assert (Eb : b = lambda_r g wl wr) by (apply Rmax_left; lra). rewrite Ea, Eb in *. apply cons_ext; cbn [each DD EE MM1 MM2 MM3]; field; lra. }
  destruct (between_jump a b g wl wr _ AB J) as (J1 & J2). unfold fan. split; [unfold a in *; lra | ]. split; [unfold b in *; lra | ]. split; [exact AB | ]. split; [exact J1 | split; [exact J2 | ]]. apply cone_admissible, between_cone; try assumption.
  - pose proof (Rmin_l (snd (lambdas g wl)) (snd (lambdas g wr))). unfold a. unfold lambda_l in M1 |- *. lra.
  - pose proof (Rmax_r (fst (lambdas g wl)) (fst (lambdas g wr))). unfold b. unfold lambda_r in M3 |- *. lra.
Qed.
Theorem C96_fan : forall g cl cr wl wr, 1 < g <= 2 -> gas_ok wl -> gas_ok wr -> densities g cl wl -> densities g cr wr ->
  let fl := carried cl (velocity wl) (pgas wl) in let fr := carried cr (velocity wr) (pgas wr) in
  let s := Rmax (lambda_r g wl wr) (- lambda_l g wl wr) in
  (exists c, fan (- s) s (LLF_SR g wl wr) c fl cl fr cr) /\ (exists c, fan (Rmin (lambda_l g wl wr) 0) (Rmax (lambda_r g wl wr) 0) (HLLE_SR g wl wr) c fl cl fr cr).
Proof.
  intros g cl cr wl wr G Gl Gr Hl Hr. cbv zeta. rewrite <- (flux_carried g cl wl Hl), <- (flux_carried g cr wr Hr), (cons_unique g cl wl Hl), (cons_unique g cr wr Hr). split; eexists; [apply llf_fan | apply hlle_fan]; assumption.
Qed.
Print Assumptions C96_fan.

(** A first order step with the fluxes of two such fans on its sides keeps the densities of a cell admissible, if no wave crosses the cell in the step; k is the step over the width. *)
Lemma admissible_cone c : admissible c -> cone c.
Proof.
  intros (A & B). set (n := DD c ^ 2 + (MM1 c ^ 2 + MM2 c ^ 2 + MM3 c ^ 2)) in *. assert (N : 0 <= n) by (unfold n; pose proof (pow2_ge_0 (DD c)); pose proof (pow2_ge_0 (MM1 c)); pose proof (pow2_ge_0 (MM2 c)); pose proof (pow2_ge_0 (MM3 c)); lra).
  pose proof (sqrt_pos n) as P. pose proof (sqrt_sqrt n N) as Q. assert (E0 : 0 < EE c) by lra. split; [exact A | split; [exact E0 | ]]. assert (n < EE c * EE c) by nra. unfold n in *. lra.
Qed.
Definition scaled (t : R) (c : cons) : cons := {| DD := t * DD c; EE := t * EE c; MM1 := t * MM1 c; MM2 := t * MM2 c; MM3 := t * MM3 c |}.
Definition plus (a b : cons) : cons := {| DD := DD a + DD b; EE := EE a + EE b; MM1 := MM1 a + MM1 b; MM2 := MM2 a + MM2 b; MM3 := MM3 a + MM3 b |}.
Lemma cone_scaled t c : 0 < t -> cone c -> cone (scaled t c).
Proof. intros T (A & B & C). unfold cone, scaled. cbn [DD EE MM1 MM2 MM3]. split; [nra | split; [nra | ]]. replace (t * DD c * (t * DD c) + (t * MM1 c * (t * MM1 c) + t * MM2 c * (t * MM2 c) + t * MM3 c * (t * MM3 c))) with (t * t * (DD c * DD c + (MM1 c * MM1 c + MM2 c * MM2 c + MM3 c * MM3 c))) by ring. replace (t * EE c * (t * EE c)) with (t * t * (EE c * EE c)) by ring. apply Rmult_lt_compat_l; [nra | exact C]. Qed.
Lemma cone_plus a t b : cone a -> 0 <= t -> cone b -> cone (plus a (scaled t b)).
Proof.
  intros A T B. destruct T as [T | T].
  - apply (cone_combine a (scaled t b) _ 1 1); [lra | exact A | apply cone_scaled; assumption | | | | lra | | ]; cbn [plus scaled DD EE MM1 MM2 MM3]; ring.
  - replace (plus a (scaled t b)) with a; [exact A | ]. rewrite <- T. apply cons_ext; cbn [plus scaled DD EE MM1 MM2 MM3]; ring.
Qed.
Definition updated (k : R) (c fin fout : cons) : cons := each (fun u fi fo _ => u - k * (fo - fi)) c fin fout c.
Lemma step_ok k a b a' b' c f fin fout l r fl' cl' fr' cr' : 0 <= k -> k * (b - a') < 1 -> admissible c ->
  fan a b fin l fl' cl' f c -> fan a' b' fout r f c fr' cr' -> admissible (updated k c fin fout).
Proof.
  intros K1 K2 C (A1 & B1 & _ & _ & J & CL) (A2 & B2 & _ & J' & _ & CR). apply admissible_cone in C, CL, CR. apply cone_admissible.
  replace (updated k c fin fout) with (plus (plus (scaled (1 - k * (b - a')) c) (scaled (k * b) l)) (scaled (- (k * a')) r)).
  - apply cone_plus; [apply cone_plus; [apply cone_scaled; [lra | exact C] | nra | exact CL] | nra | exact CR].
  - unfold jump, across in J, J'. destruct J as (Q1 & Q2 & Q3 & Q4 & Q5). destruct J' as (R1 & R2 & R3 & R4 & R5). apply cons_ext; cbn [plus scaled updated each DD EE MM1 MM2 MM3]; nra.
Qed.
Lemma cons_admissible g w : 1 < g <= 2 -> gas_ok w -> cone (cons_of g w).
Proof.
  intros G Gw. pose proof (lambdas_ok g w G Gw) as (A & B & C). pose proof (excess_cone g w (Rmax (fst (lambdas g w)) (- snd (lambdas g w))) G Gw (Rmax_l _ _) ltac:(apply Rmax_lub_lt; lra)) as P. pose proof (between_cone (- Rmax (fst (lambdas g w)) (- snd (lambdas g w))) (Rmax (fst (lambdas g w)) (- snd (lambdas g w))) g w w G Gw Gw) as Q.
  pose proof (Rmax_l (fst (lambdas g w)) (- snd (lambdas g w))) as M1. pose proof (Rmax_r (fst (lambdas g w)) (- snd (lambdas g w))) as M2. assert (M3 : Rmax (fst (lambdas g w)) (- snd (lambdas g w)) < 1) by (apply Rmax_lub_lt; lra). set (s := Rmax _ _) in *. clearbody s.
  specialize (Q ltac:(lra) ltac:(lra) M1 M3 ltac:(lra)). replace (cons_of g w) with (between (- s) s g w w); [exact Q | ]. apply cons_ext; cbn [between each DD EE MM1 MM2 MM3]; field; lra.
Qed.
Theorem C96_step : forall g k wl w wr c, 1 < g <= 2 -> gas_ok wl -> gas_ok w -> gas_ok wr -> densities g c w -> 0 <= k ->
  (k * (Rmax (lambda_r g wl w) (- lambda_l g wl w) + Rmax (lambda_r g w wr) (- lambda_l g w wr)) < 1 -> admissible (updated k c (LLF_SR g wl w) (LLF_SR g w wr))) /\
  (k * (Rmax (lambda_r g wl w) 0 - Rmin (lambda_l g w wr) 0) < 1 -> admissible (updated k c (HLLE_SR g wl w) (HLLE_SR g w wr))).
Proof.
  intros g k wl w wr c G Gl Gw Gr Hc K. rewrite (cons_unique g c w Hc). pose proof (cone_admissible _ (cons_admissible g w G Gw)) as C. split; intro H.
  - eapply step_ok; [exact K | | exact C | apply (llf_fan g wl w G Gl Gw) | apply (llf_fan g w wr G Gw Gr)]. lra.
  - eapply step_ok; [exact K | exact H | exact C | apply (hlle_fan g wl w G Gl Gw) | apply (hlle_fan g w wr G Gw Gr)].
Qed.
Print Assumptions C96_step.

(** Gas at 3/5 of the speed of light with sound at half of it: all waves move to the right. *)
Definition fast : prim := {| rho := 6; pgas := 1; u1 := 3 / 4; u2 := 0; u3 := 0 |}.
Lemma fast_lorentz : lorentz fast = 5 / 4.
Proof. unfold lorentz, fast. cbn [u1 u2 u3]. replace (1 + 3 / 4 * (3 / 4) + 0 * 0 + 0 * 0) with (5 / 4 * (5 / 4)) by field. apply sqrt_square. lra. Qed.
Lemma fast_lambdas : lambdas 2 fast = (11 / 13, 1 / 7).
Proof.
  unfold lambdas. rewrite fast_lorentz. change (u1 fast) with (3 / 4). change (pgas fast) with 1. replace (wgas 2 fast) with 8 by (unfold wgas, fast; cbn [rho pgas]; field). replace (3 / 4 / (5 / 4)) with (3 / 5) by field.
  replace (5 / 4 * (5 / 4)) with (1 / (1 - 3 / 5 * (3 / 5))) by field. rewrite (speeds_add 2 8 1 (3 / 5) (1 / 2)) by lra. unfold add_velocities. f_equal; field.
Qed.
Example ex_fast : gas_ok fast /\ 0 <= lambda_l 2 fast fast /\ lambda_r 2 (mirror fast) (mirror fast) <= 0.
Proof. split; [unfold gas_ok, fast; cbn; lra | ]. rewrite lambda_r_mirror. unfold lambda_l. rewrite fast_lambdas. cbn [snd]. rewrite Rmin_left by lra. lra. Qed.
Example ex_densities : densities 2 (cons_of 2 fast) fast /\ EE (cons_of 2 fast) = 23 / 2.
Proof. split; [apply cons_describes | ]. unfold cons_of. rewrite fast_lorentz. unfold wgas, fast. cbn. field. Qed.
(** Gas streams against each other: both waves of the fan leave the face, and a quarter of the light crossing time is a short enough step. *)
Example ex_collision : lambda_l 2 fast (mirror fast) = - (11 / 13) /\ lambda_r 2 fast (mirror fast) = 11 / 13 /\
  1 / 4 * (Rmax (lambda_r 2 fast (mirror fast)) 0 - Rmin (lambda_l 2 (mirror fast) fast) 0) < 1.
Proof.
  unfold lambda_l, lambda_r. rewrite !lambdas_mirror, !fast_lambdas. cbn [fst snd]. rewrite (Rmin_right (1 / 7) (- (11 / 13))), (Rmax_left (11 / 13) (- (1 / 7))), (Rmin_left (- (11 / 13)) (1 / 7)) by lra. rewrite Rmax_left, Rmin_left by lra. lra.
Qed.
