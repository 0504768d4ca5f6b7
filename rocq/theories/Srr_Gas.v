(** C96: densities are admissible exactly when a gas with positive density and pressure has them. *)
From Coq Require Import Reals Lra Ranalysis5.
From Verif Require Import Sr_Model Sr_Spec Sr_Proofs2 Srr_Model Srr_Spec Srr_Proofs Srr_Props.
Local Open Scope R_scope.

(** Excess of the enthalpy of the gas with pressure p over the one its energy requires. *)
Definition gap (k d e msq p : R) : R := k * p + d * sqrt (1 - msq / ((e + p) * (e + p))) - (e + p) * (1 - msq / ((e + p) * (e + p))).
Lemma slow e msq p : 0 < e -> 0 <= msq < e * e -> 0 <= p -> 0 < 1 - msq / ((e + p) * (e + p)) <= 1.
Proof.
  intros E M P. assert (W : e * e <= (e + p) * (e + p)) by nra. assert (Q : msq / ((e + p) * (e + p)) < 1) by (apply (Rmult_lt_reg_r ((e + p) * (e + p))); [nra | unfold Rdiv; rewrite Rmult_assoc, Rinv_l by nra; nra]).
  assert (0 <= msq / ((e + p) * (e + p))) by (apply Rmult_le_pos; [lra | left; apply Rinv_0_lt_compat; nra]). lra.
Qed.
Lemma gap_continuous k d e msq p : 0 < e -> 0 <= msq < e * e -> 0 <= p -> continuity_pt (gap k d e msq) p.
Proof.
  intros E M P. pose proof (slow e msq p E M P) as S. unfold gap.
  assert (C0 : continuity_pt (fun p => e + p) p) by (apply continuity_pt_plus; [apply continuity_pt_const; intros ? ?; reflexivity | apply derivable_continuous_pt, derivable_pt_id]).
  assert (C1 : continuity_pt (fun p => 1 - msq / ((e + p) * (e + p))) p).
  { apply continuity_pt_minus; [apply continuity_pt_const; intros ? ?; reflexivity | ]. apply continuity_pt_div; [apply continuity_pt_const; intros ? ?; reflexivity | apply continuity_pt_mult; exact C0 | nra]. }
  apply continuity_pt_minus; [apply continuity_pt_plus | apply continuity_pt_mult; [exact C0 | exact C1]].
  - apply continuity_pt_mult; [apply continuity_pt_const; intros ? ?; reflexivity | apply derivable_continuous_pt, derivable_pt_id].
  - apply continuity_pt_mult; [apply continuity_pt_const; intros ? ?; reflexivity | ]. apply (continuity_pt_comp (fun p => 1 - msq / ((e + p) * (e + p))) sqrt); [exact C1 | apply continuity_pt_sqrt; lra].
Qed.
Lemma gas_exists g c : 1 < g -> cone c -> exists w, gas_ok w /\ densities g c w.
Proof.
  intros G (D & E & C). set (d := DD c) in *. set (e := EE c) in *. set (msq := MM1 c * MM1 c + MM2 c * MM2 c + MM3 c * MM3 c) in *. assert (M0 : 0 <= msq) by (unfold msq; nra). assert (M1 : msq < e * e) by nra. set (k := g / (g - 1)).
  assert (Kk : k = 1 + / (g - 1)) by (unfold k; field; lra). assert (IG : 0 < / (g - 1)) by (apply Rinv_0_lt_compat; lra).
  set (top := e * (g - 1) + 1). assert (T : 0 < top) by (unfold top; nra).
  assert (F0 : gap k d e msq 0 < 0).
  { unfold gap. rewrite !Rplus_0_r, Rmult_0_r. pose proof (slow e msq 0 E (conj M0 M1) ltac:(lra)) as S. rewrite !Rplus_0_r in S. set (q := 1 - msq / (e * e)) in *. assert (Eq : q * (e * e) = e * e - msq) by (unfold q; field; lra). clearbody q.
    pose proof (sqrt_lt_R0 q ltac:(lra)) as SP. pose proof (sqrt_sqrt q ltac:(lra)) as SS. set (r := sqrt q) in *. clearbody r. assert (DR : d < e * r). { assert (d * d < (e * r) * (e * r)) by (replace ((e * r) * (e * r)) with ((r * r) * (e * e)) by ring; rewrite SS, Eq; lra). assert (0 < e * r) by nra. set (x := e * r) in *. clearbody x. nra. }
    rewrite <- SS. assert (d * r < e * r * r) by (apply Rmult_lt_compat_r; lra). lra. }
  assert (F1 : 0 < gap k d e msq top).
  { unfold gap. pose proof (slow e msq top E (conj M0 M1) ltac:(lra)) as S. set (q := 1 - msq / ((e + top) * (e + top))) in *. clearbody q. pose proof (sqrt_pos q) as SP. assert (0 <= d * sqrt q) by nra. assert ((e + top) * q <= e + top) by nra.
    assert (k * top = top + e + / (g - 1)) by (rewrite Kk; unfold top; field; lra). lra. }
  destruct (IVT_interv (gap k d e msq) 0 top) as (p & (P0 & P1) & PZ); [intros a Ha; apply gap_continuous; [exact E | split; assumption | lra] | exact T | exact F0 | exact F1 | ].
  assert (PP : 0 < p) by (destruct P0 as [P0 | P0]; [exact P0 | rewrite <- P0 in PZ; lra]). unfold gap in PZ. pose proof (slow e msq p E (conj M0 M1) ltac:(lra)) as S. set (q := 1 - msq / ((e + p) * (e + p))) in *. assert (Eq : q * ((e + p) * (e + p)) = (e + p) * (e + p) - msq) by (unfold q; field; lra). clearbody q.
  pose proof (sqrt_lt_R0 q ltac:(lra)) as SP. pose proof (sqrt_sqrt q ltac:(lra)) as SS. set (r := sqrt q) in *. clearbody r.
  exists {| rho := d * r; pgas := p; u1 := MM1 c / (r * (e + p)); u2 := MM2 c / (r * (e + p)); u3 := MM3 c / (r * (e + p)) |}. split; [split; cbn [rho pgas]; [nra | exact PP] | ].
  unfold densities, describes. cbn [rho pgas u1 u2 u3]. cbv zeta. assert (EL : lfac (MM1 c / (r * (e + p))) (MM2 c / (r * (e + p))) (MM3 c / (r * (e + p))) = / r).
  { unfold lfac, usq. replace (1 + ((MM1 c / (r * (e + p))) ^ 2 + (MM2 c / (r * (e + p))) ^ 2 + (MM3 c / (r * (e + p))) ^ 2)) with (1 + msq / (r * r * ((e + p) * (e + p)))) by (unfold msq; field; lra).
    replace (1 + msq / (r * r * ((e + p) * (e + p)))) with (/ r * / r). 2: { rewrite SS. replace msq with ((e + p) * (e + p) - q * ((e + p) * (e + p))) by lra. replace (/ r * / r) with (/ (r * r)) by (field; lra). rewrite SS. field. lra. } apply sqrt_square. left. apply Rinv_0_lt_compat. exact SP. }
  rewrite EL. assert (EH : enthalpy g (d * r) p = (e + p) * (r * r)) by (unfold enthalpy; fold k; rewrite SS; lra). rewrite EH. fold d e. repeat split; field; lra.
Qed.
Theorem C96_admissible : forall g c, 1 < g <= 2 -> (admissible c <-> exists w, gas_ok w /\ densities g c w).
Proof.
  intros g c G. split.
  - intro A. apply gas_exists; [lra | apply admissible_cone; exact A].
  - intros (w & Gw & H). rewrite (cons_unique g c w H). apply cone_admissible, cons_admissible; assumption.
Qed.
Print Assumptions C96_admissible.
(** The cell after the step holds a gas again. *)
Theorem C96_step_gas : forall g k wl w wr c, 1 < g <= 2 -> gas_ok wl -> gas_ok w -> gas_ok wr -> densities g c w -> 0 <= k < 1 / 2 ->
  (exists w', gas_ok w' /\ densities g (updated k c (LLF_SR g wl w) (LLF_SR g w wr)) w') /\ (exists w', gas_ok w' /\ densities g (updated k c (HLLE_SR g wl w) (HLLE_SR g w wr)) w').
Proof.
  intros g k wl w wr c G Gl Gw Gr H (K0 & K1). destruct (C96_step g k wl w wr c G Gl Gw Gr H K0) as (A & B). destruct (lambda_order g wl w G Gl Gw) as (O1 & O2 & O3). destruct (lambda_order g w wr G Gw Gr) as (Q1 & Q2 & Q3).
  assert (X : forall a b, a < 1 -> b < 1 -> Rmax a b < 1) by (intros; apply Rmax_lub_lt; assumption). split.
  - apply (C96_admissible g); [exact G | ]. apply A. pose proof (X (lambda_r g wl w) (- lambda_l g wl w) O3 ltac:(lra)). pose proof (X (lambda_r g w wr) (- lambda_l g w wr) Q3 ltac:(lra)). nra.
  - apply (C96_admissible g); [exact G | ]. apply B. pose proof (X (lambda_r g wl w) 0 O3 ltac:(lra)). assert (-1 < Rmin (lambda_l g w wr) 0) by (apply Rmin_glb_lt; lra). nra.
Qed.
Print Assumptions C96_step_gas.
