(** C97: the sign of the pressure at the contact of the relativistic HLLC solver. *)
From Coq Require Import Reals Lra Bool.
From Verif Require Import Time_Model Time_Proofs Sr_Model Sr_Spec Sr_Proofs2 Sr_Proofs4 Srr_Model Srr_Spec Srr_Proofs Srr_Props Shc_Model Shc_Proofs Shc_Props Shc_Mirror.
Local Open Scope R_scope.

Lemma star_pressure T g wl wr s w : 0 <= T -> 1 < g <= 2 -> gas_ok wl -> gas_ok wr -> regular T g wl wr -> (s = lambda_l g wl wr /\ w = wl) \/ (s = lambda_r g wl wr /\ w = wr) ->
  pgas_star T g wl wr * (1 - s * lambda_star T g wl wr) = (s * EE (cons_of g w) - MM1 (cons_of g w)) * lambda_star T g wl wr - (s * MM1 (cons_of g w) - MM1 (flux_of g w)).
Proof.
  intros T0 G Gl Gr Reg Hs. destruct (lambda_order g wl wr G Gl Gr) as (O1 & O2 & O3). destruct (star_root T g wl wr T0 G Gl Gr Reg) as (_ & X2). destruct (hll_values g wl wr O2) as (EA & EB & EM & EC). destruct (energy_momentum g w) as (_ & V2 & _).
  set (A := EE (cons_hll g wl wr)) in *. set (B := EE (flux_hll g wl wr)) in *. set (M := MM1 (cons_hll g wl wr)) in *. set (C := MM1 (flux_hll g wl wr)) in *.
  assert (JB : B = s * A - (s * EE (cons_of g w) - MM1 (cons_of g w))) by (rewrite EA, EB; destruct Hs as [[-> ->] | [-> ->]]; field; lra).
  assert (JC : C = s * M - (s * MM1 (cons_of g w) - MM1 (flux_of g w))) by (rewrite EC, EM; destruct Hs as [[-> ->] | [-> ->]]; field; lra).
  unfold pgas_star. fold B. fold C. set (y := lambda_star T g wl wr) in *. set (ps := - B * y + C). assert (R : A * y - M + y * ps = 0) by (unfold ps; unfold GG in X2; lra). replace (ps * (1 - s * y)) with (ps - s * (y * ps)) by ring. replace (y * ps) with (M - A * y) by lra. unfold ps. rewrite JB, JC. ring.
Qed.
(** Momentum flux behind the wave of speed s. *)
Lemma star_momentum g s y ps w : s - y <> 0 -> ps * (1 - s * y) = (s * EE (cons_of g w) - MM1 (cons_of g w)) * y - (s * MM1 (cons_of g w) - MM1 (flux_of g w)) ->
  MM1 (flux_star g s y ps w) = ps + y * y * (((s * EE (cons_of g w) - MM1 (cons_of g w)) + s * ps) / (s - y)).
Proof.
  intros N P. destruct (energy_momentum g w) as (_ & _ & V3). assert (VV : u1 w / lorentz w = velocity w) by (unfold velocity; rewrite lorentz_lfac; reflexivity). unfold flux_star, cons_star, each. cbv zeta. cbn [MM1]. rewrite VV. rewrite V3 in *. set (e := EE (cons_of g w)) in *. set (m := MM1 (cons_of g w)) in *. set (v := velocity w) in *. set (p := pgas w) in *. clearbody e m v p. clear V3 VV.
  apply (Rmult_eq_reg_r (s - y)); [ | exact N]. match goal with |- ?l = ?r => replace l with (s * ps + y * (s * m - (m * v + p))) by (field; exact N); replace r with (ps * (s - y) + y * y * (s * e - m + s * ps)) by (field; exact N) end.
  replace (s * m - (m * v + p)) with ((s * e - m) * y - ps * (1 - s * y)) by lra. ring.
Qed.
(** Gases that do not move apart push against each other. *)
Theorem C97_push : forall T g wl wr, 0 <= T -> 1 < g <= 2 -> gas_ok wl -> gas_ok wr -> regular T g wl wr -> velocity wr <= velocity wl -> 0 < MM1 (HLLC_SR T g wl wr).
Proof.
  intros T g wl wr T0 G Gl Gr Reg VV. destruct (lambda_order g wl wr G Gl Gr) as (O1 & O2 & O3). destruct (sides g wl wr) as (S1 & S2 & S3 & S4). destruct (lambdas_ok g wl G Gl) as (L1 & L2 & L3). destruct (lambdas_ok g wr G Gr) as (R1 & R2 & R3). pose proof (star_between T g wl wr T0 G Gl Gr Reg) as XB.
  assert (own : forall w, gas_ok w -> 0 < MM1 (flux_of g w)). { intros w (Hr & Hp). unfold flux_of. cbv zeta. cbn [MM1]. assert (W : 0 < wgas g w) by (unfold wgas; apply Rplus_lt_0_compat; [exact Hr | apply Rmult_lt_0_compat; [apply Rdiv_lt_0_compat; lra | exact Hp]]). pose proof (Rle_0_sqr (u1 w)) as Q. unfold Rsqr in Q. pose proof (Rmult_le_pos _ _ (Rlt_le _ _ W) Q) as Z. lra. }
  pose proof (star_pressure T g wl wr _ _ T0 G Gl Gr Reg (or_introl (conj eq_refl eq_refl))) as PL. pose proof (star_pressure T g wl wr _ _ T0 G Gl Gr Reg (or_intror (conj eq_refl eq_refl))) as PR.
  pose proof (excess_E g wr _ G Gr S4 O3) as XR. pose proof (excess_E_left g wl _ G Gl S1 O1) as XL. assert (pr : forall t u, -1 < t < 1 -> -1 < u < 1 -> 0 < 1 - t * u) by (intros t u Ht Hu; clear - Ht Hu; nra).
  pose proof (fun s => star_momentum g s (lambda_star T g wl wr) (pgas_star T g wl wr)) as SM. pose proof (SM (lambda_l g wl wr) wl ltac:(lra) PL) as ML. pose proof (SM (lambda_r g wl wr) wr ltac:(lra) PR) as MR. clear SM.
  destruct (energy_momentum g wl) as (V1 & _ & V3). destruct (energy_momentum g wr) as (W1 & _ & W3). destruct Gl as (Rl & Pl). destruct Gr as (Rr & Pr).
  unfold HLLC_SR. cbv zeta. destruct (leR 0 (lambda_l g wl wr)) eqn:K1; [apply own; split; assumption | apply leR_false in K1]. destruct (leR (lambda_r g wl wr) 0) eqn:K2; [apply own; split; assumption | apply leR_false in K2].
  set (a := lambda_l g wl wr) in *. set (b := lambda_r g wl wr) in *. set (y := lambda_star T g wl wr) in *. set (ps := pgas_star T g wl wr) in *. clearbody a b y ps.
  assert (AR : 0 < b * EE (cons_of g wr) - MM1 (cons_of g wr)) by (eapply Rle_lt_trans; [apply Rabs_pos | exact XR]). assert (AL : 0 < MM1 (cons_of g wl) - a * EE (cons_of g wl)) by (eapply Rle_lt_trans; [apply Rabs_pos | exact XL]).
  pose proof (pr b y ltac:(lra) ltac:(lra)) as Q1. pose proof (pr a y ltac:(lra) ltac:(lra)) as Q2. pose proof (pr b (velocity wr) ltac:(lra) ltac:(lra)) as Q3. pose proof (pr a (velocity wl) ltac:(lra) ltac:(lra)) as Q4.
  assert (BR : b * MM1 (cons_of g wr) - MM1 (flux_of g wr) = velocity wr * (b * EE (cons_of g wr) - MM1 (cons_of g wr)) - pgas wr * (1 - b * velocity wr)) by (rewrite W3, W1; ring).
  assert (BL : a * MM1 (cons_of g wl) - MM1 (flux_of g wl) = velocity wl * (a * EE (cons_of g wl) - MM1 (cons_of g wl)) - pgas wl * (1 - a * velocity wl)) by (rewrite V3, V1; ring).
  rewrite BR in PR. rewrite BL in PL. pose proof (Rmult_lt_0_compat _ _ Pr Q3) as Z3. pose proof (Rmult_lt_0_compat _ _ Pl Q4) as Z4.
  set (ar := b * EE (cons_of g wr) - MM1 (cons_of g wr)) in *. assert (EL : a * EE (cons_of g wl) - MM1 (cons_of g wl) = - (MM1 (cons_of g wl) - a * EE (cons_of g wl))) by ring. rewrite EL in *. set (al := MM1 (cons_of g wl) - a * EE (cons_of g wl)) in *.
  assert (PP : 0 < ps).
  { destruct (Rlt_le_dec 0 ps) as [H | H]; [exact H | exfalso]. assert (I1 : ps * (1 - b * y) <= 0) by (clear - H Q1; nra). assert (I2 : ps * (1 - a * y) <= 0) by (clear - H Q2; nra).
    assert (J1 : y < velocity wr) by (apply (Rmult_lt_reg_l ar); [exact AR | lra]). assert (J2 : velocity wl < y) by (apply (Rmult_lt_reg_l al); [exact AL | lra]). lra. }
  pose proof (Rle_0_sqr y) as YY. unfold Rsqr in YY. destruct (leR 0 y).
  - rewrite ML. assert (N : 0 < (- al + a * ps) / (a - y)). { replace ((- al + a * ps) / (a - y)) with ((al + - a * ps) / (y - a)) by (field; lra). apply Rdiv_lt_0_compat; [ | lra]. pose proof (Rmult_lt_0_compat (- a) ps ltac:(lra) PP). lra. } pose proof (Rmult_le_pos _ _ YY (Rlt_le _ _ N)). lra.
  - rewrite MR. assert (N : 0 < (ar + b * ps) / (b - y)). { apply Rdiv_lt_0_compat; [ | lra]. pose proof (Rmult_lt_0_compat b ps ltac:(lra) PP). lra. } pose proof (Rmult_le_pos _ _ YY (Rlt_le _ _ N)). lra.
Qed.
Print Assumptions C97_push.
Lemma mirror_mirror w : mirror (mirror w) = w.
Proof. destruct w. unfold mirror. cbn. f_equal. ring. Qed.
(** Two gases of density 6 and pressure 1 that move apart at 3/5 of the speed of light pull on each other. *)
Theorem C97_pull_refuted : exists wl wr, gas_ok wl /\ gas_ok wr /\ forall T, 0 <= T -> regular T 2 wl wr /\ MM1 (HLLC_SR T 2 wl wr) < - (4 / 5).
Proof.
  assert (Gf : gas_ok fast) by (unfold gas_ok, fast; cbn; lra). exists (mirror fast), fast. split; [exact Gf | ]. split; [exact Gf | ]. intros T T0.
  assert (A : lambda_l 2 (mirror fast) fast = - (11 / 13)) by (unfold lambda_l; rewrite lambdas_mirror, fast_lambdas; cbn [fst snd]; apply Rmin_left; lra). assert (B : lambda_r 2 (mirror fast) fast = 11 / 13) by (unfold lambda_r; rewrite lambdas_mirror, fast_lambdas; cbn [fst snd]; apply Rmax_right; lra).
  assert (O : lambda_l 2 (mirror fast) fast < lambda_r 2 (mirror fast) fast) by (rewrite A, B; lra). assert (Reg : regular T 2 (mirror fast) fast). { left. destruct (hll_values 2 (mirror fast) fast O) as (_ & E & _). rewrite E, A, B, cons_mirror. cbn [umirror EE MM1]. field. }
  split; [exact Reg | ]. assert (Y : lambda_star T 2 (mirror fast) fast = 0). { pose proof (lambda_star_mirror T 2 (mirror fast) fast O) as E. rewrite mirror_mirror in E. lra. }
  pose proof (star_pressure T 2 (mirror fast) fast _ _ T0 ltac:(lra) Gf Gf Reg (or_introl (conj eq_refl eq_refl))) as P. pose proof (star_momentum 2 (lambda_l 2 (mirror fast) fast) (lambda_star T 2 (mirror fast) fast) (pgas_star T 2 (mirror fast) fast) (mirror fast) ltac:(rewrite A, Y; lra) P) as MS.
  unfold HLLC_SR. cbv zeta. rewrite A, B, Y in *. replace (leR 0 (- (11 / 13))) with false by (symmetry; apply leR_false; lra). replace (leR (11 / 13) 0) with false by (symmetry; apply leR_false; lra). replace (leR 0 0) with true by (symmetry; apply leR_true; lra). rewrite MS. clear MS. set (ps := pgas_star T 2 (mirror fast) fast) in *. clearbody ps. rewrite cons_mirror, flux_mirror in P. unfold flux_of, cons_of in P. rewrite fast_lorentz in P. unfold wgas, fast in P. cbn [umirror mirror_flux EE MM1 rho pgas u1] in P. clear - P. replace (2 / (2 - 1)) with 2 in P by field. rewrite !Rmult_0_l. lra.
Qed.
Print Assumptions C97_pull_refuted.
Example ex_push : velocity (mirror fast) <= velocity fast /\ 0 < MM1 (HLLC_SR (/ 10 ^ 20) 2 fast (mirror fast)).
Proof.
  assert (G : gas_ok fast) by (unfold gas_ok, fast; cbn; lra). assert (T0 : 0 <= / 10 ^ 20) by (apply Rlt_le, Rinv_0_lt_compat, pow_lt; lra). assert (L : lorentz (mirror fast) = lorentz fast) by (unfold lorentz, mirror; cbn [u1 u2 u3]; f_equal; ring).
  assert (V : velocity (mirror fast) <= velocity fast) by (unfold velocity; rewrite <- !lorentz_lfac, L, fast_lorentz; unfold mirror, fast; cbn [u1]; lra). split; [exact V | ]. exact (C97_push (/ 10 ^ 20) 2 fast (mirror fast) T0 ltac:(lra) G G (proj1 ex_fan) V).
Qed.
