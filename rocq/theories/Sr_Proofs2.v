(** What a successful inversion returns. *)
From Coq Require Import Reals Lra Bool Psatz.
From Verif Require Import Time_Model Sr_Model Sr_Spec Sr_Proofs.
Local Open Scope R_scope.

Lemma converged_spec pm x y : converged pm x y = true -> pm < x /\ Rabs (x - y) < tol.
Proof. unfold converged. intros H. apply andb_true_iff in H. destruct H as [A B]. rewrite ltR_true in A, B. auto. Qed.
Lemma iterate_gt k : forall g dd ee msq pm p0 p, iterate k g dd ee msq pm p0 = Some p -> pm < p.
Proof.
  induction k as [ | k IH]; intros g dd ee msq pm p0 p H; [discriminate | ]. cbn [iterate] in H.
  destruct (converged pm (next g dd ee msq pm p0) p0) eqn:C1; [injection H as <-; apply converged_spec in C1; tauto | ].
  destruct (converged pm (next g dd ee msq pm (next g dd ee msq pm p0)) (next g dd ee msq pm p0)) eqn:C2; [injection H as <-; apply converged_spec in C2; tauto | ].
  destruct (Req_EM_T _ 0); [eapply IH; exact H | ]. destruct (ltR _ _); [eapply IH; exact H | ].
  match type of H with (if ?c then _ else _) = _ => destruct c eqn:C3 end; [injection H as <-; apply converged_spec in C3; tauto | eapply IH; exact H].
Qed.
Section Sound.
Variables (g dd ee msq pm : R).
Hypothesis Hg : 1 < g <= 2.
Hypothesis Hd : 0 <= dd.
Hypothesis He : 0 < ee.
Hypothesis Hm : 0 <= msq <= (1 - tol) * (ee * ee).
Hypothesis Hadm : dd * dd + msq <= ee * ee.
Hypothesis Hpm : tol <= pm.
Let k := (g - 1) / g.
Let F p := FF k dd msq (ee + p).
Lemma k_bounds : 0 < k <= 1 / 2.
Proof.
  unfold k. split; [apply Rdiv_lt_0_compat; lra | ].
  apply Rmult_le_reg_r with g; [lra | ]. replace ((g - 1) / g * g) with (g - 1) by (field; lra). lra.
Qed.
Lemma pos_facts p : pm <= p -> 0 < ee + p /\ tol <= ee + p /\ msq <= (1 - tol) * ((ee + p) * (ee + p)) /\ msq < (ee + p) * (ee + p) /\ dd * dd <= (ee + p) * (ee + p) - msq.
Proof.
  pose proof tol_pos. pose proof tol_small. intros Hp. assert (ee * ee < (ee + p) * (ee + p)) by nra.
  assert ((1 - tol) * (ee * ee) <= (1 - tol) * ((ee + p) * (ee + p))) by (apply Rmult_le_compat_l; lra).
  assert (0 < tol * (ee * ee)) by (apply Rmult_lt_0_compat; nra).
  repeat split; try lra.
Qed.
Lemma next_F p : pm <= p -> next g dd ee msq pm p = Rmax (F p) pm.
Proof. intros Hp. destruct (pos_facts p Hp) as (A & B & C & D & E). unfold F, k. apply next_eq; lra. Qed.
Lemma F_lip p q : pm <= p -> pm <= q -> Rabs (F q - F p) <= Rabs (q - p).
Proof.
  intros Hp Hq. destruct (pos_facts p Hp) as (A & B & C & D & E). destruct (pos_facts q Hq) as (A' & B' & C' & D' & E').
  pose proof (FF_lipschitz k dd msq (ee + p) (ee + q) k_bounds A A' ltac:(lra) D' Hd E E') as [L _].
  replace (ee + q - (ee + p)) with (q - p) in L by ring. exact L.
Qed.
Lemma F_mono p q : pm <= p <= q -> k * (q - p) <= F q - F p.
Proof.
  intros Hp. destruct (pos_facts p) as (A & B & C & D & E); [lra | ].
  pose proof (FF_lower k dd msq (ee + p) (ee + q) ltac:(apply k_bounds) ltac:(lra) ltac:(lra) Hd E) as L.
  replace (ee + q - (ee + p)) with (q - p) in L by ring. exact L.
Qed.
Lemma next_ge p : pm <= p -> pm <= next g dd ee msq pm p.
Proof. intros Hp. rewrite next_F by exact Hp. apply Rmax_r. Qed.
Lemma step_sound p : pm <= p -> converged pm (next g dd ee msq pm p) p = true -> Rabs (F (next g dd ee msq pm p) - next g dd ee msq pm p) < tol.
Proof.
  intros Hp C. pose proof (next_ge p Hp) as G. apply converged_spec in C. destruct C as [C1 C2]. rewrite next_F in * by exact Hp.
  assert (E : Rmax (F p) pm = F p). { apply Rmax_left. destruct (Rle_dec pm (F p)); [assumption | ]. rewrite Rmax_right in C1 by lra. lra. }
  rewrite E in *. eapply Rle_lt_trans; [apply (F_lip p (F p)); lra | exact C2].
Qed.
Lemma aitken_sound p0 :
  pm <= p0 -> let p1 := next g dd ee msq pm p0 in let p2 := next g dd ee msq pm p1 in
  p1 - p0 <> 0 -> let rr := (p2 - p1) / (p1 - p0) in Rabs rr <= 1 - tol ->
  let p3 := Rmax (p1 + (p2 - p1) / (1 - rr)) pm in converged pm p3 p2 = true -> Rabs (F p3 - p3) <= (1 + / k) * tol.
Proof.
  intros H0 p1 p2 N rr Hrr p3 C. pose proof tol_pos as Ht. pose proof k_bounds as Hk.
  apply converged_spec in C. destruct C as [C1 C2].
  assert (H1 : pm <= p1) by (apply next_ge; exact H0). assert (H2 : pm <= p2) by (apply next_ge; exact H1).
  assert (E1 : p1 = Rmax (F p0) pm) by (apply next_F; exact H0). assert (E2 : p2 = Rmax (F p1) pm) by (apply next_F; exact H1).
  assert (E3 : p3 = p1 + (p2 - p1) / (1 - rr)).
  { unfold p3 in C1 |- *. apply Rmax_left. destruct (Rle_dec pm (p1 + (p2 - p1) / (1 - rr))); [assumption | ]. rewrite Rmax_right in C1 by lra. lra. }
  assert (R1 : rr <= 1 - tol) by (pose proof (RRle_abs rr); lra).
  assert (Er : rr * (p1 - p0) = p2 - p1) by (unfold rr; field; exact N).
  assert (Hx : (p3 - p1) * (1 - rr) = p2 - p1) by (rewrite E3; field; lra).
  clearbody p3 rr p2 p1.
  destruct (Rle_dec (F p0) pm) as [c | c].
  { exfalso. rewrite Rmax_right in E1 by exact c. pose proof (F_mono p1 p0 ltac:(lra)) as M. assert (0 <= k * (p0 - p1)) by (apply Rmult_le_pos; lra).
    rewrite Rmax_right in E2 by lra. assert (Z : (p3 - p1) * (1 - rr) = 0) by lra. apply Rmult_integral in Z. lra. }
  rewrite Rmax_left in E1 by lra.
  destruct (Rle_dec (F p1) pm) as [d | d].
  { exfalso. rewrite Rmax_right in E2 by exact d. assert (L : p1 < p0).
    { destruct (Rlt_dec p1 p0); [assumption | ]. pose proof (F_mono p0 p1 ltac:(lra)) as M. assert (0 <= k * (p1 - p0)) by (apply Rmult_le_pos; lra). lra. }
    assert (0 < rr) by nra. assert (p3 - p1 <= p2 - p1) by nra. lra. }
  rewrite Rmax_left in E2 by lra.
  assert (K : k <= rr).
  { destruct (Rle_dec p0 p1) as [l | l].
    - pose proof (F_mono p0 p1 ltac:(lra)) as M. assert (k * (p1 - p0) <= rr * (p1 - p0)) by lra. apply Rmult_le_reg_r with (p1 - p0); lra.
    - pose proof (F_mono p1 p0 ltac:(lra)) as M. assert (k * (p0 - p1) <= rr * (p0 - p1)) by lra. apply Rmult_le_reg_r with (p0 - p1); lra. }
  pose proof (F_lip p1 p3 H1 ltac:(lra)) as L. rewrite <- E2 in L.
  (* p3 - p2 = rr (p3 - p1) *)
  assert (Q : p3 - p2 = rr * (p3 - p1)) by lra.
  assert (A : Rabs (p3 - p1) <= / k * tol).
  { rewrite Q in C2. rewrite Rabs_mult in C2. rewrite (Rabs_right rr) in C2 by lra.
    assert (k * Rabs (p3 - p1) <= tol). { apply Rle_trans with (rr * Rabs (p3 - p1)); [apply Rmult_le_compat_r; [apply Rabs_pos | exact K] | lra]. }
    apply Rmult_le_reg_l with k; [lra | ]. rewrite <- Rmult_assoc, Rinv_r, Rmult_1_l by lra. assumption. }
  replace (F p3 - p3) with ((F p3 - p2) + - (p3 - p2)) by ring. eapply Rle_trans; [apply Rabs_triang | ]. rewrite Rabs_Ropp. lra.
Qed.
Lemma iterate_sound n : forall p0 p, pm <= p0 -> iterate n g dd ee msq pm p0 = Some p -> Rabs (F p - p) <= (1 + / k) * tol.
Proof.
  pose proof tol_pos as Ht. pose proof k_bounds as Hk. assert (I : 0 < / k) by (apply Rinv_0_lt_compat; lra). assert (T : tol <= (1 + / k) * tol) by nra.
  induction n as [ | n IH]; intros p0 p H0 H; [discriminate | ]. cbn [iterate] in H.
  pose proof (next_ge p0 H0) as G1. pose proof (next_ge _ G1) as G2.
  destruct (converged pm (next g dd ee msq pm p0) p0) eqn:C1; [injection H as <-; pose proof (step_sound p0 H0 C1); lra | ].
  destruct (converged pm (next g dd ee msq pm (next g dd ee msq pm p0)) (next g dd ee msq pm p0)) eqn:C2; [injection H as <-; pose proof (step_sound _ G1 C2); lra | ].
  destruct (Req_EM_T _ 0) as [z | z]; [apply (IH p0); assumption | ].
  destruct (ltR _ _) eqn:L in H; [apply (IH p0); assumption | ]. apply ltR_false in L.
  match type of H with (if ?c then _ else _) = _ => destruct c eqn:C3 end.
  - injection H as <-. exact (aitken_sound p0 H0 z L C3).
  - eapply IH; [ | exact H]. apply Rmax_r.
Qed.
End Sound.

(** Lorentz factor and density of the result. *)
Lemma lorentz_eq w : lorentz w = lfac (u1 w) (u2 w) (u3 w).
Proof. unfold lorentz, lfac, usq. f_equal. ring. Qed.
Lemma lfac_ge x y z : 1 <= lfac x y z.
Proof. unfold lfac, usq. rewrite <- sqrt_1 at 1. apply sqrt_le_1_alt. pose proof (pow2_ge_0 x). pose proof (pow2_ge_0 y). pose proof (pow2_ge_0 z). lra. Qed.
Lemma lfac_sq x y z : lfac x y z * lfac x y z = 1 + usq x y z.
Proof. unfold lfac, usq. apply sqrt_sqrt. pose proof (pow2_ge_0 x). pose proof (pow2_ge_0 y). pose proof (pow2_ge_0 z). lra. Qed.
Lemma normal_result g dd ee m1 m2 m3 pold q ga :
  0 < ee -> m1 * m1 + m2 * m2 + m3 * m3 <= (1 - tol) * (ee * ee) ->
  ConservedToPrimitiveNormal g dd ee (m1 * m1 + m2 * m2 + m3 * m3) m1 m2 m3 pold = Some (q, ga) ->
  let a := ee + pgas q in
  tol < pgas q /\ iterate 5 g dd ee (m1 * m1 + m2 * m2 + m3 * m3) tol (Rmax pold tol) = Some (pgas q) /\
  ga = lfac (u1 q) (u2 q) (u3 q) /\ dd = rho q * ga /\ u1 q = ga * (m1 / a) /\ u2 q = ga * (m2 / a) /\ u3 q = ga * (m3 / a) /\
  ga * ga * (1 - (m1 * m1 + m2 * m2 + m3 * m3) / (a * a)) = 1 /\ ga = / sqrt (1 - (m1 * m1 + m2 * m2 + m3 * m3) / (a * a)).
Proof.
  intros He Hm H. pose proof tol_pos as Ht. pose proof tol_small as Hs. set (msq := m1 * m1 + m2 * m2 + m3 * m3) in *.
  assert (M0 : 0 <= msq) by (unfold msq; nra).
  unfold ConservedToPrimitiveNormal in H. rewrite (Rmax_right (- ee) tol) in H by lra.
  destruct (iterate 5 g dd ee msq tol (Rmax pold tol)) as [p | ] eqn:I; [ | discriminate]. pose proof (iterate_gt _ _ _ _ _ _ _ _ I) as P.
  injection H as <- <-. cbn [rho pgas u1 u2 u3]. unfold a_of. rewrite Rmax_left by lra.
  assert (Pa : 0 < ee + p) by lra.
  assert (W : 0 <= msq <= (1 - tol) * ((ee + p) * (ee + p))).
  { split; [exact M0 | ]. apply Rle_trans with (1 := Hm). apply Rmult_le_compat_l; [lra | nra]. }
  rewrite vsq_eq by (exact W || lra). pose proof (s_nonneg _ _ Pa W) as [S0 S1].
  assert (G : sqrt (1 / (1 - msq / ((ee + p) * (ee + p)))) = / sqrt (1 - msq / ((ee + p) * (ee + p)))) by (apply ga_eq; lra).
  rewrite G. set (s := 1 - msq / ((ee + p) * (ee + p))) in *.
  assert (R0 : 0 < sqrt s) by (apply sqrt_lt_R0; lra). assert (RR : sqrt s * sqrt s = s) by (apply sqrt_sqrt; lra).
  assert (GG : / sqrt s * / sqrt s * s = 1). { rewrite <- RR at 3. field. lra. }
  assert (L : / sqrt s = lfac (/ sqrt s * (m1 / (ee + p))) (/ sqrt s * (m2 / (ee + p))) (/ sqrt s * (m3 / (ee + p)))).
  { unfold lfac, usq. symmetry. rewrite <- (sqrt_square (/ sqrt s)) at 4 by (left; apply Rinv_0_lt_compat; exact R0). f_equal.
    replace ((/ sqrt s * (m1 / (ee + p))) ^ 2 + (/ sqrt s * (m2 / (ee + p))) ^ 2 + (/ sqrt s * (m3 / (ee + p))) ^ 2)
      with (/ sqrt s * / sqrt s * (msq / ((ee + p) * (ee + p)))) by (unfold msq; field; lra).
    replace (msq / ((ee + p) * (ee + p))) with (1 - s) by (unfold s; ring). lra. }
  repeat split; try assumption; try reflexivity. field. lra.
Qed.
(** Accuracy. *)
Lemma normal_accuracy g dd ee m1 m2 m3 pold q ga :
  1 < g <= 2 -> 0 <= dd -> 0 < ee -> m1 * m1 + m2 * m2 + m3 * m3 <= (1 - tol) * (ee * ee) -> dd * dd + (m1 * m1 + m2 * m2 + m3 * m3) <= ee * ee ->
  ConservedToPrimitiveNormal g dd ee (m1 * m1 + m2 * m2 + m3 * m3) m1 m2 m3 pold = Some (q, ga) ->
  let c := PrimitiveToConserved g q in
  DD c = dd /\ Rabs (EE c - ee) <= (lfac (u1 q) (u2 q) (u3 q)) ^ 2 * (g / (g - 1) * (1 + g / (g - 1))) * tol /\
  MM1 c * (ee + pgas q) = m1 * (EE c + pgas q) /\ MM2 c * (ee + pgas q) = m2 * (EE c + pgas q) /\ MM3 c * (ee + pgas q) = m3 * (EE c + pgas q).
Proof.
  intros Hg Hd He Hm Ha H. destruct (normal_result _ _ _ _ _ _ _ _ _ He Hm H) as (P & I & G & D & U1 & U2 & U3 & GG & GS). pose proof tol_pos as Ht. pose proof tol_small as Hs.
  set (msq := m1 * m1 + m2 * m2 + m3 * m3) in *. assert (M0 : 0 <= msq) by (unfold msq; nra).
  pose proof (iterate_sound g dd ee msq tol Hg Hd He ltac:(lra) Ha ltac:(lra) 5 (Rmax pold tol) (pgas q) ltac:(apply Rmax_r) I) as S.
  clear I H. pose proof (lfac_ge (u1 q) (u2 q) (u3 q)) as G1. 
  unfold PrimitiveToConserved. cbn [DD EE MM1 MM2 MM3]. fold (lorentz q). rewrite lorentz_eq, <- G. rewrite <- G in G1.
  unfold FF in S. replace (/ ((g - 1) / g)) with (g / (g - 1)) in S by (field; lra).
  set (a := ee + pgas q) in *. assert (Pa : 0 < a) by (unfold a; lra). set (s := sqrt (1 - msq / (a * a))) in *.
  assert (Sg : s = / ga) by (rewrite GS; rewrite Rinv_inv; reflexivity). rewrite Sg in S.
  assert (A2 : a - msq / a = a / (ga * ga)). { apply Rmult_eq_reg_r with (ga * ga); [ | nra]. transitivity (a * (ga * ga * (1 - msq / (a * a)))); [field; lra | rewrite GG; field; lra]. }
  assert (Dr : dd * / ga = rho q). { rewrite D. field. lra. }
  rewrite Dr, A2 in S.
  set (r := (g - 1) / g * (a / (ga * ga) - rho q) - pgas q) in *.
  assert (Er : (rho q + g / (g - 1) * pgas q) * (ga * ga) = a - ga * ga * (g / (g - 1)) * r). { unfold r. field. lra. }
  assert (K0 : 0 < g / (g - 1)) by (apply Rdiv_lt_0_compat; lra).
  split; [symmetry; exact D | ]. split; [ | repeat split].
  - replace ((rho q + g / (g - 1) * pgas q) * ga * ga - pgas q - ee) with (- (ga * ga * (g / (g - 1)) * r)) by (unfold a in Er; lra).
    rewrite Rabs_Ropp, Rabs_mult, (Rabs_right (ga * ga * (g / (g - 1)))) by (apply Rle_ge, Rmult_le_pos; nra).
    replace (ga ^ 2 * (g / (g - 1) * (1 + g / (g - 1))) * tol) with (ga * ga * (g / (g - 1)) * ((1 + g / (g - 1)) * tol)) by ring.
    apply Rmult_le_compat_l; [apply Rmult_le_pos; nra | exact S].
  - rewrite U1. field. lra.
  - rewrite U2. field. lra.
  - rewrite U3. field. lra.
Qed.
