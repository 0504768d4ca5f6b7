(** C97 below the threshold of the quadratic formula. *)
From Coq Require Import Reals Lra Bool.
From Verif Require Import Time_Model Time_Proofs Sr_Model Sr_Spec Sr_Proofs2 Sr_Proofs4 Srr_Model Srr_Spec Srr_Proofs Srr_Props Shc_Model Shc_Proofs Shc_Props.
Local Open Scope R_scope.

(** A hot gas of density 9 k that moves at 3/5 of the speed of light. *)
Definition thin (k : R) : prim := {| rho := 9 * k; pgas := 8 * k; u1 := 3 / 4; u2 := 0; u3 := 0 |}.
Lemma thin_lorentz k : lorentz (thin k) = 5 / 4.
Proof. unfold lorentz, thin. cbn [u1 u2 u3]. replace (1 + 3 / 4 * (3 / 4) + 0 * 0 + 0 * 0) with (5 / 4 * (5 / 4)) by field. apply sqrt_square. lra. Qed.
Lemma thin_lambdas k : 0 < k -> lambdas 2 (thin k) = (35 / 37, - (5 / 13)).
Proof.
  intro K. unfold lambdas. rewrite thin_lorentz. change (u1 (thin k)) with (3 / 4). change (pgas (thin k)) with (8 * k). replace (wgas 2 (thin k)) with (25 * k) by (unfold wgas, thin; cbn [rho pgas]; field). replace (3 / 4 / (5 / 4)) with (3 / 5) by field.
  replace (5 / 4 * (5 / 4)) with (1 / (1 - 3 / 5 * (3 / 5))) by field. rewrite (speeds_add 2 (25 * k) (8 * k) (3 / 5) (4 / 5)) by (first [lra | field; lra | replace (2 * (8 * k) / (25 * k)) with (16 / 25) by (field; lra); lra]). unfold add_velocities. f_equal; field.
Qed.
(** Equal states with an energy flux below the threshold: the rest mass does not move with the gas. *)
Theorem C97_threshold_refuted : forall T, 0 < T -> exists w c, gas_ok w /\ densities 2 c w /\ 0 < MM1 c <= T /\ DD (HLLC_SR T 2 w w) < 9 / 10 * (DD c * velocity w).
Proof.
  intros T T0. set (k := 16 / 375 * T). assert (K : 0 < k) by (unfold k; lra). exists (thin k), (cons_of 2 (thin k)). pose proof (thin_lorentz k) as LO. pose proof (thin_lambdas k K) as LA.
  assert (MV : MM1 (cons_of 2 (thin k)) = 375 / 16 * k) by (unfold cons_of; rewrite LO; unfold wgas, thin; cbn [rho pgas u1 MM1]; field).
  split; [unfold gas_ok, thin; cbn [rho pgas]; lra | ]. split; [apply cons_describes | ]. split; [rewrite MV; unfold k; lra | ].
  assert (LL : lambda_l 2 (thin k) (thin k) = - (5 / 13)) by (unfold lambda_l; rewrite LA; cbn [snd]; apply Rmin_left; lra). assert (LR : lambda_r 2 (thin k) (thin k) = 35 / 37) by (unfold lambda_r; rewrite LA; cbn [fst]; apply Rmax_left; lra).
  assert (VE : velocity (thin k) = 3 / 5) by (unfold velocity; rewrite <- lorentz_lfac, LO; unfold thin; cbn [u1]; field).
  assert (LS : lambda_star T 2 (thin k) (thin k) = 15 / 34).
  { unfold lambda_star. cbv zeta. assert (E : EE (flux_hll 2 (thin k) (thin k)) = 375 / 16 * k) by (unfold flux_hll; rewrite LL, LR; unfold each, flux_of, cons_of; rewrite LO; unfold wgas, thin; cbn [rho pgas u1 EE]; field). rewrite E.
    replace (ltR T (Rabs (375 / 16 * k))) with false. 2:{ symmetry. unfold ltR. rewrite Rabs_right by lra. destruct (Rlt_dec T (375 / 16 * k)) as [H | H]; [unfold k in H; exfalso; lra | reflexivity]. }
    unfold cons_hll, flux_hll. rewrite LL, LR. unfold each, flux_of, cons_of. rewrite LO. unfold wgas, thin. cbn [rho pgas u1 MM1 EE]. field. lra. }
  rewrite VE. unfold HLLC_SR. cbv zeta. rewrite LL, LR, LS. replace (leR 0 (- (5 / 13))) with false by (symmetry; apply leR_false; lra). replace (leR (35 / 37) 0) with false by (symmetry; apply leR_false; lra). replace (leR 0 (15 / 34)) with true by (symmetry; apply leR_true; lra).
  unfold flux_star, each, cons_star, flux_of, cons_of. cbv zeta. rewrite LO. unfold thin. cbn [rho u1 DD]. match goal with |- ?x < _ => replace x with (k * (27 / 4 - 5 / 13 * (45 / 4 * (28288 / 23725 - 1)))) by field end. lra.
Qed.
Print Assumptions C97_threshold_refuted.
