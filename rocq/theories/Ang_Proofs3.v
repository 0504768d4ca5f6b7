(** The grid in the angles zeta and psi. *)
From Coq Require Import Reals List Bool Arith Lra Lia.
From Verif Require Import Lud_Model Lud_Spec Lud_Proofs Ang_Model Ang_Spec Ang_Proofs.
Import ListNotations.
Local Open Scope R_scope.

Lemma sum_cos h M : 2 * sin (h / 2) * total M (fun m => cos ((INR m + 1 / 2) * h)) = sin (INR M * h).
Proof.
  induction M; [simpl; rewrite !Rmult_0_l, sin_0; ring|]. cbn [total]. rewrite Rmult_plus_distr_l, IHM. rewrite S_INR.
  set (a := (INR M + 1 / 2) * h). replace (INR M * h) with (a - h / 2) by (unfold a; field). replace ((INR M + 1) * h) with (a + h / 2) by (unfold a; field). rewrite sin_plus, sin_minus. ring.
Qed.
Lemma sum_sin h M : 2 * sin (h / 2) * total M (fun m => sin ((INR m + 1 / 2) * h)) = 1 - cos (INR M * h).
Proof.
  induction M; [simpl; rewrite !Rmult_0_l, cos_0; ring|]. cbn [total]. rewrite Rmult_plus_distr_l, IHM. rewrite S_INR.
  set (a := (INR M + 1 / 2) * h). replace (INR M * h) with (a - h / 2) by (unfold a; field). replace ((INR M + 1) * h) with (a + h / 2) by (unfold a; field). rewrite cos_plus, cos_minus. ring.
Qed.
Section grid.
Variables nz np : nat.
Hypothesis Hz : (1 <= nz)%nat.
Hypothesis Hp : (2 <= np)%nat.
Let N := 2 * INR nz.
Lemma N_ge : 2 <= N. Proof. unfold N. apply le_INR in Hz. simpl in Hz. lra. Qed.
Lemma np_ge : 2 <= INR np. Proof. apply le_INR in Hp. simpl in Hp. lra. Qed.
Let q := sqrt (4 * INR nz * INR nz - 1).
Lemma q_ok : 0 < q /\ q * q = N * N - 1.
Proof. pose proof N_ge as G. unfold N in *. split; [apply sqrt_lt_R0; nra|]. unfold q. rewrite sqrt_sqrt by nra. ring. Qed.
Lemma f_closed i : (i <= nz)%nat -> coszeta_f nz i = 1 - INR i / INR nz.
Proof.
  intros H. assert (P : 0 < INR nz) by (apply lt_0_INR; lia). unfold coszeta_f. destruct (Nat.ltb_spec i nz). - destruct i; [simpl; field; lra|]. field. lra. - destruct (Nat.eqb_spec i nz) as [->|]; [field; lra|lia].
Qed.
Lemma cz_closed i : (i < 2 * nz)%nat -> coszeta_v nz i = (N - (2 * INR i + 1)) / q.
Proof.
  intros H. assert (P : 0 < INR nz) by (apply lt_0_INR; lia). destruct q_ok as [Q _]. unfold coszeta_v. fold q. destruct (Nat.ltb_spec i nz).
  - rewrite !f_closed by lia. rewrite plus_INR. unfold N. simpl. field. lra.
  - rewrite !f_closed by lia. rewrite plus_INR. rewrite !minus_INR, mult_INR by lia. unfold N. simpl. field. lra.
Qed.
Lemma psi_closed i : (i < 2 * np)%nat -> psi_v np i = (INR i + 1 / 2) * (PI / INR np).
Proof.
  intros H. pose proof np_ge. unfold psi_v. destruct (Nat.ltb_spec i np); auto. rewrite !minus_INR, mult_INR by lia. simpl. field. lra.
Qed.
Lemma odd_sums M (n : R) : total M (fun i => n - (2 * INR i + 1)) = INR M * n - INR M * INR M /\ total M (fun i => (n - (2 * INR i + 1)) * (n - (2 * INR i + 1))) = INR M * n * n - 2 * n * (INR M * INR M) + INR M * (4 * (INR M * INR M) - 1) / 3.
Proof. clear. induction M; [simpl; split; field|]. destruct IHM as [A B]. cbn [total]. rewrite A, B, S_INR. split; field. Qed.
Lemma N2 : INR (2 * nz) = N. Proof. rewrite mult_INR. reflexivity. Qed.
Lemma cz_sum : total (2 * nz) (coszeta_v nz) = 0.
Proof.
  destruct q_ok as [Q _]. rewrite (total_ext _ _ (fun i => / q * (N - (2 * INR i + 1)))) by (intros; rewrite cz_closed by auto; field; lra). rewrite total_scal, (proj1 (odd_sums _ _)), N2. ring.
Qed.
Lemma cz_square : total (2 * nz) (fun i => coszeta_v nz i * coszeta_v nz i) = N / 3.
Proof.
  destruct q_ok as [Q Q2]. pose proof N_ge. rewrite (total_ext _ _ (fun i => / (q * q) * ((N - (2 * INR i + 1)) * (N - (2 * INR i + 1))))) by (intros; rewrite cz_closed by auto; field; lra).
  rewrite total_scal, (proj2 (odd_sums _ _)), N2, Q2. field. nra.
Qed.
Lemma cz_le i : (i < 2 * nz)%nat -> 0 <= 1 - coszeta_v nz i * coszeta_v nz i.
Proof.
  intros H. destruct q_ok as [Q Q2]. pose proof N_ge. rewrite cz_closed by auto. assert (I : INR i + 1 <= N) by (rewrite <- S_INR, <- N2; apply le_INR; lia). pose proof (pos_INR i). set (x := N - (2 * INR i + 1)).
  assert (X : x * x <= q * q) by (rewrite Q2; unfold x; nra). replace (x / q * (x / q)) with (x * x / (q * q)) by (field; lra). assert (x * x / (q * q) <= 1); [|lra]. apply Rmult_le_reg_r with (q * q); [nra|]. replace (x * x / (q * q) * (q * q)) with (x * x) by (field; nra). lra.
Qed.
Lemma np2 : INR (2 * np) = 2 * INR np. Proof. rewrite mult_INR. reflexivity. Qed.
Lemma psi_sums : total (2 * np) (fun m => cos (psi_v np m)) = 0 /\ total (2 * np) (fun m => sin (psi_v np m)) = 0 /\
  total (2 * np) (fun m => cos (psi_v np m) * cos (psi_v np m)) = INR np /\ total (2 * np) (fun m => sin (psi_v np m) * sin (psi_v np m)) = INR np /\ total (2 * np) (fun m => cos (psi_v np m) * sin (psi_v np m)) = 0.
Proof.
  pose proof np_ge as G. pose proof PI_RGT_0 as P. set (h := PI / INR np).
  assert (S1 : 0 < sin (h / 2)). { apply sin_gt_0; unfold h. - apply Rdiv_lt_0_compat; [apply Rdiv_lt_0_compat; lra|lra]. - apply Rmult_lt_reg_r with (2 * INR np); [lra|]. replace (PI / INR np / 2 * (2 * INR np)) with PI by (field; lra). nra. }
  assert (S2 : 0 < sin (2 * h / 2)). { apply sin_gt_0; unfold h. - apply Rdiv_lt_0_compat; [|lra]. assert (0 < PI / INR np) by (apply Rdiv_lt_0_compat; lra). lra. - apply Rmult_lt_reg_r with (INR np); [lra|]. replace (2 * (PI / INR np) / 2 * INR np) with PI by (field; lra). nra. }
  assert (F1 : INR (2 * np) * h = 2 * PI) by (rewrite np2; unfold h; field; lra). assert (F2 : INR (2 * np) * (2 * h) = 2 * (2 * PI)) by (rewrite np2; unfold h; field; lra).
  pose proof (sum_cos h (2 * np)) as C1. pose proof (sum_sin h (2 * np)) as D1. pose proof (sum_cos (2 * h) (2 * np)) as C2. pose proof (sum_sin (2 * h) (2 * np)) as D2.
  rewrite F1 in C1, D1. rewrite F2 in C2, D2. rewrite sin_2PI in C1. rewrite cos_2PI in D1. rewrite sin_2a, sin_2PI in C2. rewrite cos_2a, sin_2PI, cos_2PI in D2.
  assert (K1 : total (2 * np) (fun m => cos ((INR m + 1 / 2) * h)) = 0) by nra. assert (K2 : total (2 * np) (fun m => sin ((INR m + 1 / 2) * h)) = 0) by nra.
  assert (K3 : total (2 * np) (fun m => cos ((INR m + 1 / 2) * (2 * h))) = 0) by nra. assert (K4 : total (2 * np) (fun m => sin ((INR m + 1 / 2) * (2 * h))) = 0) by nra.
  assert (ONE : forall M, total M (fun _ => 1 / 2) = INR M / 2). { induction M; [simpl; field|]. cbn [total]. rewrite IHM, S_INR. field. }
  repeat split.
  - rewrite <- K1. apply total_ext. intros m Hm. rewrite psi_closed by auto. reflexivity.
  - rewrite <- K2. apply total_ext. intros m Hm. rewrite psi_closed by auto. reflexivity.
  - rewrite (total_ext _ _ (fun m => 1 / 2 + 1 / 2 * cos ((INR m + 1 / 2) * (2 * h)))).
    + rewrite total_plus, total_scal, K3, ONE, np2. field.
    + intros m Hm. rewrite psi_closed by auto. fold h. replace ((INR m + 1 / 2) * (2 * h)) with (2 * ((INR m + 1 / 2) * h)) by ring. rewrite cos_2a. set (x := (INR m + 1 / 2) * h). pose proof (sin2_cos2 x) as E. unfold Rsqr in E. lra.
  - rewrite (total_ext _ _ (fun m => 1 / 2 + - (1 / 2) * cos ((INR m + 1 / 2) * (2 * h)))).
    + rewrite total_plus, total_scal, K3, ONE, np2. field.
    + intros m Hm. rewrite psi_closed by auto. fold h. replace ((INR m + 1 / 2) * (2 * h)) with (2 * ((INR m + 1 / 2) * h)) by ring. rewrite cos_2a. set (x := (INR m + 1 / 2) * h). pose proof (sin2_cos2 x) as E. unfold Rsqr in E. lra.
  - rewrite (total_ext _ _ (fun m => 1 / 2 * sin ((INR m + 1 / 2) * (2 * h)))).
    + rewrite total_scal, K4. ring.
    + intros m Hm. rewrite psi_closed by auto. fold h. replace ((INR m + 1 / 2) * (2 * h)) with (2 * ((INR m + 1 / 2) * h)) by ring. rewrite sin_2a. field.
Qed.
Lemma total_const M c : total M (fun _ => c) = INR M * c. Proof. clear. induction M; [simpl; ring|]. cbn [total]. rewrite IHM, S_INR. ring. Qed.
Lemma psi_isotropic : Nat.Even (nz * np) -> exists l, AngularGridPsi nz np = Some l /\ isotropic l /\ length l = nang3 nz np.
Proof.
  intros [e E]. assert (A : nang3 nz np = (2 * nz * (2 * np))%nat). { unfold nang3. rewrite E. rewrite Nat.mul_comm with (n := 2%nat) (m := e), Nat.div_mul by lia. nia. }
  unfold AngularGridPsi. rewrite A. rewrite Nat.leb_refl. eexists. split; [reflexivity|]. set (W := 1 / INR (2 * nz * (2 * np))). set (s := fun n => sqrt (1 - coszeta_v nz n * coszeta_v nz n)).
  pose proof N_ge as GN. pose proof np_ge as GP. assert (EW : W * (N * (2 * INR np)) = 1) by (unfold W; rewrite mult_INR, N2, np2; field; split; lra).
  destruct psi_sums as [P1 [P2 [P3 [P4 P5]]]].
  assert (SS : forall n, (n < 2 * nz)%nat -> s n * s n = 1 - coszeta_v nz n * coszeta_v nz n) by (intros; apply sqrt_sqrt, cz_le; auto).
  assert (S2 : total (2 * nz) (fun n => s n * s n) = 2 * N / 3).
  { rewrite (total_ext _ _ (fun n => 1 + -1 * (coszeta_v nz n * coszeta_v nz n))) by (intros; rewrite SS by auto; ring). rewrite total_plus, total_scal, cz_square, total_const, N2. field. }
  assert (G : forall f g, (forall n m, (n < 2 * nz)%nat -> (m < 2 * np)%nat -> f ((s n * cos (psi_v np m), s n * sin (psi_v np m), coszeta_v nz n), W) = g n m) ->
    add_up (flat_map (fun n => map (fun m => ((s n * cos (psi_v np m), s n * sin (psi_v np m), coszeta_v nz n), W)) (seq 0 (2 * np))) (seq 0 (2 * nz))) f = total (2 * nz) (fun n => total (2 * np) (g n))).
  { intros f g H. rewrite add_up_flat, add_up_seq. apply total_ext. intros n Hn. rewrite add_up_map, add_up_seq. apply total_ext. intros m Hm. apply H; auto. }
  split; [|].
  2:{ assert (L : forall M, length (flat_map (fun n => map (fun m => ((s n * cos (psi_v np m), s n * sin (psi_v np m), coszeta_v nz n), W)) (seq 0 (2 * np))) (seq 0 M)) = (M * (2 * np))%nat).
      { induction M; auto. rewrite seq_S, flat_map_app, app_length, IHM. cbn [flat_map]. rewrite app_nil_r, map_length, seq_length. lia. } apply L. }
  unfold isotropic. repeat split.
  - intros d w I. apply in_flat_map in I. destruct I as [n [In1 I]]. apply in_map_iff in I. destruct I as [m [E1 I]]. apply in_seq in In1. apply in_seq in I. injection E1 as <- _. unfold unit_vector.
    change (sqrt (1 - coszeta_v nz n * coszeta_v nz n)) with (s n). pose proof (sin2_cos2 (psi_v np m)) as T. unfold Rsqr in T. transitivity (s n * s n * (sin (psi_v np m) * sin (psi_v np m) + cos (psi_v np m) * cos (psi_v np m)) + coszeta_v nz n * coszeta_v nz n); [ring|]. rewrite T, SS by lia. ring.
  - rewrite (G _ (fun _ _ => W)) by auto. rewrite (total_ext _ _ (fun _ => INR (2 * np) * W)) by (intros; apply total_const). rewrite total_const, N2, np2. lra.
  - rewrite (G _ (fun n m => (W * s n) * cos (psi_v np m))) by (intros; ring). apply total_zero. intros n Hn. rewrite total_scal, P1. ring.
  - rewrite (G _ (fun n m => (W * s n) * sin (psi_v np m))) by (intros; ring). apply total_zero. intros n Hn. rewrite total_scal, P2. ring.
  - rewrite (G _ (fun n m => W * coszeta_v nz n)) by (intros; ring). rewrite (total_ext _ _ (fun n => (INR (2 * np) * W) * coszeta_v nz n)) by (intros; rewrite total_const; ring). rewrite total_scal, cz_sum. ring.
  - rewrite (G _ (fun n m => (W * (s n * s n)) * (cos (psi_v np m) * cos (psi_v np m)))) by (intros; ring). rewrite (total_ext _ _ (fun n => (W * INR np) * (s n * s n))) by (intros; rewrite total_scal, P3; ring). rewrite total_scal, S2. lra.
  - rewrite (G _ (fun n m => (W * (s n * s n)) * (sin (psi_v np m) * sin (psi_v np m)))) by (intros; ring). rewrite (total_ext _ _ (fun n => (W * INR np) * (s n * s n))) by (intros; rewrite total_scal, P4; ring). rewrite total_scal, S2. lra.
  - rewrite (G _ (fun n m => W * (coszeta_v nz n * coszeta_v nz n))) by (intros; ring). rewrite (total_ext _ _ (fun n => (INR (2 * np) * W) * (coszeta_v nz n * coszeta_v nz n))) by (intros; rewrite total_const; ring). rewrite total_scal, cz_square, np2. lra.
  - rewrite (G _ (fun n m => (W * (s n * s n)) * (cos (psi_v np m) * sin (psi_v np m)))) by (intros; ring). apply total_zero. intros n Hn. rewrite total_scal, P5. ring.
  - rewrite (G _ (fun n m => (W * s n * coszeta_v nz n) * cos (psi_v np m))) by (intros; ring). apply total_zero. intros n Hn. rewrite total_scal, P1. ring.
  - rewrite (G _ (fun n m => (W * s n * coszeta_v nz n) * sin (psi_v np m))) by (intros; ring). apply total_zero. intros n Hn. rewrite total_scal, P2. ring.
Qed.
End grid.
