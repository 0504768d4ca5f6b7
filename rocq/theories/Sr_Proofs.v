(** The fixed point map of the inversion. *)
From Coq Require Import Reals Lra Bool Psatz.
From Verif Require Import Time_Model Sr_Model.
Local Open Scope R_scope.

Lemma ltR_true x y : ltR x y = true <-> x < y.
Proof. unfold ltR. destruct (Rlt_dec x y); split; intros; try discriminate; try reflexivity; lra. Qed.
Lemma ltR_false x y : ltR x y = false <-> y <= x.
Proof. unfold ltR. destruct (Rlt_dec x y); split; intros; try discriminate; try reflexivity; lra. Qed.
Lemma tol_pos : 0 < tol.
Proof. unfold tol. apply Rinv_0_lt_compat, pow_lt. lra. Qed.
Lemma tol_small : tol < / 1000000.
Proof. unfold tol. apply Rinv_lt_contravar; [ | simpl pow; lra]. apply Rmult_lt_0_compat; [lra | apply pow_lt; lra]. Qed.

(** The map with nothing clipped. *)
Definition FF (k dd msq a : R) : R := k * (a - msq / a - dd * sqrt (1 - msq / (a * a))).
Lemma s_nonneg msq a : 0 < a -> 0 <= msq <= (1 - tol) * (a * a) -> tol <= 1 - msq / (a * a) <= 1.
Proof.
  intros Ha [H0 H1]. assert (P : 0 < a * a) by nra. split.
  - assert (msq / (a * a) <= 1 - tol); [ | lra].
    apply Rmult_le_reg_r with (a * a); [exact P | ]. replace (msq / (a * a) * (a * a)) with msq by (field; lra). exact H1.
  - assert (0 <= msq / (a * a)); [ | lra]. apply Rmult_le_pos; [lra | left; apply Rinv_0_lt_compat; exact P].
Qed.
Lemma vsq_eq msq a : 0 < a -> 0 <= msq <= (1 - tol) * (a * a) -> vsq_of msq a = msq / (a * a).
Proof. intros Ha H. destruct (s_nonneg msq a Ha H). unfold vsq_of. rewrite Rmax_left by lra. rewrite Rmin_left; lra. Qed.
Lemma ga_eq s : 0 < s -> sqrt (1 / s) = / sqrt s.
Proof.
  intros H. replace (1 / s) with (/ s) by (unfold Rdiv; ring).
  symmetry.
  assert (0 < sqrt s) by (apply sqrt_lt_R0; exact H).
  assert (0 < / s) by (apply Rinv_0_lt_compat; exact H).
  apply Rmult_eq_reg_r with (sqrt s); [ | lra]. rewrite Rinv_l by lra.
  rewrite <- sqrt_mult by lra. rewrite Rinv_l by lra. symmetry. apply sqrt_1.
Qed.
Lemma next_eq g dd ee msq pm p :
  0 < g -> tol <= ee + p -> 0 <= msq <= (1 - tol) * ((ee + p) * (ee + p)) ->
  next g dd ee msq pm p = Rmax (FF ((g - 1) / g) dd msq (ee + p)) pm.
Proof.
  intros Hg Ha Hm. pose proof tol_pos as Ht. assert (Pa : 0 < ee + p) by lra. unfold next, a_of. rewrite (Rmax_left (ee + p)) by lra.
  rewrite vsq_eq by (auto; lra). pose proof (s_nonneg _ _ Pa Hm) as [S0 S1]. unfold FF.
  set (a := ee + p) in *. clearbody a. assert (Es : sqrt (1 / (1 - msq / (a * a))) = / sqrt (1 - msq / (a * a))) by (apply ga_eq; lra). rewrite Es. f_equal. f_equal.
  assert (0 < sqrt (1 - msq / (a * a))) by (apply sqrt_lt_R0; lra).
  assert (E1 : a / (1 / (1 - msq / (a * a))) = a * (1 - msq / (a * a))).
  { unfold Rdiv at 1. unfold Rdiv at 1. rewrite Rmult_1_l, Rinv_inv. reflexivity. }
  rewrite E1. assert (E2 : dd / / sqrt (1 - msq / (a * a)) = dd * sqrt (1 - msq / (a * a))).
  { unfold Rdiv at 1. rewrite Rinv_inv. reflexivity. }
  rewrite E2. f_equal. field. lra.
Qed.
(** It increases, by at least k and at most 2 k times the increase of a. *)
Lemma root_eq msq a : 0 < a -> msq < a * a -> sqrt (1 - msq / (a * a)) = sqrt (a * a - msq) / a.
Proof.
  intros Ha Hm. replace (1 - msq / (a * a)) with ((a * a - msq) / (a * a)) by (field; lra).
  rewrite sqrt_div_alt by nra. rewrite sqrt_square by lra. reflexivity.
Qed.
Lemma root_incr dd msq a1 a2 :
  0 < a1 <= a2 -> 0 <= msq < a1 * a1 -> 0 <= dd ->
  0 <= dd * sqrt (1 - msq / (a2 * a2)) - dd * sqrt (1 - msq / (a1 * a1)).
Proof.
  intros Ha Hm Hd. rewrite <- Rmult_minus_distr_l. apply Rmult_le_pos; [lra | ].
  assert (sqrt (1 - msq / (a1 * a1)) <= sqrt (1 - msq / (a2 * a2))); [ | lra].
  apply sqrt_le_1_alt. apply Rplus_le_compat_l, Ropp_le_contravar. unfold Rdiv. apply Rmult_le_compat_l; [lra | ]. apply Rinv_le_contravar; nra.
Qed.
Lemma FF_upper k dd msq a1 a2 :
  0 < k -> 0 < a1 <= a2 -> 0 <= msq < a1 * a1 -> 0 <= dd ->
  FF k dd msq a2 - FF k dd msq a1 <= k * (1 + msq / (a1 * a2)) * (a2 - a1).
Proof.
  intros Hk Ha Hm Hd. pose proof (root_incr dd msq a1 a2 Ha Hm Hd) as H. unfold FF.
  set (r1 := sqrt (1 - msq / (a1 * a1))) in *. set (r2 := sqrt (1 - msq / (a2 * a2))) in *. clearbody r1 r2.
  assert (E : k * (1 + msq / (a1 * a2)) * (a2 - a1) = k * (a2 - msq / a2 - (a1 - msq / a1))) by (field; lra).
  rewrite E. rewrite <- Rmult_minus_distr_l. apply Rmult_le_compat_l; lra.
Qed.
Lemma ratio_le msq a1 a2 : 0 < a1 <= a2 -> 0 <= msq < a1 * a1 -> 0 <= msq / (a1 * a2) < 1.
Proof.
  intros Ha Hm. assert (P : 0 < a1 * a2) by nra. split.
  - apply Rmult_le_pos; [lra | left; apply Rinv_0_lt_compat; exact P].
  - apply Rmult_lt_reg_r with (a1 * a2); [exact P | ]. replace (msq / (a1 * a2) * (a1 * a2)) with msq by (field; lra). nra.
Qed.
Lemma FF_lower k dd msq a1 a2 :
  0 < k -> 0 < a1 <= a2 -> 0 <= msq < a1 * a1 -> 0 <= dd -> dd * dd <= a1 * a1 - msq ->
  k * (a2 - a1) <= FF k dd msq a2 - FF k dd msq a1.
Proof.
  intros Hk Ha Hm Hd Hdd. pose proof (root_incr 1 msq a1 a2 Ha Hm ltac:(lra)) as Hr. unfold FF.
  assert (Hm2 : msq < a2 * a2) by nra.
  rewrite (root_eq msq a1) in * by lra. rewrite (root_eq msq a2) in * by lra.
  set (y1 := sqrt (a1 * a1 - msq)) in *. set (y2 := sqrt (a2 * a2 - msq)) in *.
  assert (Y1 : y1 * y1 = a1 * a1 - msq) by (apply sqrt_sqrt; lra). assert (Y2 : y2 * y2 = a2 * a2 - msq) by (apply sqrt_sqrt; lra).
  assert (P1 : 0 <= y1) by apply sqrt_pos. assert (P2 : 0 <= y2) by apply sqrt_pos. clearbody y1 y2.
  assert (D1 : dd <= y1) by nra.
  assert (C : y1 * y2 <= a1 * a2 - msq).
  { assert (0 <= a1 * a2 - msq) by nra. apply Rsqr_incr_0_var; [ | assumption]. unfold Rsqr.
    replace (y1 * y2 * (y1 * y2)) with ((y1 * y1) * (y2 * y2)) by ring. rewrite Y1, Y2. assert (0 <= msq * ((a1 - a2) * (a1 - a2))) by (apply Rmult_le_pos; nra). lra. }
  assert (B : dd * (y2 / a2 - y1 / a1) <= msq / a1 - msq / a2).
  { apply Rle_trans with (y1 * (y2 / a2 - y1 / a1)); [apply Rmult_le_compat_r; lra | ].
    replace (y1 * (y2 / a2 - y1 / a1)) with ((y1 * y2) / a2 - (y1 * y1) / a1) by (field; lra). rewrite Y1.
    assert ((y1 * y2) / a2 <= (a1 * a2 - msq) / a2) by (apply Rmult_le_compat_r; [left; apply Rinv_0_lt_compat; lra | exact C]).
    replace ((a1 * a2 - msq) / a2) with (a1 - msq / a2) in H by (field; lra).
    replace ((a1 * a1 - msq) / a1) with (a1 - msq / a1) by (field; lra). lra. }
  rewrite <- Rmult_minus_distr_l. apply Rmult_le_compat_l; [lra | ]. lra.
Qed.
Lemma FF_lipschitz k dd msq a1 a2 :
  0 < k <= 1 / 2 -> 0 < a1 -> 0 < a2 -> 0 <= msq < a1 * a1 -> msq < a2 * a2 -> 0 <= dd -> dd * dd <= a1 * a1 - msq -> dd * dd <= a2 * a2 - msq ->
  Rabs (FF k dd msq a2 - FF k dd msq a1) <= Rabs (a2 - a1) /\ k * Rabs (a2 - a1) <= Rabs (FF k dd msq a2 - FF k dd msq a1).
Proof.
  intros Hk H1 H2 Hm1 Hm2 Hd D1 D2. destruct (Rle_dec a1 a2).
  - pose proof (FF_lower k dd msq a1 a2 ltac:(lra) ltac:(lra) Hm1 Hd D1) as L. pose proof (FF_upper k dd msq a1 a2 ltac:(lra) ltac:(lra) Hm1 Hd) as U.
    pose proof (ratio_le msq a1 a2 ltac:(lra) Hm1) as Q. set (q := msq / (a1 * a2)) in *. clearbody q.
    assert (k * (1 + q) <= 1) by nra. assert (k * (1 + q) * (a2 - a1) <= 1 * (a2 - a1)) by (apply Rmult_le_compat_r; lra).
    assert (0 <= k * (a2 - a1)) by (apply Rmult_le_pos; lra).
    rewrite !Rabs_right by lra. lra.
  - pose proof (FF_lower k dd msq a2 a1 ltac:(lra) ltac:(lra) ltac:(lra) Hd D2) as L. pose proof (FF_upper k dd msq a2 a1 ltac:(lra) ltac:(lra) ltac:(lra) Hd) as U.
    pose proof (ratio_le msq a2 a1 ltac:(lra) ltac:(lra)) as Q. set (q := msq / (a2 * a1)) in *. clearbody q.
    assert (k * (1 + q) <= 1) by nra. assert (k * (1 + q) * (a1 - a2) <= 1 * (a1 - a2)) by (apply Rmult_le_compat_r; lra).
    assert (0 <= k * (a1 - a2)) by (apply Rmult_le_pos; lra).
    rewrite (Rabs_minus_sym a2 a1), (Rabs_minus_sym (FF _ _ _ a2)). rewrite !Rabs_right by lra. lra.
Qed.
(** Two pressures with the same conserved variables are equal. *)
Lemma fixed_unique k dd msq a1 a2 e :
  0 < k <= 1 / 2 -> 0 < a1 -> 0 < a2 -> 0 <= msq < a1 * a1 -> msq < a2 * a2 -> 0 <= dd ->
  a1 - e = FF k dd msq a1 -> a2 - e = FF k dd msq a2 -> a1 = a2.
Proof.
  assert (W : forall a1 a2, 0 < k <= 1 / 2 -> 0 < a1 < a2 -> 0 <= msq < a1 * a1 -> 0 <= dd -> a1 - e = FF k dd msq a1 -> a2 - e = FF k dd msq a2 -> False).
  { intros b1 b2 Hk Hb Hm Hd E1 E2. pose proof (FF_upper k dd msq b1 b2 ltac:(lra) ltac:(lra) Hm Hd) as U.
    pose proof (ratio_le msq b1 b2 ltac:(lra) Hm) as Q. set (q := msq / (b1 * b2)) in *. clearbody q. rewrite <- E1, <- E2 in U.
    assert (k * (1 + q) < 1) by nra. assert (k * (1 + q) * (b2 - b1) < 1 * (b2 - b1)) by (apply Rmult_lt_compat_r; lra). lra. }
  intros Hk H1 H2 Hm1 Hm2 Hd E1 E2. destruct (Rtotal_order a1 a2) as [L | [L | L]]; [ | exact L | ]; exfalso; [apply (W a1 a2) | apply (W a2 a1)]; auto; lra.
Qed.
