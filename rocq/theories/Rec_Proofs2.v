(** Proofs about the parabolic method. *)
From Coq Require Import Reals ZArith Bool Lia Lra Psatz.
From Verif Require Import Time_Model Time_Proofs Rec_Model Rec_Spec Rec_Proofs.
Local Open Scope R_scope.

Lemma SIGN_cases : forall x, (x < 0 /\ SIGN x = - 1) \/ (0 <= x /\ SIGN x = 1).
Proof. intro x. unfold SIGN. destruct (ltR x 0) eqn:E; [left; apply ltR_true in E; tauto|right; apply ltR_false in E; tauto]. Qed.
Lemma same_sign : forall x y, eqR (SIGN x) (SIGN y) = true -> (x < 0 /\ y < 0) \/ (0 <= x /\ 0 <= y).
Proof. intros x y E. apply eqR_true in E. destruct (SIGN_cases x) as [[A B]|[A B]], (SIGN_cases y) as [[C D]|[C D]]; rewrite B, D in E; try lra; tauto. Qed.
(** A Mignone-limited state stays within what it starts from; h are any positive ratios. *)
Lemma mignone_bounded : forall c q i qm qp, 0 <= hplus c i -> 0 <= hminus c i -> between (q i) (q (i + 1)%Z) qp -> between (q (i - 1)%Z) (q i) qm -> bounded q i (limit_mignone c q i qm qp).
Proof.
  intros c q i qm qp H1 H2 P M. unfold limit_mignone. cbv zeta. set (m := q i - qm). set (p := qp - q i).
  assert (Z1 : forall a b, between a b a). { intros; unfold between, Rmin, Rmax; destruct Rle_dec; lra. } assert (Z2 : forall a b, between a b b). { intros; unfold between, Rmin, Rmax; destruct Rle_dec; lra. }
  destruct (leR_cases (m * p) 0) as [[-> _]|[-> X]]; [split; [apply Z1|apply Z2]|]. apply prod_pos in X. unfold bounded; cbn [fst snd]. split.
  - destruct (leR_cases (hminus c i * Rabs m) (Rabs p)) as [[-> Y]|[-> Y]]; [|exact P]. unfold between, Rmin, Rmax in *. destruct X as [[A B]|[A B]].
    + rewrite !Rabs_right in Y by lra. unfold m, p in *. assert (0 <= hminus c i * (q i - qm)) by (apply Rmult_le_pos; lra). destruct (Rle_dec (q i) (q (i + 1)%Z)); lra.
    + rewrite !Rabs_left in Y by lra. unfold m, p in *. assert (0 <= hminus c i * - (q i - qm)) by (apply Rmult_le_pos; lra). destruct (Rle_dec (q i) (q (i + 1)%Z)); lra.
  - destruct (leR_cases (hplus c i * Rabs p) (Rabs m)) as [[-> Y]|[-> Y]]; [|exact M]. unfold between, Rmin, Rmax in *. destruct X as [[A B]|[A B]].
    + rewrite !Rabs_right in Y by lra. unfold m, p in *. assert (0 <= hplus c i * (qp - q i)) by (apply Rmult_le_pos; lra). destruct (Rle_dec (q (i - 1)%Z) (q i)); lra.
    + rewrite !Rabs_left in Y by lra. unfold m, p in *. assert (0 <= hplus c i * - (qp - q i)) by (apply Rmult_le_pos; lra). destruct (Rle_dec (q (i - 1)%Z) (q i)); lra.
Qed.
Lemma clamp_between : forall q i d, between (q (i - 1)%Z) (q i) (clamp_face q i d).
Proof. intros. unfold between, clamp_face, Rmin, Rmax. repeat destruct Rle_dec; lra. Qed.
(** Limiting at a face inside a monotone stretch. *)
Lemma limit_face_between : forall q i d, (q (i - 2)%Z <= q (i - 1)%Z <= q i /\ q i <= q (i + 1)%Z) \/ (q (i + 1)%Z <= q i <= q (i - 1)%Z /\ q (i - 1)%Z <= q (i - 2)%Z) -> between (q (i - 1)%Z) (q i) (limit_face q i d).
Proof.
  intros q i d M. unfold limit_face. cbv zeta. destruct (ltR ((d - q (i - 1)%Z) * (q i - d)) 0) eqn:E.
  2:{ apply ltR_false in E. unfold between, Rmin, Rmax. destruct Rle_dec; split; nra. }
  set (qa := 3 * (q (i - 1)%Z + q i - 2 * d)). unfold second. replace (i - 1 - 1)%Z with (i - 2)%Z by lia. replace (i - 1 + 1)%Z with i by lia.
  set (qb := q (i - 2)%Z + q i - 2 * q (i - 1)%Z). set (qc := q (i - 1)%Z + q (i + 1)%Z - 2 * q i).
  destruct (eqR (SIGN qa) (SIGN qb) && eqR (SIGN qa) (SIGN qc)) eqn:S.
  2:{ unfold between, Rmin, Rmax. destruct Rle_dec; lra. }
  apply andb_prop in S. destruct S as [S1 S2]. apply same_sign in S1. apply same_sign in S2. unfold C2. set (t := Rmin (5 / 4 * Rabs qb) (Rmin (5 / 4 * Rabs qc) (Rabs qa))).
  assert (T0 : 0 <= t). { unfold t. pose proof (Rabs_pos qa). pose proof (Rabs_pos qb). pose proof (Rabs_pos qc). unfold Rmin; repeat destruct Rle_dec; lra. }
  assert (T1 : t <= 5 / 4 * Rabs qb) by apply Rmin_l. assert (T2 : t <= 5 / 4 * Rabs qc) by (eapply Rle_trans; [apply Rmin_r|apply Rmin_l]).
  unfold between, Rmin, Rmax. destruct (SIGN_cases qa) as [[A ->]|[A ->]].
  - assert (B0 : qb < 0) by (destruct S1; lra). assert (C0 : qc < 0) by (destruct S2; lra). rewrite Rabs_left in T1, T2 by assumption. destruct M as [M|M]; destruct Rle_dec; unfold qb, qc in *; lra.
  - assert (B0 : 0 <= qb) by (destruct S1; lra). assert (C0 : 0 <= qc) by (destruct S2; lra). rewrite Rabs_right in T1, T2 by lra. destruct M as [M|M]; destruct Rle_dec; unfold qb, qc in *; lra.
Qed.

(** The limited ratio is between 0 and 1. *)
Lemma ratio_range : forall s t d b, 0 <= s -> 0 <= t -> let qe := if (b : bool) then SIGN d * Rmin s (Rmin t (Rabs d)) else 0 in d <> 0 -> 0 <= qe / d <= 1.
Proof.
  intros s t d b S T qe D. unfold qe. destruct b; [|unfold Rdiv; lra]. set (x := Rmin s (Rmin t (Rabs d))). assert (X0 : 0 <= x). { unfold x. pose proof (Rabs_pos d). unfold Rmin; repeat destruct Rle_dec; lra. }
  assert (X1 : x <= Rabs d) by (eapply Rle_trans; [apply Rmin_r|apply Rmin_r]).
  destruct (SIGN_cases d) as [[A ->]|[A ->]].
  - rewrite Rabs_left in X1 by exact A. assert (E : - d * (-1 * x / d) = x) by (field; lra). set (y := -1 * x / d) in *. clearbody y. split; nra.
  - rewrite Rabs_right in X1 by lra. assert (E : d * (1 * x / d) = x) by (field; lra). set (y := 1 * x / d) in *. clearbody y. split; nra.
Qed.
Lemma cs_bounded : forall q i qm qp, between (q i) (q (i + 1)%Z) qp -> between (q (i - 1)%Z) (q i) qm -> bounded q i (limit_cs q i qm qp).
Proof.
  intros q i qm qp P M. unfold limit_cs. cbv zeta. set (rho := if ltR _ _ then _ / _ else 0).
  assert (RH : 0 <= rho <= 1).
  { unfold rho. destruct ltR eqn:E; [|lra]. apply ltR_true in E. set (b := _ && _ && _).
    assert (D : 6 * (qm + qp - 2 * q i) <> 0). { intro X. rewrite X, Rabs_R0 in E. unfold eps12 in E. set (ma := Rmax (Rmax _ _) _) in E. assert (0 <= ma). { unfold ma. eapply Rle_trans; [apply (Rabs_pos (q (i - 1)%Z))|]. eapply Rle_trans; [apply Rmax_l|apply Rmax_l]. } lra. }
    apply (ratio_range (Rmin (C2 * Rabs (second q (i - 1))) (C2 * Rabs (second q i))) (C2 * Rabs (second q (i + 1))) (6 * (qm + qp - 2 * q i)) b); try assumption.
    - unfold C2. pose proof (Rabs_pos (second q (i - 1))). pose proof (Rabs_pos (second q i)). unfold Rmin; destruct Rle_dec; lra.
    - unfold C2. pose proof (Rabs_pos (second q (i + 1))). lra. }
  clearbody rho. unfold bounded, between in *. set (m := q i - qm) in *. set (p := qp - q i) in *. assert (PE : qp = q i + p) by (unfold p; ring). assert (ME : qm = q i - m) by (unfold m; ring).
  assert (BP : (0 <= p <= q (i + 1)%Z - q i) \/ (q (i + 1)%Z - q i <= p <= 0)). { unfold Rmin, Rmax in P. destruct Rle_dec; [left|right]; lra. }
  assert (BM : (0 <= m <= q i - q (i - 1)%Z) \/ (q i - q (i - 1)%Z <= m <= 0)). { unfold Rmin, Rmax in M. destruct Rle_dec; [left|right]; lra. }
  destruct (leR (m * p) 0 || leR ((q (i + 1)%Z - q i) * (q i - q (i - 1)%Z)) 0) eqn:E.
  - destruct (leR rho (1 - eps12)); cbn [fst snd]; [|rewrite PE, ME; split; [rewrite <- PE; exact P|rewrite <- ME; exact M]].
    split; unfold Rmin, Rmax; [destruct BP as [BP|BP]|destruct BM as [BM|BM]]; destruct Rle_dec; nra.
  - apply orb_false_iff in E. destruct E as [E _]. apply leR_false in E. apply prod_pos in E. cbn [fst snd]. split.
    + destruct (leR_cases (2 * Rabs m) (Rabs p)) as [[-> Y]|[-> Y]]; [|exact P]. unfold Rmin, Rmax. destruct E as [[A B]|[A B]]; [rewrite !Rabs_right in Y by lra|rewrite !Rabs_left in Y by lra]; destruct Rle_dec; lra.
    + destruct (leR_cases (2 * Rabs p) (Rabs m)) as [[-> Y]|[-> Y]]; [|exact M]. unfold Rmin, Rmax. destruct E as [[A B]|[A B]]; [rewrite !Rabs_right in Y by lra|rewrite !Rabs_left in Y by lra]; destruct Rle_dec; lra.
Qed.
(** Uniform mesh. *)
Lemma ppm_uniform : forall ext q i, monotone q i -> bounded q i (PiecewiseParabolic ext true false uniform_c q i).
Proof.
  intros ext q i M. unfold PiecewiseParabolic. cbn [andb negb]. rewrite andb_true_r.
  assert (P : between (q i) (q (i + 1)%Z) (limit_face q (i + 1) (ppm_face false uniform_c q (i + 1)))).
  { pose proof (limit_face_between q (i + 1) (ppm_face false uniform_c q (i + 1))) as L. replace (i + 1 - 2)%Z with (i - 1)%Z in L by lia. replace (i + 1 - 1)%Z with i in L by lia. replace (i + 1 + 1)%Z with (i + 2)%Z in L by lia. apply L. destruct M; [left|right]; tauto. }
  assert (Q : between (q (i - 1)%Z) (q i) (limit_face q i (ppm_face false uniform_c q i))). { apply limit_face_between. destruct M; [left|right]; tauto. }
  destruct ext; [apply cs_bounded; assumption|apply mignone_bounded; try assumption; cbn [hplus hminus uniform_c]; unfold const; lra].
Qed.
(** Any other mesh, any weights. *)
Lemma ppm_clamped : forall ext unif curv c q i, unif && negb curv = false -> 0 <= hplus c i -> 0 <= hminus c i -> bounded q i (PiecewiseParabolic ext unif curv c q i).
Proof.
  intros ext unif curv c q i U H1 H2. unfold PiecewiseParabolic. rewrite U, andb_false_r. apply mignone_bounded; try assumption; [|apply clamp_between].
  pose proof (clamp_between q (i + 1) (ppm_face curv c q (i + 1))) as L. replace (i + 1 - 1)%Z with i in L by lia. exact L.
Qed.
Lemma radial_ratios : forall sph xf i, xf i <= xf (i + 1)%Z -> 0 <= xf i -> 0 < xf (i + 1)%Z -> 0 <= fst (radial_h sph xf i) /\ 0 <= snd (radial_h sph xf i).
Proof.
  intros sph xf i L N P. unfold radial_h. cbv zeta. rewrite Rabs_right by lra. set (x := 1 / 2 * (xf (i + 1)%Z + xf i)). set (d := dxf xf i). assert (X : 0 < x) by (unfold x; lra). assert (D : 0 <= d) by (unfold d, dxf; lra). assert (DX : d <= 2 * x) by (unfold d, x, dxf; lra). clearbody x d.
  unfold ratios. destruct sph; cbn [h_sph h_cyl fst snd].
  - assert (S : 0 < 20 * (x * x) + d * d) by nra. set (s := 20 * (x * x) + d * d) in *.
    assert (A : s * (2 * d * (10 * x + d) / s) = 2 * d * (10 * x + d)) by (field; lra). assert (B : s * (2 * d * (- 10 * x + d) / s) = 2 * d * (- 10 * x + d)) by (field; lra).
    set (a := 2 * d * (10 * x + d) / s) in *. set (b := 2 * d * (- 10 * x + d) / s) in *. assert (A0 : 0 <= a) by nra. assert (B0 : 0 < b + 2). { assert (0 < s * (b + 2)) by (unfold s in *; nra). nra. }
    split; (apply Rmult_le_pos; [lra|left; apply Rinv_0_lt_compat; lra]).
  - assert (A : 2 * x * (d / (2 * x)) = d) by (field; lra). set (a := d / (2 * x)) in *. assert (0 <= a <= 1) by (split; nra).
    split; (apply Rmult_le_pos; [lra|left; apply Rinv_0_lt_compat; lra]).
Qed.
