(** Parabolic method: linear and cubic data, mirror images; WENO. *)
From Coq Require Import Reals ZArith Bool Lia Lra Psatz.
From Verif Require Import Time_Model Time_Proofs Rec_Model Rec_Spec Rec_Proofs Rec_Proofs2.
Local Open Scope R_scope.

(** When both interpolated values are midway by the same amount, no limiter acts. *)
Lemma limit_face_id : forall q i d, 0 <= (d - q (i - 1)%Z) * (q i - d) -> limit_face q i d = d.
Proof. intros q i d H. unfold limit_face. cbv zeta. apply ltR_false in H. rewrite H. reflexivity. Qed.
Lemma clamp_id : forall q i d, 0 <= (d - q (i - 1)%Z) * (q i - d) -> clamp_face q i d = d.
Proof. intros q i d H. unfold clamp_face, Rmin, Rmax. repeat destruct Rle_dec; nra. Qed.
Lemma mignone_id : forall c q i s, hplus c i = 2 -> hminus c i = 2 -> limit_mignone c q i (q i - s) (q i + s) = (q i + s, q i - s).
Proof.
  intros c q i s H1 H2. unfold limit_mignone. cbv zeta. rewrite H1, H2. replace (q i - (q i - s)) with s by ring. replace (q i + s - q i) with s by ring.
  destruct (leR_cases (s * s) 0) as [[-> X]|[-> X]]; [assert (s = 0) by nra; subst; f_equal; ring|]. assert (S : leR (2 * Rabs s) (Rabs s) = false). { apply leR_false. pose proof (Rabs_pos s). assert (Rabs s <> 0) by (apply Rabs_no_R0; nra). lra. } rewrite S. reflexivity.
Qed.
Lemma cs_id : forall q i s, (s = 0 \/ 0 < (q (i + 1)%Z - q i) * (q i - q (i - 1)%Z)) -> limit_cs q i (q i - s) (q i + s) = (q i + s, q i - s).
Proof.
  intros q i s H. unfold limit_cs. cbv zeta. set (rho := if ltR _ _ then _ else 0). replace (q i - (q i - s)) with s by ring. replace (q i + s - q i) with s by ring. clearbody rho.
  destruct (leR_cases (s * s) 0) as [[-> X]|[-> X]].
  - assert (s = 0) by nra. subst s. cbn [orb]. destruct (leR rho (1 - eps12)); apply f_equal2; ring.
  - destruct H as [H|H]; [subst; lra|]. apply leR_false in H. rewrite H. cbn [orb]. assert (S : leR (2 * Rabs s) (Rabs s) = false). { apply leR_false. pose proof (Rabs_pos s). assert (Rabs s <> 0) by (apply Rabs_no_R0; nra). lra. } rewrite S. reflexivity.
Qed.
Lemma face_uniform : forall q i, ppm_face false uniform_c q i = (7 * (q (i - 1)%Z + q i) - (q (i - 2)%Z + q (i + 1)%Z)) / 12.
Proof. intros. unfold ppm_face, slope_dd, uniform_c, const; cbn [c1 c2 c3 c4 c5 c6]. replace (i - 1 + 1)%Z with i by lia. replace (i - 1 - 1)%Z with (i - 2)%Z by lia. field. Qed.
Lemma ppm_linear_uniform : forall ext xf xv q i a b, even xf xv -> (forall m, (i - 2 <= m <= i + 2)%Z -> q m = a + b * xv m) -> PiecewiseParabolic ext true false uniform_c q i = (a + b * xf (i + 1)%Z, a + b * xf i).
Proof.
  intros ext xf xv q i a b [h [H E]] Q.
  assert (V1 : xv (i + 1)%Z = xf i + 3 * h / 2) by (destruct (E i), (E (i + 1)%Z); lra). assert (V0 : xv i = xf i + h / 2) by (destruct (E i); lra).
  assert (V2 : xv (i + 2)%Z = xf i + 5 * h / 2) by (destruct (E i), (E (i + 1)%Z) as [X _], (E (i + 2)%Z); replace (i + 1 + 1)%Z with (i + 2)%Z in X by lia; lra).
  assert (W1 : xv (i - 1)%Z = xf i - h / 2) by (destruct (E (i - 1)%Z) as [X Y]; replace (i - 1 + 1)%Z with i in X by lia; lra).
  assert (W2 : xv (i - 2)%Z = xf i - 3 * h / 2) by (destruct (E (i - 1)%Z) as [X _], (E (i - 2)%Z) as [X2 Y]; replace (i - 1 + 1)%Z with i in X by lia; replace (i - 2 + 1)%Z with (i - 1)%Z in X2 by lia; lra).
  assert (F1 : xf (i + 1)%Z = xf i + h) by (destruct (E i); lra).
  assert (Q0 := Q i ltac:(lia)). assert (Q1 := Q (i + 1)%Z ltac:(lia)). assert (Q2 := Q (i + 2)%Z ltac:(lia)). assert (Q3 := Q (i - 1)%Z ltac:(lia)). assert (Q4 := Q (i - 2)%Z ltac:(lia)).
  rewrite V0 in Q0. rewrite V1 in Q1. rewrite V2 in Q2. rewrite W1 in Q3. rewrite W2 in Q4.
  unfold PiecewiseParabolic. cbn [andb negb]. rewrite andb_true_r. rewrite !face_uniform. replace (i + 1 - 1)%Z with i by lia. replace (i + 1 - 2)%Z with (i - 1)%Z by lia. replace (i + 1 + 1)%Z with (i + 2)%Z by lia.
  set (s := b * h / 2). assert (D0 : (7 * (q (i - 1)%Z + q i) - (q (i - 2)%Z + q (i + 1)%Z)) / 12 = q i - s) by (rewrite Q0, Q1, Q3, Q4; unfold s; field).
  assert (D1 : (7 * (q i + q (i + 1)%Z) - (q (i - 1)%Z + q (i + 2)%Z)) / 12 = q i + s) by (rewrite Q0, Q1, Q2, Q3; unfold s; field). rewrite D0, D1.
  assert (SS : 0 <= s * s) by nra.
  rewrite (limit_face_id q i) by (replace (q i - (q i - s)) with s by ring; replace (q i - s - q (i - 1)%Z) with s by (rewrite Q0, Q3; unfold s; field); exact SS).
  rewrite (limit_face_id q (i + 1)) by (replace (i + 1 - 1)%Z with i by lia; replace (q i + s - q i) with s by ring; replace (q (i + 1)%Z - (q i + s)) with s by (rewrite Q0, Q1; unfold s; field); exact SS).
  assert (R : (q i + s, q i - s) = (a + b * xf (i + 1)%Z, a + b * xf i)) by (rewrite F1, Q0; unfold s; f_equal; field). rewrite <- R.
  destruct ext; [apply cs_id|apply mignone_id; reflexivity].
  destruct (Req_dec b 0) as [Z|Z]; [left; unfold s; rewrite Z; unfold Rdiv; ring|right]. rewrite Q0, Q1, Q3. replace ((a + b * (xf i + 3 * h / 2) - (a + b * (xf i + h / 2))) * (a + b * (xf i + h / 2) - (a + b * (xf i - h / 2)))) with (b * b * (h * h)) by field.
  apply Rmult_lt_0_compat; nra.
Qed.
(** Stretched Cartesian mesh. *)
Lemma face_stretched : forall xf q i a b, (forall m, xf m < xf (m + 1)%Z) -> (forall m, (i - 2 <= m <= i + 1)%Z -> q m = a + b * ((xf m + xf (m + 1)%Z) / 2)) ->
  ppm_face false (stretched_c (dxf xf)) q i = a + b * xf i.
Proof.
  intros xf q i a b X Q. unfold ppm_face, slope_dd, stretched_c; cbn [c1 c2 c3 c4 c5 c6]. unfold dxf. assert (Q0 := Q i ltac:(lia)). assert (Q1 := Q (i + 1)%Z ltac:(lia)). assert (Q3 := Q (i - 1)%Z ltac:(lia)). assert (Q4 := Q (i - 2)%Z ltac:(lia)).
  replace (i - 1 + 1)%Z with i in * by lia. replace (i - 2 + 1)%Z with (i - 1)%Z in * by lia. replace (i - 1 - 1)%Z with (i - 2)%Z by lia. replace (i - 1 - 2)%Z with (i - 3)%Z by lia. replace (i + 1 + 1)%Z with (i + 2)%Z in * by lia. replace (i - 2 + 1)%Z with (i - 1)%Z by lia. rewrite Q0, Q1, Q3, Q4.
  pose proof (X i) as P0. pose proof (X (i + 1)%Z) as P1. pose proof (X (i - 1)%Z) as P3. pose proof (X (i - 2)%Z) as P4. replace (i - 1 + 1)%Z with i in P3 by lia. replace (i - 2 + 1)%Z with (i - 1)%Z in P4 by lia. replace (i + 1 + 1)%Z with (i + 2)%Z in P1 by lia.
  set (x := xf i) in *. set (x1 := xf (i + 1)%Z) in *. set (x2 := xf (i + 2)%Z) in *. set (y1 := xf (i - 1)%Z) in *. set (y2 := xf (i - 2)%Z) in *. clearbody x x1 x2 y1 y2. field. repeat split; lra.
Qed.
Lemma ppm_linear_stretched : forall ext xf q i a b, (forall m, xf m < xf (m + 1)%Z) -> (forall m, (i - 2 <= m <= i + 2)%Z -> q m = a + b * ((xf m + xf (m + 1)%Z) / 2)) ->
  PiecewiseParabolic ext false false (stretched_c (dxf xf)) q i = (a + b * xf (i + 1)%Z, a + b * xf i).
Proof.
  intros ext xf q i a b X Q. unfold PiecewiseParabolic. cbn [andb negb]. rewrite andb_false_r. rewrite (face_stretched xf q i a b X) by (intros; apply Q; lia). rewrite (face_stretched xf q (i + 1) a b X) by (intros; apply Q; lia).
  assert (Q0 := Q i ltac:(lia)). assert (Q1 := Q (i + 1)%Z ltac:(lia)). assert (Q3 := Q (i - 1)%Z ltac:(lia)). replace (i - 1 + 1)%Z with i in Q3 by lia. replace (i + 1 + 1)%Z with (i + 2)%Z in Q1 by lia.
  pose proof (X i) as P0. pose proof (X (i + 1)%Z) as P1. pose proof (X (i - 1)%Z) as P3. replace (i - 1 + 1)%Z with i in P3 by lia. replace (i + 1 + 1)%Z with (i + 2)%Z in P1 by lia.
  assert (BB : 0 <= b * b) by nra.
  rewrite clamp_id. 2:{ rewrite Q0, Q3. replace ((a + b * xf i - (a + b * ((xf (i - 1)%Z + xf i) / 2))) * (a + b * ((xf i + xf (i + 1)%Z) / 2) - (a + b * xf i))) with (b * b * ((xf i - xf (i - 1)%Z) / 2 * ((xf (i + 1)%Z - xf i) / 2))) by field. apply Rmult_le_pos; [exact BB|apply Rmult_le_pos; lra]. }
  rewrite clamp_id. 2:{ replace (i + 1 - 1)%Z with i by lia. rewrite Q0, Q1. replace ((a + b * xf (i + 1)%Z - (a + b * ((xf i + xf (i + 1)%Z) / 2))) * (a + b * ((xf (i + 1)%Z + xf (i + 2)%Z) / 2) - (a + b * xf (i + 1)%Z))) with (b * b * ((xf (i + 1)%Z - xf i) / 2 * ((xf (i + 2)%Z - xf (i + 1)%Z) / 2))) by field. apply Rmult_le_pos; [exact BB|apply Rmult_le_pos; lra]. }
  set (s := b * ((xf (i + 1)%Z - xf i) / 2)). replace (a + b * xf i) with (q i - s) by (rewrite Q0; unfold s; field). replace (a + b * xf (i + 1)%Z) with (q i + s) by (rewrite Q0; unfold s; field). apply mignone_id; reflexivity.
Qed.

(** Interpolation at the face is exact for cubics. *)
Lemma face_cubic_uniform : forall xf i h a0 a1 a2 a3, 0 < h -> (forall m, xf (m + 1)%Z = xf m + h) -> ppm_face false uniform_c (cubic_means 0 xf a0 a1 a2 a3) i = cubic a0 a1 a2 a3 (xf i).
Proof.
  intros xf i h a0 a1 a2 a3 H E. rewrite face_uniform. unfold cubic_means. replace (i - 1 + 1)%Z with i by lia. replace (i - 2 + 1)%Z with (i - 1)%Z by lia.
  pose proof (E (i - 1)%Z) as E1. replace (i - 1 + 1)%Z with i in E1 by lia. pose proof (E (i - 2)%Z) as E2. replace (i - 2 + 1)%Z with (i - 1)%Z in E2 by lia. rewrite (E (i + 1)%Z), (E i).
  assert (Y1 : xf (i - 1)%Z = xf i - h) by lra. assert (Y2 : xf (i - 2)%Z = xf i - h - h) by lra. rewrite Y1, Y2. unfold mean, cubic. cbn [Nat.add INR pow]. field. lra.
Qed.
Lemma radial_sum : forall n h (W : R -> R * R * R * R) m, 0 < h ->
  (forall p, (p <= 3)%nat -> let '(w1, w2, w3, w4) := W n in
     w1 * mean m p ((n - 2) * h) ((n - 1) * h) + w2 * mean m p ((n - 1) * h) (n * h) + w3 * mean m p (n * h) ((n + 1) * h) + w4 * mean m p ((n + 1) * h) ((n + 2) * h) = (n * h) ^ p) ->
  forall a0 a1 a2 a3 (q : Z -> R) (i : Z), let '(w1, w2, w3, w4) := W n in
  (forall k, (- 2 <= k <= 1)%Z -> q (i + k)%Z = a0 * mean m 0 ((n + IZR k) * h) ((n + IZR k + 1) * h) + a1 * mean m 1 ((n + IZR k) * h) ((n + IZR k + 1) * h) + a2 * mean m 2 ((n + IZR k) * h) ((n + IZR k + 1) * h) + a3 * mean m 3 ((n + IZR k) * h) ((n + IZR k + 1) * h)) ->
  w1 * q (i - 2)%Z + w2 * q (i - 1)%Z + w3 * q i + w4 * q (i + 1)%Z = cubic a0 a1 a2 a3 (n * h).
Proof.
  intros n h W m H P a0 a1 a2 a3 q i. destruct (W n) as [[[w1 w2] w3] w4]. intro Q.
  pose proof (Q (-2)%Z ltac:(lia)) as Q4. pose proof (Q (-1)%Z ltac:(lia)) as Q3. pose proof (Q 0%Z ltac:(lia)) as Q0. pose proof (Q 1%Z ltac:(lia)) as Q1.
  replace (i + -2)%Z with (i - 2)%Z in Q4 by lia. replace (i + -1)%Z with (i - 1)%Z in Q3 by lia. replace (i + 0)%Z with i in Q0 by lia. rewrite Q4, Q3, Q0, Q1.
  replace (n + -2) with (n - 2) by ring. replace (n + -1) with (n - 1) by ring. replace (n + 0) with n by ring. replace (n - 2 + 1) with (n - 1) by ring. replace (n - 1 + 1) with n by ring. replace (n + 1 + 1) with (n + 2) by ring.
  pose proof (P 0%nat ltac:(lia)) as P0. pose proof (P 1%nat ltac:(lia)) as P1. pose proof (P 2%nat ltac:(lia)) as P2. pose proof (P 3%nat ltac:(lia)) as P3. unfold cubic. rewrite <- P2, <- P3. replace (n * h) with ((n * h) ^ 1) at 9 by ring. rewrite <- P1. replace a0 with (a0 * (n * h) ^ 0) at 5 by (cbn; ring). rewrite <- P0. ring.
Qed.
