(** Proofs about FouthPolyRoot. *)
From Coq Require Import Reals Bool Lra Lia Psatz.
From Verif Require Import Time_Model Time_Proofs Qrt_Model Qrt_Spec.
Local Open Scope R_scope.

Lemma cube_le a b : 0 <= b -> a ^ 3 <= b ^ 3 -> a <= b.
Proof. intros Hb H. destruct (Rle_or_lt a b) as [|L]; auto. exfalso. assert (0 < (a - b) * (a * a + a * b + b * b)) by (apply Rmult_lt_0_compat; nra). nra. Qed.
Lemma cube_inj a b : 0 <= a -> 0 <= b -> a ^ 3 = b ^ 3 -> a = b.
Proof. intros. apply Rle_antisym; apply cube_le; auto; lra. Qed.
Lemma fourth_mono a b : 0 <= a -> a < b -> a ^ 4 < b ^ 4.
Proof. intros Ha H. assert (a * a < b * b) by nra. assert (0 <= a * a) by nra. replace (a ^ 4) with ((a * a) * (a * a)) by ring. replace (b ^ 4) with ((b * b) * (b * b)) by ring. nra. Qed.
Lemma root_pos x : 0 < x -> 0 < pow_ x (1 / 3) /\ pow_ x (1 / 3) ^ 3 = x.
Proof.
  intros H. unfold pow_. destruct (Req_EM_T x 0) as [E|_]; [lra|]. assert (P : 0 < Rpower x (1 / 3)) by apply exp_pos. split; auto.
  rewrite <- Rpower_pow by auto. rewrite Rpower_mult. replace (1 / 3 * INR 3) with 1 by (simpl; field). apply Rpower_1; auto.
Qed.
Lemma root_nonneg x : 0 <= x -> 0 <= pow_ x (1 / 3) /\ pow_ x (1 / 3) ^ 3 = x.
Proof. intros [H|<-]. - destruct (root_pos x H). split; lra. - unfold pow_. destruct (Req_EM_T 0 0) as [_|N]; [|lra]. split; lra. Qed.
Lemma pow_m23 x : 0 < x -> pow_ x (- (2 / 3)) = / (pow_ x (1 / 3) ^ 2).
Proof.
  intros H. unfold pow_. destruct (Req_EM_T x 0) as [E|_]; [lra|]. rewrite Rpower_Ropp. f_equal.
  rewrite <- Rpower_pow by apply exp_pos. rewrite Rpower_mult. f_equal. simpl. field.
Qed.

(** What the last lines return, for zroot = z0 / s^2 with s the cube root of coef4. *)
Lemma last_lines s z0 : 0 < s -> 0 < z0 -> z0 <= 1 ->
  let c := s ^ 3 in let z := z0 * / (s ^ 2) in let r := sqrt z in let d2 := - z + 2 / (c * r) in
  0 <= d2 /\ let x := (1 / 2) * (sqrt d2 - r) in 0 <= x /\ c * x ^ 4 + x + (z0 ^ 3 - 1) / (4 * s * z0) = 0.
Proof.
  intros Hs Hz H1. cbv zeta. set (z := z0 * / s ^ 2). set (r := sqrt z).
  assert (S2 : 0 < s ^ 2) by (apply pow_lt; auto). assert (S3 : 0 < s ^ 3) by (apply pow_lt; auto).
  assert (Pz : 0 < z) by (apply Rmult_lt_0_compat; auto; apply Rinv_0_lt_compat; auto).
  assert (Pr : 0 < r) by (apply sqrt_lt_R0; auto). assert (R2 : r * r = z) by (apply sqrt_sqrt; lra).
  assert (Z : z * s ^ 2 = z0) by (unfold z; field; lra).
  assert (K : s ^ 3 * (r * z) <= 1).
  { apply cube_le; [lra|]. assert (E : (s ^ 3 * (r * z)) ^ 2 = z0 ^ 3) by (rewrite <- Z; replace ((s ^ 3 * (r * z)) ^ 2) with (s ^ 6 * (r * r) * z ^ 2) by ring; rewrite R2; ring).
    assert (L : (s ^ 3 * (r * z)) ^ 2 <= 1) by (rewrite E; assert (z0 * z0 <= 1) by nra; replace (z0 ^ 3) with (z0 * z0 * z0) by ring; nra).
    assert (P : 0 < s ^ 3 * (r * z)) by (apply Rmult_lt_0_compat; auto; apply Rmult_lt_0_compat; auto). assert (s ^ 3 * (r * z) <= 1) by nra.
    set (w := s ^ 3 * (r * z)) in *. assert (w * w <= 1) by nra. replace (w ^ 3) with (w * w * w) by ring. nra. }
  set (q := / (s ^ 3 * r)). assert (Q : 0 < q) by (apply Rinv_0_lt_compat; apply Rmult_lt_0_compat; auto).
  assert (Qe : q * (s ^ 3 * r) = 1) by (unfold q; field; lra).
  assert (Qz : z <= q) by (apply Rmult_le_reg_r with (s ^ 3 * r); [apply Rmult_lt_0_compat; auto|]; rewrite Qe; lra).
  assert (D : - z + 2 / (s ^ 3 * r) = 2 * q - z) by (unfold q; field; lra). rewrite D. split; [lra|].
  set (e := sqrt (2 * q - z)). assert (E2 : e * e = 2 * q - z) by (apply sqrt_sqrt; lra).
  assert (L : r <= e) by (apply sqrt_le_1; lra). split; [lra|].
  set (x := 1 / 2 * (e - r)). assert (X : x * x = - (x * r) - z / 2 + q / 2) by (unfold x; nra).
  assert (X4 : x ^ 4 = - (x * (r * q)) - z ^ 2 / 4 + q ^ 2 / 4).
  { replace (x ^ 4) with ((x * x) * (x * x)) by ring. rewrite X. replace ((- (x * r) - z / 2 + q / 2) * (- (x * r) - z / 2 + q / 2)) with ((x * x) * (r * r) + x * r * (z - q) + (z - q) ^ 2 / 4) by field. rewrite X, R2. field. }
  assert (B : r * q * s ^ 3 = 1) by lra.
  assert (T : s ^ 3 * (z ^ 2 / 4 - q ^ 2 / 4) = (z0 ^ 3 - 1) / (4 * s * z0)).
  { apply Rmult_eq_reg_r with (4 * s * z0); [|apply Rgt_not_eq; apply Rmult_lt_0_compat; auto; lra].
    transitivity (z0 ^ 3 - 1); [|field; split; lra]. rewrite <- Z.
    replace (s ^ 3 * (z ^ 2 / 4 - q ^ 2 / 4) * (4 * s * (z * s ^ 2))) with (z ^ 3 * s ^ 6 - (q * q) * z * s ^ 6) by field.
    rewrite <- R2 at 2. replace (q * q * (r * r) * s ^ 6) with ((r * q * s ^ 3) ^ 2) by ring. rewrite B. ring. }
  rewrite <- T, X4. replace (s ^ 3 * (- (x * (r * q)) - z ^ 2 / 4 + q ^ 2 / 4) + x + s ^ 3 * (z ^ 2 / 4 - q ^ 2 / 4)) with (x * (1 - r * q * s ^ 3)) by field. rewrite B. ring.
Qed.

Section root.
Variables c t : R.
Hypothesis Hc : 0 < c.
Let D := 25 / 100 - 64 * (t * t * t) * c / 27.
Let s := pow_ c (1 / 3).
Lemma s_ok : 0 < s /\ s ^ 3 = c. Proof using Hc. apply root_pos; auto. Qed.
Lemma cubic_neg : t <= 0 -> t * t * t <= 0. Proof using. clear. intros. nra. Qed.
Lemma D_ge : t <= 0 -> 1 / 4 <= D. Proof using Hc. intros H. pose proof (cubic_neg H). unfold D. nra. Qed.
Lemma D_lt : 0 < t -> D < 1 / 4. Proof using Hc. intros H. assert (0 < t * t * t) by (apply Rmult_lt_0_compat; auto; nra). unfold D. nra. Qed.
(** Only a negative or vanishing constant has a solution, and then one. *)
Lemma none_pos : 0 < t -> FouthPolyRoot c t = None.
Proof using Hc.
  intros H. pose proof (D_lt H) as L. unfold FouthPolyRoot; cbv zeta; fold D. destruct (ltR D 0) eqn:E0; auto. apply ltR_false in E0.
  assert (S : sqrt D < 1 / 2). { replace (1 / 2) with (sqrt (1 / 4)). - apply sqrt_lt_1; lra. - replace (1 / 4) with (1 / 2 * (1 / 2)) by field. apply sqrt_square; lra. }
  apply ltR_true in S. rewrite S. reflexivity.
Qed.
Lemma d_ge : t <= 0 -> 1 / 2 <= sqrt D.
Proof using Hc. intros H. pose proof (D_ge H). replace (1 / 2) with (sqrt (1 / 4)). - apply sqrt_le_1; lra. - replace (1 / 4) with (1 / 2 * (1 / 2)) by field. apply sqrt_square; lra. Qed.
Lemma returns z0 : t <= 0 -> z0 = (if ltR BIG_NUMBER (sqrt D) then pow_ (sqrt D) (- (2 / 3)) / 3 else pow_ (1 / 2 + sqrt D) (1 / 3) - pow_ (- (1 / 2) + sqrt D) (1 / 3)) ->
  0 < z0 <= 1 -> exists x, FouthPolyRoot c t = Some x /\ 0 <= x /\ c * x ^ 4 + x + (z0 ^ 3 - 1) / (4 * s * z0) = 0.
Proof using Hc.
  intros H Z [P1 P2]. pose proof (D_ge H) as L. pose proof (d_ge H) as L2. destruct s_ok as [S1 S2]. destruct (last_lines s z0 S1 P1 P2) as [A [B C]]. rewrite S2 in *.
  eexists. split; [|split; [exact B|exact C]]. unfold FouthPolyRoot; cbv zeta; fold D. rewrite <- Z. rewrite pow_m23 by auto. fold s.
  replace (ltR D 0) with false by (symmetry; apply ltR_false; lra). replace (ltR (sqrt D) (1 / 2)) with false by (symmetry; apply ltR_false; lra). replace (ltR z0 0) with false by (symmetry; apply ltR_false; lra).
  replace (ltR (- (z0 * / s ^ 2) + 2 / (c * sqrt (z0 * / s ^ 2))) 0) with false by (symmetry; apply ltR_false; exact A).
  replace (ltR (1 / 2 * (sqrt (- (z0 * / s ^ 2) + 2 / (c * sqrt (z0 * / s ^ 2))) - sqrt (z0 * / s ^ 2))) 0) with false by (symmetry; apply ltR_false; exact B). reflexivity.
Qed.
(** The regular branch is exact. *)
Lemma exact : t <= 0 -> sqrt D <= BIG_NUMBER -> exists x, FouthPolyRoot c t = Some x /\ solution c t x.
Proof using Hc.
  intros H B. pose proof (D_ge H) as L. pose proof (d_ge H) as L2. destruct s_ok as [S1 S2].
  set (d := sqrt D) in *. assert (DD : d * d = D) by (apply sqrt_sqrt; lra).
  set (a := pow_ (1 / 2 + d) (1 / 3)). set (b := pow_ (- (1 / 2) + d) (1 / 3)).
  destruct (root_pos (1 / 2 + d) ltac:(lra)) as [A1 A2]. destruct (root_nonneg (- (1 / 2) + d) ltac:(lra)) as [B1 B2]. fold a in A1, A2. fold b in B1, B2.
  assert (AB : a * b = - (4 / 3) * t * s).
  { apply cube_inj; [nra| |]. { assert (0 <= - t) by lra. replace (- (4 / 3) * t * s) with (4 / 3 * ((- t) * s)) by ring. apply Rmult_le_pos; [lra|]. apply Rmult_le_pos; lra. }
    replace ((a * b) ^ 3) with (a ^ 3 * b ^ 3) by ring. rewrite A2, B2. replace ((- (4 / 3) * t * s) ^ 3) with (- (64 / 27) * (t * t * t) * s ^ 3) by field. rewrite S2.
    replace ((1 / 2 + d) * (- (1 / 2) + d)) with (d * d - 1 / 4) by field. rewrite DD. unfold D. field. }
  assert (LT : b < a). { destruct (Rlt_or_le b a) as [|X]; auto. exfalso. assert (a * a <= b * b) by nra. assert (a ^ 3 <= b ^ 3) by (replace (a ^ 3) with (a * a * a) by ring; replace (b ^ 3) with (b * b * b) by ring; nra). lra. }
  set (z0 := a - b). assert (Z3 : z0 ^ 3 = 1 + 4 * t * s * z0).
  { replace (z0 ^ 3) with (a ^ 3 - b ^ 3 - 3 * (a * b) * z0) by (unfold z0; ring). rewrite A2, B2, AB. field. }
  assert (Zp : 0 < z0) by (unfold z0; lra).
  assert (Z1 : z0 <= 1). { apply cube_le; [lra|]. assert (0 <= - t * s * z0) by (apply Rmult_le_pos; [apply Rmult_le_pos; lra|lra]). lra. }
  destruct (returns z0 H) as [x [F [X1 X2]]]; [|split; auto|].
  - fold d. replace (ltR BIG_NUMBER d) with false by (symmetry; apply ltR_false; auto). reflexivity.
  - exists x. split; auto. split; auto. rewrite <- X2. rewrite Z3. field. split; lra.
Qed.
(** The branch for large values solves an equation whose constant differs by a relative 1e-20 at most. *)
Lemma close : t <= 0 -> BIG_NUMBER < sqrt D -> exists x t', FouthPolyRoot c t = Some x /\ solution c t' x /\ Rabs (t' - t) <= / 10 ^ 20 * Rabs t.
Proof using Hc.
  intros H B. pose proof (D_ge H) as L. destruct s_ok as [S1 S2].
  set (d := sqrt D) in *. assert (DD : d * d = D) by (apply sqrt_sqrt; lra). unfold BIG_NUMBER in B. assert (Pd : 0 < d) by (assert (0 < 10 ^ 10) by (apply pow_lt; lra); lra).
  set (a := pow_ d (1 / 3)). destruct (root_pos d Pd) as [A1 A2]. fold a in A1, A2.
  set (z0 := / a ^ 2 / 3). assert (Zp : 0 < z0) by (unfold z0; apply Rmult_lt_0_compat; [apply Rinv_0_lt_compat; apply pow_lt; auto|lra]).
  assert (La : 1 <= a). { apply cube_le; [lra|]. rewrite A2. apply Rle_trans with (10 ^ 10); [|lra]. simpl. lra. }
  assert (Z1 : z0 <= 1). { unfold z0. assert (1 <= a ^ 2) by nra. assert (/ a ^ 2 <= 1) by (rewrite <- Rinv_1; apply Rinv_le_contravar; lra). lra. }
  destruct (returns z0 H) as [x [F [X1 X2]]]; [|split; auto|].
  - fold d. replace (ltR (10 ^ 10) d) with true by (symmetry; apply ltR_true; auto). unfold BIG_NUMBER. replace (ltR (10 ^ 10) d) with true by (symmetry; apply ltR_true; auto). rewrite pow_m23 by auto. reflexivity.
  - exists x, ((z0 ^ 3 - 1) / (4 * s * z0)). split; auto. split; [split; auto|].
    set (e := / (d * d)). assert (Pe : 0 < e) by (apply Rinv_0_lt_compat; nra).
    assert (Ee : e <= / 10 ^ 20). { unfold e. apply Rinv_le_contravar; [apply pow_lt; lra|]. replace (10 ^ 20) with (10 ^ 10 * 10 ^ 10) by ring. assert (0 < 10 ^ 10) by (apply pow_lt; lra). nra. }
    assert (E1 : e <= 1 / 10). { apply Rle_trans with (1 := Ee). apply Rle_trans with (/ 10); [|lra]. apply Rinv_le_contravar; simpl; lra. }
    set (u := - t). set (t' := (z0 ^ 3 - 1) / (4 * s * z0)). set (u' := - t').
    assert (Ue : 64 / 27 * u ^ 3 * c = d * d - 1 / 4) by (rewrite DD; unfold D, u; field).
    assert (U'e : u' = 3 / 4 * (1 - e / 27) * a ^ 2 / s).
    { unfold u', t', z0, e. rewrite <- A2. field. split; lra. }
    assert (Pu : 0 <= u) by (unfold u; lra).
    assert (C3 : u' ^ 3 * (d * d - 1 / 4) = u ^ 3 * ((1 - e / 27) ^ 3 * (d * d))).
    { rewrite <- Ue, U'e, <- S2. rewrite <- A2. field. lra. }
    assert (De : d * d * e = 1) by (unfold e; field; lra).
    assert (C4 : u' ^ 3 * (1 - e / 4) = u ^ 3 * (1 - e / 27) ^ 3).
    { replace (u' ^ 3 * (1 - e / 4)) with (u' ^ 3 * (d * d - 1 / 4) * e + u' ^ 3 * (1 - d * d * e)) by field. rewrite C3, De. replace (u ^ 3 * ((1 - e / 27) ^ 3 * (d * d)) * e) with (u ^ 3 * (1 - e / 27) ^ 3 * (d * d * e)) by ring. rewrite De. ring. }
    assert (Pu' : 0 <= u'). { rewrite U'e. apply Rmult_le_pos; [|apply Rlt_le, Rinv_0_lt_compat; auto]. apply Rmult_le_pos; [lra|]. apply pow2_ge_0. }
    assert (U3 : 0 <= u ^ 3) by (apply pow_le; auto).
    assert (Lo : u <= u').
    { apply cube_le; auto. apply Rmult_le_reg_r with (1 - e / 4); [lra|]. rewrite C4. apply Rmult_le_compat_l; auto. assert (0 <= e * e) by nra. assert (0 <= e * e * (27 / 27 - e / 27)) by (apply Rmult_le_pos; lra). replace ((1 - e / 27) ^ 3) with (1 - e / 9 + e * e * (81 / 19683 * 27 / 27 - e / 19683)) by field. nra. }
    assert (Hi : u' <= u * (1 + e)).
    { apply cube_le; [apply Rmult_le_pos; lra|]. apply Rmult_le_reg_r with (1 - e / 4); [lra|]. rewrite C4. replace ((u * (1 + e)) ^ 3 * (1 - e / 4)) with (u ^ 3 * ((1 + e) ^ 3 * (1 - e / 4))) by ring. apply Rmult_le_compat_l; auto.
      apply Rle_trans with 1. - assert (Q : 0 <= 1 - e / 27 <= 1) by lra. replace 1 with (1 ^ 3) at 2 by ring. apply pow_incr. lra. - replace ((1 + e) ^ 3 * (1 - e / 4)) with (1 + e * (11 / 4 + e * (9 / 4) + e * e * (1 / 4) - e * e * e / 4)) by field. assert (0 <= e * e) by nra. assert (0 <= e * e * (1 - e)) by (apply Rmult_le_pos; lra). nra. }
    replace (t' - t) with (- (u' - u)) by (unfold u', u; ring). rewrite Rabs_Ropp. rewrite Rabs_pos_eq by lra. replace t with (- u) by (unfold u; ring). rewrite Rabs_Ropp, (Rabs_pos_eq u) by auto.
    assert (u * e <= u * / 10 ^ 20) by (apply Rmult_le_compat_l; auto). lra.
Qed.
Lemma unique x y : solution c t x -> solution c t y -> x = y.
Proof using Hc.
  clear D s. intros [X1 X2] [Y1 Y2]. destruct (Rtotal_order x y) as [L|[E|L]]; auto; exfalso; [pose proof (fourth_mono x y X1 L)|pose proof (fourth_mono y x Y1 L)]; nra.
Qed.
End root.
