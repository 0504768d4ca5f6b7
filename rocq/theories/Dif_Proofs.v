(** Proofs for C80. *)
From Coq Require Import Reals ZArith List Bool Lra Lia Psatz.
From Verif Require Import Fv_Model Fv_Spec Pos_Model Dif_Model Dif_Spec.
Import ListNotations.
Local Open Scope R_scope.

Lemma within_iff a b x : within a b x = true <-> (a <= x <= b)%Z.
Proof. unfold within. rewrite andb_true_iff, !Z.leb_le. tauto. Qed.
Lemma tiny_pos : 0 < TINY_NUMBER.
Proof. unfold TINY_NUMBER. apply Rinv_0_lt_compat. apply pow_lt. lra. Qed.

Lemma fold_min_le {A} (f : A -> R) l : forall x0, fold_left (fun dt x => Rmin dt (f x)) l x0 <= x0.
Proof. induction l as [|a l IH]; intros; simpl; [lra|]. eapply Rle_trans; [apply IH|]. apply Rmin_l. Qed.
Lemma fold_le {A} (g : R -> A -> R) l : (forall x a, g x a <= x) -> forall x0, fold_left g l x0 <= x0.
Proof. intros H. induction l as [|a l IH]; intros; simpl; [lra|]. eapply Rle_trans; [apply IH|]. apply H. Qed.
Lemma fold_hit {A} (g : R -> A -> R) l c a : (forall x a, g x a <= x) -> (forall x, g x a <= c) -> In a l -> forall x0, fold_left g l x0 <= c.
Proof.
  intros H C. induction l as [|b l IH]; intros I x0; [contradiction|]. simpl. destruct I as [->|I]; [|apply IH; auto]. eapply Rle_trans; [apply fold_le; auto|]. apply C.
Qed.
Lemma in_upto a b x : (a <= x <= b)%Z -> In x (upto a b).
Proof. intros H. unfold upto. apply in_map_iff. exists (Z.to_nat (x - a)). split; [lia|]. apply in_seq. lia. Qed.

Lemma NewDiffusionDt_le d ng rmax l1 l2 l3 c k j i : (ks d <= k <= ke d)%Z -> (js d <= j <= je d)%Z -> (is_ d - ng <= i <= ie d + ng)%Z ->
  NewDiffusionDt d ng rmax l1 l2 l3 c <= len d l1 l2 l3 k j i * len d l1 l2 l3 k j i * fac d / (c k j i + TINY_NUMBER).
Proof.
  intros Hk Hj Hi. unfold NewDiffusionDt.
  assert (A : forall k j x i, Rmin x (len d l1 l2 l3 k j i * len d l1 l2 l3 k j i * fac d / (c k j i + TINY_NUMBER)) <= x) by (intros; apply Rmin_l).
  apply fold_hit with k; [| |apply in_upto; auto].
  - intros. apply fold_le. intros. apply fold_le. intros. apply A.
  - intros. apply fold_hit with j; [| |apply in_upto; auto].
    + intros. apply fold_le. intros. apply A.
    + intros. apply fold_hit with i; [| |apply in_upto; auto]; intros; [apply A|apply Rmin_r].
Qed.

(** A weighted mean. *)
Lemma mean_bounds lo hi q q1 q2 q3 q4 q5 q6 c1 c2 c3 c4 c5 c6 :
  lo <= q <= hi -> lo <= q1 <= hi -> lo <= q2 <= hi -> lo <= q3 <= hi -> lo <= q4 <= hi -> lo <= q5 <= hi -> lo <= q6 <= hi ->
  0 <= c1 -> 0 <= c2 -> 0 <= c3 -> 0 <= c4 -> 0 <= c5 -> 0 <= c6 -> c1 + c2 + c3 + c4 + c5 + c6 <= 1 ->
  lo <= q + c1 * (q1 - q) + c2 * (q2 - q) + c3 * (q3 - q) + c4 * (q4 - q) + c5 * (q5 - q) + c6 * (q6 - q) <= hi.
Proof.
  intros B B1 B2 B3 B4 B5 B6 P1 P2 P3 P4 P5 P6 S.
  assert (L : forall c x, 0 <= c -> lo <= x <= hi -> c * (lo - q) <= c * (x - q) <= c * (hi - q)) by (intros c x Hc [Hx Hy]; split; apply Rmult_le_compat_l; lra).
  pose proof (L _ _ P1 B1). pose proof (L _ _ P2 B2). pose proof (L _ _ P3 B3). pose proof (L _ _ P4 B4). pose proof (L _ _ P5 B5). pose proof (L _ _ P6 B6).
  set (s := c1 + c2 + c3 + c4 + c5 + c6) in *. assert (Ps : 0 <= s) by (unfold s; lra).
  assert (E1 : c1 * (lo - q) + c2 * (lo - q) + c3 * (lo - q) + c4 * (lo - q) + c5 * (lo - q) + c6 * (lo - q) = s * (lo - q)) by (unfold s; ring).
  assert (E2 : c1 * (hi - q) + c2 * (hi - q) + c3 * (hi - q) + c4 * (hi - q) + c5 * (hi - q) + c6 * (hi - q) = s * (hi - q)) by (unfold s; ring).
  assert (lo - q <= s * (lo - q)) by (clear - B S Ps; clearbody s; nra). assert (s * (hi - q) <= hi - q) by (clear - B S Ps; clearbody s; nra). lra.
Qed.

(** Both kinds of fluxes are of one form. *)
Definition spread (d : dims) (dx dy dz : R) (c w q : arr) : vec :=
  mkV (fun k j i => if within (ks d) (ke d) k && within (js d) (je d) j && within (is_ d) (ie d + 1) i then - (/ 2 * (c k j i + c k j (i - 1)%Z) * (/ 2 * (w k j i + w k j (i - 1)%Z)) * ((q k j i - q k j (i - 1)%Z) / dx)) else 0)
      (fun k j i => if f2 d && within (ks d) (ke d) k && within (js d) (je d + 1) j && within (is_ d) (ie d) i then - (/ 2 * (c k j i + c k (j - 1)%Z i) * (/ 2 * (w k j i + w k (j - 1)%Z i)) * ((q k j i - q k (j - 1)%Z i) / dy)) else 0)
      (fun k j i => if f3 d && within (ks d) (ke d + 1) k && within (js d) (je d) j && within (is_ d) (ie d) i then - (/ 2 * (c k j i + c (k - 1)%Z j i) * (/ 2 * (w k j i + w (k - 1)%Z j i)) * ((q k j i - q (k - 1)%Z j i) / dz)) else 0).

Section Cell.
Variables (d : dims) (dx dy dz a dt lo hi m M : R) (c w q : arr).
Hypotheses (Hdx : 0 < dx) (Hdy : 0 < dy) (Hdz : 0 < dz) (Ha : 0 < a <= 1) (Hdt : 0 <= dt) (Hm : 0 < m).
Hypotheses (Hw : bounded_by m M w) (Hq : bounded_by lo hi q).
Hypothesis Hc : forall k j i, 0 <= c k j i.
Let L := len d (uniform dx) (uniform dy) (uniform dz) 0 0 0.
Hypothesis Hstep : forall k j i, dt * c k j i <= L * L * fac d * (2 * m / (m + M)).

Lemma L_pos : 0 < L.
Proof. unfold L, len, uniform. destruct (f2 d), (f3 d); unfold Rmin; repeat destruct Rle_dec; lra. Qed.
Lemma L_dx : L <= dx.
Proof. unfold L, len, uniform. destruct (f2 d), (f3 d); unfold Rmin; repeat destruct Rle_dec; lra. Qed.
Lemma L_dy : f2 d = true -> L <= dy.
Proof. unfold L, len, uniform. intros ->. destruct (f3 d); unfold Rmin; repeat destruct Rle_dec; lra. Qed.
Lemma L_dz : f3 d = true -> L <= dz.
Proof. unfold L, len, uniform. intros ->. destruct (f2 d); unfold Rmin; repeat destruct Rle_dec; lra. Qed.

(** The coefficient of one neighbour. *)
Definition co (h w0 w1 c0 c1 : R) : R := a * dt * (/ 2 * (c0 + c1)) * (/ 2 * (w0 + w1)) / (w0 * (h * h)).
Lemma co_bound h w0 w1 c0 c1 : L <= h -> m <= w0 <= M -> m <= w1 <= M -> 0 <= c0 -> 0 <= c1 -> dt * c0 <= L * L * fac d * (2 * m / (m + M)) -> dt * c1 <= L * L * fac d * (2 * m / (m + M)) ->
  0 <= co h w0 w1 c0 c1 <= fac d.
Proof.
  intros Hh Hw0 Hw1 P0 P1 S0 S1. pose proof L_pos as PL. unfold co.
  assert (F : 0 < fac d) by (unfold fac; destruct (f3 d), (f2 d); lra).
  assert (N : 0 <= a * dt * (/ 2 * (c0 + c1)) * (/ 2 * (w0 + w1))) by (repeat apply Rmult_le_pos; lra).
  assert (D : 0 < w0 * (h * h)) by (repeat apply Rmult_lt_0_compat; lra).
  split; [apply Rmult_le_pos; [auto|apply Rlt_le, Rinv_0_lt_compat; auto]|].
  apply Rmult_le_reg_r with (w0 * (h * h)); auto. unfold Rdiv at 1. rewrite Rmult_assoc, Rinv_l by lra. rewrite Rmult_1_r.
  set (X := L * L * fac d) in *. assert (PX : 0 < X) by (unfold X; repeat apply Rmult_lt_0_compat; auto).
  assert (mean : dt * (/ 2 * (c0 + c1)) <= X * (2 * m / (m + M))) by (replace (dt * (/ 2 * (c0 + c1))) with (/ 2 * (dt * c0) + / 2 * (dt * c1)) by ring; lra).
  assert (mean0 : 0 <= dt * (/ 2 * (c0 + c1))) by (apply Rmult_le_pos; lra).
  assert (E : a * dt * (/ 2 * (c0 + c1)) * (/ 2 * (w0 + w1)) <= X * (2 * m / (m + M)) * (/ 2 * (w0 + w1))).
  { apply Rmult_le_compat_r; [lra|]. replace (a * dt * (/ 2 * (c0 + c1))) with (a * (dt * (/ 2 * (c0 + c1)))) by ring. clear - Ha mean mean0. nra. }
  assert (G : X * (2 * m / (m + M)) * (/ 2 * (w0 + w1)) <= X * w0).
  { replace (X * (2 * m / (m + M)) * (/ 2 * (w0 + w1))) with (X * (m * (w0 + w1) / (m + M))) by (field; lra). apply Rmult_le_compat_l; [lra|].
    apply Rmult_le_reg_r with (m + M); [lra|]. unfold Rdiv. rewrite Rmult_assoc, Rinv_l by lra. clear - Hm Hw0 Hw1. nra. }
  assert (K : X * w0 <= fac d * (w0 * (h * h))).
  { unfold X. replace (fac d * (w0 * (h * h))) with ((h * h) * (fac d * w0)) by ring. replace (L * L * fac d * w0) with ((L * L) * (fac d * w0)) by ring. apply Rmult_le_compat_r; [apply Rmult_le_pos; lra|]. clear - Hh PL. clearbody L. nra. }
  lra.
Qed.

Lemma spread_bounds k j i : nonempty d -> is_active d k j i ->
  lo <= AddFluxDivergence d (cart dx dy dz) (spread d dx dy dz c w q) dt (fun k j i => q k j i * w k j i / a) k j i * a / w k j i <= hi.
Proof.
  intros NE [Hk [Hj Hi]]. destruct NE as [_ N2]. unfold AddFluxDivergence.
  assert (AC : active d k j i = true) by (unfold active; rewrite !andb_true_iff, !within_iff; auto). rewrite AC.
  assert (W1 : within (ks d) (ke d) k = true) by (apply within_iff; auto). assert (W2 : within (js d) (je d) j = true) by (apply within_iff; auto). assert (W3 : within (is_ d) (ie d) i = true) by (apply within_iff; auto).
  assert (W4 : within (is_ d) (ie d + 1) i = true) by (apply within_iff; lia). assert (W5 : within (is_ d) (ie d + 1) (i + 1) = true) by (apply within_iff; lia).
  assert (W6 : within (js d) (je d + 1) j = true) by (apply within_iff; lia). assert (W7 : within (js d) (je d + 1) (j + 1) = true) by (apply within_iff; lia).
  assert (W8 : within (ks d) (ke d + 1) k = true) by (apply within_iff; lia). assert (W9 : within (ks d) (ke d + 1) (k + 1) = true) by (apply within_iff; lia).
  pose proof (Hw k j i) as Bw. pose proof (Hq k j i) as Bq.
  pose proof L_dx as Ldx.
  pose proof (co_bound dx (w k j i) (w k j (i - 1)%Z) (c k j i) (c k j (i - 1)%Z) Ldx (Hw _ _ _) (Hw _ _ _) (Hc _ _ _) (Hc _ _ _) (Hstep _ _ _) (Hstep _ _ _)) as C1.
  pose proof (co_bound dx (w k j i) (w k j (i + 1)%Z) (c k j i) (c k j (i + 1)%Z) Ldx (Hw _ _ _) (Hw _ _ _) (Hc _ _ _) (Hc _ _ _) (Hstep _ _ _) (Hstep _ _ _)) as C2.
  unfold dflx, spread, cart; cbn [A1 A2 A3 V x1 x2 x3]. rewrite W1, W2, W3, W4, W5, W6, W7, W8, W9. cbn [andb]. fold (f2 d) (f3 d).
  replace (i + 1 - 1)%Z with i by lia. replace (j + 1 - 1)%Z with j by lia. replace (k + 1 - 1)%Z with k by lia.
  destruct (f3 d) eqn:E3.
  - assert (E2 : f2 d = true). { unfold f2, f3 in *. apply Z.ltb_lt in E3. apply Z.ltb_lt. assert (nx2 d <> 1)%Z by (intros E; apply N2 in E; lia). unfold nx2 in *. lia. } rewrite E2. cbn [andb].
    pose proof (L_dy E2) as Ldy. pose proof (L_dz E3) as Ldz.
    pose proof (co_bound dy (w k j i) (w k (j - 1)%Z i) (c k j i) (c k (j - 1)%Z i) Ldy (Hw _ _ _) (Hw _ _ _) (Hc _ _ _) (Hc _ _ _) (Hstep _ _ _) (Hstep _ _ _)) as C3.
    pose proof (co_bound dy (w k j i) (w k (j + 1)%Z i) (c k j i) (c k (j + 1)%Z i) Ldy (Hw _ _ _) (Hw _ _ _) (Hc _ _ _) (Hc _ _ _) (Hstep _ _ _) (Hstep _ _ _)) as C4.
    pose proof (co_bound dz (w k j i) (w (k - 1)%Z j i) (c k j i) (c (k - 1)%Z j i) Ldz (Hw _ _ _) (Hw _ _ _) (Hc _ _ _) (Hc _ _ _) (Hstep _ _ _) (Hstep _ _ _)) as C5.
    pose proof (co_bound dz (w k j i) (w (k + 1)%Z j i) (c k j i) (c (k + 1)%Z j i) Ldz (Hw _ _ _) (Hw _ _ _) (Hc _ _ _) (Hc _ _ _) (Hstep _ _ _) (Hstep _ _ _)) as C6.
    assert (F : fac d = 1 / 6) by (unfold fac; rewrite E3; auto). rewrite F in *.
    match goal with |- lo <= ?x <= hi => replace x with (q k j i + co dx (w k j i) (w k j (i - 1)%Z) (c k j i) (c k j (i - 1)%Z) * (q k j (i - 1)%Z - q k j i) + co dx (w k j i) (w k j (i + 1)%Z) (c k j i) (c k j (i + 1)%Z) * (q k j (i + 1)%Z - q k j i)
       + co dy (w k j i) (w k (j - 1)%Z i) (c k j i) (c k (j - 1)%Z i) * (q k (j - 1)%Z i - q k j i) + co dy (w k j i) (w k (j + 1)%Z i) (c k j i) (c k (j + 1)%Z i) * (q k (j + 1)%Z i - q k j i)
       + co dz (w k j i) (w (k - 1)%Z j i) (c k j i) (c (k - 1)%Z j i) * (q (k - 1)%Z j i - q k j i) + co dz (w k j i) (w (k + 1)%Z j i) (c k j i) (c (k + 1)%Z j i) * (q (k + 1)%Z j i - q k j i)) by (unfold co; field; repeat split; lra) end.
    apply mean_bounds; try apply Hq; lra.
  - cbn [andb]. destruct (f2 d) eqn:E2; cbn [andb].
    + pose proof (L_dy E2) as Ldy.
      pose proof (co_bound dy (w k j i) (w k (j - 1)%Z i) (c k j i) (c k (j - 1)%Z i) Ldy (Hw _ _ _) (Hw _ _ _) (Hc _ _ _) (Hc _ _ _) (Hstep _ _ _) (Hstep _ _ _)) as C3.
      pose proof (co_bound dy (w k j i) (w k (j + 1)%Z i) (c k j i) (c k (j + 1)%Z i) Ldy (Hw _ _ _) (Hw _ _ _) (Hc _ _ _) (Hc _ _ _) (Hstep _ _ _) (Hstep _ _ _)) as C4.
      assert (F : fac d = / 4) by (unfold fac; rewrite E3, E2; auto). rewrite F in *.
      match goal with |- lo <= ?x <= hi => replace x with (q k j i + co dx (w k j i) (w k j (i - 1)%Z) (c k j i) (c k j (i - 1)%Z) * (q k j (i - 1)%Z - q k j i) + co dx (w k j i) (w k j (i + 1)%Z) (c k j i) (c k j (i + 1)%Z) * (q k j (i + 1)%Z - q k j i)
       + co dy (w k j i) (w k (j - 1)%Z i) (c k j i) (c k (j - 1)%Z i) * (q k (j - 1)%Z i - q k j i) + co dy (w k j i) (w k (j + 1)%Z i) (c k j i) (c k (j + 1)%Z i) * (q k (j + 1)%Z i - q k j i)
       + 0 * (q k j i - q k j i) + 0 * (q k j i - q k j i)) by (unfold co; field; repeat split; lra) end.
      apply mean_bounds; try apply Hq; lra.
    + assert (F : fac d = / 2) by (unfold fac; rewrite E3, E2; auto). rewrite F in *.
      match goal with |- lo <= ?x <= hi => replace x with (q k j i + co dx (w k j i) (w k j (i - 1)%Z) (c k j i) (c k j (i - 1)%Z) * (q k j (i - 1)%Z - q k j i) + co dx (w k j i) (w k j (i + 1)%Z) (c k j i) (c k j (i + 1)%Z) * (q k j (i + 1)%Z - q k j i)
       + 0 * (q k j i - q k j i) + 0 * (q k j i - q k j i) + 0 * (q k j i - q k j i) + 0 * (q k j i - q k j i)) by (unfold co; field; repeat split; lra) end.
      apply mean_bounds; try apply Hq; lra.
Qed.
End Cell.
