(** Proofs for C81. *)
From Coq Require Import Reals ZArith Bool Lra Lia Psatz.
From Verif Require Import Fv_Model Pos_Model Tor_Spec Tor_Proofs Vis_Model Vis_Spec.
Local Open Scope R_scope.

(** *** Linear velocities *)
Section Linear.
Variables (dx dy dz : R) (b : nat -> R) (G : nat -> nat -> R) (rho nu : arr) (nb f2 f3 : bool).
Hypotheses (Hx : 0 < dx) (Hy : 0 < dy) (Hz : 0 < dz) (H32 : f3 = true -> f2 = true).
Hypothesis G2 : f2 = false -> forall c, G c 2%nat = 0.
Hypothesis G3 : f3 = false -> forall c, G c 3%nat = 0.
Let u := linear dx dy dz b G.
Let p := mkF rho (u 1%nat) (u 2%nat) (u 3%nat).
Let m := flat_metric dx dy dz.
Let g := cart dx dy dz.

Lemma div_linear k j i : DivVelocity f2 f3 g p k j i = G 1%nat 1%nat + G 2%nat 2%nat + G 3%nat 3%nat.
Proof.
  unfold DivVelocity, p, u, linear, g, cart; cbn [v1 v2 v3 A1 A2 A3 V]. rewrite !plus_IZR, !minus_IZR.
  destruct f3 eqn:E3; [rewrite (H32 eq_refl); field; lra|]. rewrite (G3 eq_refl 3%nat). destruct f2; [field; lra|]. rewrite (G2 eq_refl 2%nat). field. lra.
Qed.
Ltac crunch := cbn [FaceXdx FaceXdy FaceXdz FaceYdx FaceYdy FaceYdz FaceZdx FaceZdy FaceZdz s1 s2 s3 v1 v2 v3 den dx1v dx2v dx3v h2v h2f h31v h31f h32v h32f dh2vd1 dh31vd1 dh32vd2 IsPole];
  unfold FaceXdx, FaceXdy, FaceXdz, FaceYdx, FaceYdy, FaceYdz, FaceZdx, FaceZdy, FaceZdz, p, u, linear, m, flat_metric, newtonian, nuiso2; cbn [Nat.eqb v1 v2 v3 den dx1v dx2v dx3v h2v h2f h31v h31f h32v h32f dh2vd1 dh31vd1 dh32vd2 IsPole]; rewrite ?plus_IZR, ?minus_IZR.

Lemma x1_linear k j i : let F := x1visc nb f2 f3 m g nu p p k j i in let mu := / 2 * (rho k j i + rho k j (i - 1)%Z) * (/ 2 * (nu k j i + nu k j (i - 1)%Z)) in
  s1 F = newtonian mu G 1 1 /\ s2 F = newtonian mu G 1 2 /\ s3 F = newtonian mu G 1 3.
Proof.
  cbv zeta. unfold x1visc. cbv zeta. rewrite !div_linear. crunch. destruct f3 eqn:E3.
  - rewrite (H32 eq_refl). repeat split; field; lra.
  - pose proof (G3 eq_refl 1%nat) as Z1. pose proof (G3 eq_refl 2%nat) as Z2. pose proof (G3 eq_refl 3%nat) as Z3. rewrite Z1, Z2, Z3. destruct f2 eqn:E2; [repeat split; field; lra|].
    rewrite (G2 eq_refl 1%nat), (G2 eq_refl 2%nat), (G2 eq_refl 3%nat). repeat split; field; lra.
Qed.
Lemma x2_linear k j i : f2 = true -> let F := x2visc nb f2 f3 m g nu p p k j i in let mu := / 2 * (rho k j i + rho k (j - 1)%Z i) * (/ 2 * (nu k j i + nu k (j - 1)%Z i)) in
  s1 F = newtonian mu G 2 1 /\ s2 F = newtonian mu G 2 2 /\ s3 F = newtonian mu G 2 3.
Proof.
  intros E2. cbv zeta. unfold x2visc. rewrite E2. cbv zeta. rewrite <- E2, !div_linear. crunch. rewrite E2. destruct f3 eqn:E3.
  - repeat split; field; lra.
  - pose proof (G3 eq_refl 1%nat) as Z1. pose proof (G3 eq_refl 2%nat) as Z2. pose proof (G3 eq_refl 3%nat) as Z3. rewrite Z1, Z2, Z3. repeat split; field; lra.
Qed.
Lemma x3_linear k j i : f3 = true -> let F := x3visc nb f2 f3 m g nu p p k j i in let mu := / 2 * (rho k j i + rho (k - 1)%Z j i) * (/ 2 * (nu k j i + nu (k - 1)%Z j i)) in
  s1 F = newtonian mu G 3 1 /\ s2 F = newtonian mu G 3 2 /\ s3 F = newtonian mu G 3 3.
Proof.
  intros E3. cbv zeta. unfold x3visc. rewrite E3. cbv zeta. rewrite <- E3, !div_linear. crunch. rewrite (H32 E3), E3. repeat split; field; lra.
Qed.
(** Without the second or third dimension the fluxes along it (used by the source terms of curvilinear coordinates) are those at the cell. *)
Lemma x2_linear_1d k j i : f2 = false -> let F := x2visc nb f2 f3 m g nu p p k j i in
  s1 F = newtonian (rho k j i * nu k j i) G 2 1 /\ s2 F = newtonian (rho k j i * nu k j i) G 2 2 /\ s3 F = newtonian (rho k j i * nu k j i) G 2 3.
Proof.
  intros E2. assert (E3 : f3 = false) by (destruct f3; auto; rewrite H32 in E2; auto). cbv zeta. unfold x2visc. rewrite E2. cbv zeta. rewrite <- E2, !div_linear. crunch. rewrite E2, E3.
  pose proof (G3 E3 1%nat) as Z1. pose proof (G3 E3 2%nat) as Z2. pose proof (G3 E3 3%nat) as Z3. pose proof (G2 E2 1%nat) as Y1. pose proof (G2 E2 2%nat) as Y2. pose proof (G2 E2 3%nat) as Y3. rewrite Z1, Z2, Z3, Y1, Y2, Y3. repeat split; field; lra.
Qed.
Lemma x3_linear_2d k j i : f3 = false -> let F := x3visc nb f2 f3 m g nu p p k j i in
  s1 F = newtonian (rho k j i * nu k j i) G 3 1 /\ s2 F = newtonian (rho k j i * nu k j i) G 3 2 /\ s3 F = newtonian (rho k j i * nu k j i) G 3 3.
Proof.
  intros E3. cbv zeta. unfold x3visc. rewrite E3. cbv zeta. rewrite <- E3, !div_linear. crunch. rewrite E3.
  pose proof (G3 E3 1%nat) as Z1. pose proof (G3 E3 2%nat) as Z2. pose proof (G3 E3 3%nat) as Z3. rewrite Z1, Z2, Z3. destruct f2 eqn:E2; [repeat split; field; lra|].
  pose proof (G2 eq_refl 1%nat) as Y1. pose proof (G2 eq_refl 2%nat) as Y2. pose proof (G2 eq_refl 3%nat) as Y3. rewrite Y1, Y2, Y3. repeat split; field; lra.
Qed.
End Linear.

(** *** Dissipation *)
Section Torus.
Variables (n1 n2 n3 : nat) (dx dy dz rho0 nu0 : R) (nb : bool).
Hypotheses (Hx : 0 < dx) (Hy : 0 < dy) (Hz : 0 < dz) (Hr : 0 <= rho0) (Hn : 0 <= nu0).
Notation box := (box_sum n1 n2 n3).
Notation per := (periodic n1 n2 n3).
Definition D1 (v : arr) : arr := fun k j i => (v k j i - v k j (i - 1)%Z) / dx.
Definition D2 (v : arr) : arr := fun k j i => (v k j i - v k (j - 1)%Z i) / dy.
Definition D3 (v : arr) : arr := fun k j i => (v k j i - v (k - 1)%Z j i) / dz.
Lemma per_D1 v : per v -> per (D1 v).
Proof. intros H. unfold D1. apply per_div; [apply per_minus; [auto|apply per_im; auto]|apply per_const]. Qed.
Lemma per_D2 v : per v -> per (D2 v).
Proof. intros H. unfold D2. apply per_div; [apply per_minus; [auto|apply per_jm; auto]|apply per_const]. Qed.
Lemma per_D3 v : per v -> per (D3 v).
Proof. intros H. unfold D3. apply per_div; [apply per_minus; [auto|apply per_km; auto]|apply per_const]. Qed.
Definition sq (f : arr) : arr := fun k j i => f k j i * f k j i.
Lemma per_sq f : per f -> per (sq f).
Proof. intros. unfold sq. apply per_mult; auto. Qed.
Lemma sq_pos f : 0 <= box (sq f).
Proof. apply box_pos. intros. unfold sq. nra. Qed.

(** Two components of the shear. *)
Definition mean1 (q : arr) : arr := fun k j i => / 4 * (q k (j + 1)%Z i + q k j i + q k (j + 1)%Z (i - 1)%Z + q k j (i - 1)%Z).
Lemma young p q e : 0 <= (p + q) * (p + q) -> e = p * q -> - (/ 2 * (p * p) + / 2 * (q * q)) <= e.
Proof. intros. subst. nra. Qed.
Ltac hint p q := pose proof (Rle_0_sqr (p + q)); pose proof (Rle_0_sqr (p - q)).

Ltac perio1 := lazymatch goal with
    | |- periodic _ _ _ (sq _) => apply per_sq | |- periodic _ _ _ (D1 _) => apply per_D1 | |- periodic _ _ _ (D2 _) => apply per_D2 | |- periodic _ _ _ (D3 _) => apply per_D3
    | |- periodic _ _ _ (fun k j i => _ + _) => apply per_plus | |- periodic _ _ _ (fun k j i => _ - _) => apply per_minus | |- periodic _ _ _ (fun k j i => _ * _) => apply per_mult
    | |- periodic _ _ _ (fun k j i => _ / _) => apply per_div | |- periodic _ _ _ (fun k j i => - _) => apply per_opp
    | |- periodic _ _ _ (fun k j i => ?f k j i) => change (periodic n1 n2 n3 f)
    | |- periodic _ _ _ (fun k j i => ?f k j (i + 1)%Z) => apply (per_ip n1 n2 n3 f) | |- periodic _ _ _ (fun k j i => ?f k j (i - 1)%Z) => apply (per_im n1 n2 n3 f)
    | |- periodic _ _ _ (fun k j i => ?f k (j + 1)%Z i) => apply (per_jp n1 n2 n3 f) | |- periodic _ _ _ (fun k j i => ?f k (j - 1)%Z i) => apply (per_jm n1 n2 n3 f)
    | |- periodic _ _ _ (fun k j i => ?f (k + 1)%Z j i) => apply (per_kp n1 n2 n3 f) | |- periodic _ _ _ (fun k j i => ?f (k - 1)%Z j i) => apply (per_km n1 n2 n3 f)
    | |- periodic _ _ _ (fun k j i => ?f k (j + 1)%Z (i - 1)%Z) => apply (per_jp n1 n2 n3 (fun k j i => f k j (i - 1)%Z))
    | |- periodic _ _ _ (fun k j i => ?f (k + 1)%Z j (i - 1)%Z) => apply (per_kp n1 n2 n3 (fun k j i => f k j (i - 1)%Z))
    | |- periodic _ _ _ (fun k j i => ?f k (j - 1)%Z (i + 1)%Z) => apply (per_jm n1 n2 n3 (fun k j i => f k j (i + 1)%Z))
    | |- periodic _ _ _ (fun k j i => ?f (k + 1)%Z (j - 1)%Z i) => apply (per_kp n1 n2 n3 (fun k j i => f k (j - 1)%Z i))
    | |- periodic _ _ _ (fun k j i => ?f (k - 1)%Z j (i + 1)%Z) => apply (per_km n1 n2 n3 (fun k j i => f k j (i + 1)%Z))
    | |- periodic _ _ _ (fun k j i => ?f (k - 1)%Z (j + 1)%Z i) => apply (per_km n1 n2 n3 (fun k j i => f k (j + 1)%Z i))
    | |- periodic _ _ _ (fun k j i => _) => apply per_const end.
Ltac perio := repeat first [assumption | perio1].
(** Sums of squares at shifted positions. *)
Lemma sh_ip f : per f -> box (fun k j i => f k j (i + 1)%Z) = box f. Proof. apply box_i. Qed.
Lemma two_i_j f : per f -> box (fun k j i => f k (j + 1)%Z (i - 1)%Z) = box f.
Proof. intros H. transitivity (box (fun k j i => f k (j + 1)%Z i)); [apply (box_im n1 n2 n3 (fun k j i => f k (j + 1)%Z i)); apply per_jp; auto|apply box_j; auto]. Qed.
Lemma two_i_k f : per f -> box (fun k j i => f (k + 1)%Z j (i - 1)%Z) = box f.
Proof. intros H. transitivity (box (fun k j i => f (k + 1)%Z j i)); [apply (box_im n1 n2 n3 (fun k j i => f (k + 1)%Z j i)); apply per_kp; auto|apply box_k; auto]. Qed.
Lemma two_j_i f : per f -> box (fun k j i => f k (j - 1)%Z (i + 1)%Z) = box f.
Proof. intros H. transitivity (box (fun k j i => f k j (i + 1)%Z)); [apply (box_jm n1 n2 n3 (fun k j i => f k j (i + 1)%Z)); apply per_ip; auto|apply box_i; auto]. Qed.
Lemma two_j_k f : per f -> box (fun k j i => f (k + 1)%Z (j - 1)%Z i) = box f.
Proof. intros H. transitivity (box (fun k j i => f (k + 1)%Z j i)); [apply (box_jm n1 n2 n3 (fun k j i => f (k + 1)%Z j i)); apply per_kp; auto|apply box_k; auto]. Qed.
Lemma two_k_i f : per f -> box (fun k j i => f (k - 1)%Z j (i + 1)%Z) = box f.
Proof. intros H. transitivity (box (fun k j i => f k j (i + 1)%Z)); [apply (box_km n1 n2 n3 (fun k j i => f k j (i + 1)%Z)); apply per_ip; auto|apply box_i; auto]. Qed.
Lemma two_k_j f : per f -> box (fun k j i => f (k - 1)%Z (j + 1)%Z i) = box f.
Proof. intros H. transitivity (box (fun k j i => f k (j + 1)%Z i)); [apply (box_km n1 n2 n3 (fun k j i => f k (j + 1)%Z i)); apply per_jp; auto|apply box_j; auto]. Qed.

(** A product with a mean of four values: box (p * mean) >= - 1/2 (P + Q), where the four shifted sums of q^2 are Q. *)
Lemma mean4 s p (q1 q2 q3 q4 : arr) Q : s = 1 \/ s = -1 -> box (sq q1) = Q -> box (sq q2) = Q -> box (sq q3) = Q -> box (sq q4) = Q ->
  - (/ 2 * box (sq p) + / 2 * Q) <= box (fun k j i => s * (p k j i * (/ 4 * (q1 k j i + q2 k j i + q3 k j i + q4 k j i)))).
Proof.
  intros Hs E1 E2 E3 E4.
  apply Rle_trans with (box (fun k j i => - / 2 * sq p k j i + (- / 8 * sq q1 k j i + (- / 8 * sq q2 k j i + (- / 8 * sq q3 k j i + - / 8 * sq q4 k j i))))).
  - rewrite box_plus, box_scal, box_plus, box_scal, box_plus, box_scal, box_plus, !box_scal, E1, E2, E3, E4. lra.
  - apply box_le. intros. unfold sq. set (x := p k j i). set (y1 := q1 k j i). set (y2 := q2 k j i). set (y3 := q3 k j i). set (y4 := q4 k j i).
    hint x y1. hint x y2. hint x y3. hint x y4. unfold Rsqr in *. destruct Hs; subst s; lra.
Qed.

Variables (v1 v2 v3 : arr).
Hypotheses (P1 : per v1) (P2 : per v2) (P3 : per v3).
Let p := mkF (fun _ _ _ => rho0) v1 v2 v3.
Let nu : arr := fun _ _ _ => nu0.
Let m := flat_metric dx dy dz.
Let g := cart dx dy dz.
Let w := rho0 * nu0.
Definition dv : arr := fun k j i => / 2 * (D1 v1 k j (i + 1)%Z + D1 v1 k j i) + / 2 * (D2 v2 k (j + 1)%Z i + D2 v2 k j i) + / 2 * (D3 v3 (k + 1)%Z j i + D3 v3 k j i).
Lemma div_flat k j i : DivVelocity true true g p k j i = dv k j i.
Proof.
  unfold DivVelocity, dv, D1, D2, D3, g, cart, p; cbn [A1 A2 A3 V Vis_Model.v1 Vis_Model.v2 Vis_Model.v3]. replace (i + 1 - 1)%Z with i by lia. replace (j + 1 - 1)%Z with j by lia. replace (k + 1 - 1)%Z with k by lia. field. lra.
Qed.
Definition m4 (q1 q2 q3 q4 : R) : R := / 4 * (q1 + q2 + q3 + q4).
Ltac flat := intros; unfold x1visc, x2visc, x3visc; cbv zeta; cbn [s1 s2 s3]; rewrite ?div_flat; unfold FaceXdx, FaceXdy, FaceXdz, FaceYdx, FaceYdy, FaceYdz, FaceZdx, FaceZdy, FaceZdz, m, flat_metric, p, nu, nuiso2, m4, w, D1, D2, D3;
  cbn [Vis_Model.v1 Vis_Model.v2 Vis_Model.v3 den dx1v dx2v dx3v h2v h2f h31v h31f h32v h32f dh2vd1 dh31vd1 dh32vd2 IsPole]; cbv iota;
  repeat match goal with |- context [(?x + 1 - 1)%Z] => replace (x + 1 - 1)%Z with x by lia end; field; lra.
Notation F1 := (x1visc nb true true m g nu p p).
Notation F2 := (x2visc nb true true m g nu p p).
Notation F3 := (x3visc nb true true m g nu p p).
Lemma f11 k j i : s1 (F1 k j i) = - w * (2 * D1 v1 k j i - / 3 * (dv k j i + dv k j (i - 1)%Z)). Proof. flat. Qed.
Lemma f12 k j i : s2 (F1 k j i) = - w * (D1 v2 k j i + m4 (D2 v1 k (j + 1)%Z i) (D2 v1 k j i) (D2 v1 k (j + 1)%Z (i - 1)%Z) (D2 v1 k j (i - 1)%Z)). Proof. flat. Qed.
Lemma f13 k j i : s3 (F1 k j i) = - w * (D1 v3 k j i + m4 (D3 v1 (k + 1)%Z j i) (D3 v1 k j i) (D3 v1 (k + 1)%Z j (i - 1)%Z) (D3 v1 k j (i - 1)%Z)). Proof. flat. Qed.
Lemma f21 k j i : s1 (F2 k j i) = - w * (D2 v1 k j i + m4 (D1 v2 k j (i + 1)%Z) (D1 v2 k j i) (D1 v2 k (j - 1)%Z (i + 1)%Z) (D1 v2 k (j - 1)%Z i)). Proof. flat. Qed.
Lemma f22 k j i : s2 (F2 k j i) = - w * (2 * D2 v2 k j i - / 3 * (dv k (j - 1)%Z i + dv k j i)). Proof. flat. Qed.
Lemma f23 k j i : s3 (F2 k j i) = - w * (D2 v3 k j i + m4 (D3 v2 (k + 1)%Z j i) (D3 v2 k j i) (D3 v2 (k + 1)%Z (j - 1)%Z i) (D3 v2 k (j - 1)%Z i)). Proof. flat. Qed.
Lemma f31 k j i : s1 (F3 k j i) = - w * (D3 v1 k j i + m4 (D1 v3 k j (i + 1)%Z) (D1 v3 k j i) (D1 v3 (k - 1)%Z j (i + 1)%Z) (D1 v3 (k - 1)%Z j i)). Proof. flat. Qed.
Lemma f32 k j i : s2 (F3 k j i) = - w * (D3 v2 k j i + m4 (D2 v3 k (j + 1)%Z i) (D2 v3 k j i) (D2 v3 (k - 1)%Z (j + 1)%Z i) (D2 v3 (k - 1)%Z j i)). Proof. flat. Qed.
Lemma f33 k j i : s3 (F3 k j i) = - w * (2 * D3 v3 k j i - / 3 * (dv (k - 1)%Z j i + dv k j i)). Proof. flat. Qed.

Lemma per_dv : per dv.
Proof. unfold dv. perio. Qed.
Notation A := (box (sq (D1 v1))).
Notation B := (box (sq (D2 v2))).
Notation C := (box (sq (D3 v3))).

Ltac pd := perio.
Lemma diag1 : 2 / 3 * A - / 3 * (B + C) <= box (fun k j i => D1 v1 k j i * (2 * D1 v1 k j i - / 3 * (dv k j i + dv k j (i - 1)%Z))).
Proof.
  pose proof (mean4 (-1) (D1 v1) (fun k j i => D1 v1 k j (i + 1)%Z) (D1 v1) (D1 v1) (fun k j i => D1 v1 k j (i - 1)%Z) A ltac:(auto)
    (box_i n1 n2 n3 (sq (D1 v1)) ltac:(pd)) eq_refl eq_refl (box_im n1 n2 n3 (sq (D1 v1)) ltac:(pd))) as MA.
  pose proof (mean4 (-1) (D1 v1) (fun k j i => D2 v2 k (j + 1)%Z i) (D2 v2) (fun k j i => D2 v2 k (j + 1)%Z (i - 1)%Z) (fun k j i => D2 v2 k j (i - 1)%Z) B ltac:(auto)
    (box_j n1 n2 n3 (sq (D2 v2)) ltac:(pd)) eq_refl (two_i_j (sq (D2 v2)) ltac:(pd)) (box_im n1 n2 n3 (sq (D2 v2)) ltac:(pd))) as MB.
  pose proof (mean4 (-1) (D1 v1) (fun k j i => D3 v3 (k + 1)%Z j i) (D3 v3) (fun k j i => D3 v3 (k + 1)%Z j (i - 1)%Z) (fun k j i => D3 v3 k j (i - 1)%Z) C ltac:(auto)
    (box_k n1 n2 n3 (sq (D3 v3)) ltac:(pd)) eq_refl (two_i_k (sq (D3 v3)) ltac:(pd)) (box_im n1 n2 n3 (sq (D3 v3)) ltac:(pd))) as MC.
  match type of MA with _ <= ?x => match type of MB with _ <= ?y => match type of MC with _ <= ?z => set (X := x) in *; set (Y := y) in *; set (Z := z) in * end end end.
  match goal with |- _ <= ?t => replace t with (2 * A + (2 / 3 * X + (2 / 3 * Y + 2 / 3 * Z))) end; [lra|]. unfold X, Y, Z. rewrite <- !box_scal, <- !box_plus. apply box_ext. intros. unfold sq, dv. replace (i - 1 + 1)%Z with i by lia. field.
Qed.
Lemma diag2 : 2 / 3 * B - / 3 * (A + C) <= box (fun k j i => D2 v2 k j i * (2 * D2 v2 k j i - / 3 * (dv k (j - 1)%Z i + dv k j i))).
Proof.
  pose proof (mean4 (-1) (D2 v2) (fun k j i => D2 v2 k (j + 1)%Z i) (D2 v2) (D2 v2) (fun k j i => D2 v2 k (j - 1)%Z i) B ltac:(auto)
    (box_j n1 n2 n3 (sq (D2 v2)) ltac:(pd)) eq_refl eq_refl (box_jm n1 n2 n3 (sq (D2 v2)) ltac:(pd))) as MA.
  pose proof (mean4 (-1) (D2 v2) (fun k j i => D1 v1 k j (i + 1)%Z) (D1 v1) (fun k j i => D1 v1 k (j - 1)%Z (i + 1)%Z) (fun k j i => D1 v1 k (j - 1)%Z i) A ltac:(auto)
    (box_i n1 n2 n3 (sq (D1 v1)) ltac:(pd)) eq_refl (two_j_i (sq (D1 v1)) ltac:(pd)) (box_jm n1 n2 n3 (sq (D1 v1)) ltac:(pd))) as MB.
  pose proof (mean4 (-1) (D2 v2) (fun k j i => D3 v3 (k + 1)%Z j i) (D3 v3) (fun k j i => D3 v3 (k + 1)%Z (j - 1)%Z i) (fun k j i => D3 v3 k (j - 1)%Z i) C ltac:(auto)
    (box_k n1 n2 n3 (sq (D3 v3)) ltac:(pd)) eq_refl (two_j_k (sq (D3 v3)) ltac:(pd)) (box_jm n1 n2 n3 (sq (D3 v3)) ltac:(pd))) as MC.
  match type of MA with _ <= ?x => match type of MB with _ <= ?y => match type of MC with _ <= ?z => set (X := x) in *; set (Y := y) in *; set (Z := z) in * end end end.
  match goal with |- _ <= ?t => replace t with (2 * B + (2 / 3 * X + (2 / 3 * Y + 2 / 3 * Z))) end; [lra|]. unfold X, Y, Z. rewrite <- !box_scal, <- !box_plus. apply box_ext. intros. unfold sq, dv. replace (j - 1 + 1)%Z with j by lia. field.
Qed.
Lemma diag3 : 2 / 3 * C - / 3 * (A + B) <= box (fun k j i => D3 v3 k j i * (2 * D3 v3 k j i - / 3 * (dv (k - 1)%Z j i + dv k j i))).
Proof.
  pose proof (mean4 (-1) (D3 v3) (fun k j i => D3 v3 (k + 1)%Z j i) (D3 v3) (D3 v3) (fun k j i => D3 v3 (k - 1)%Z j i) C ltac:(auto)
    (box_k n1 n2 n3 (sq (D3 v3)) ltac:(pd)) eq_refl eq_refl (box_km n1 n2 n3 (sq (D3 v3)) ltac:(pd))) as MA.
  pose proof (mean4 (-1) (D3 v3) (fun k j i => D1 v1 k j (i + 1)%Z) (D1 v1) (fun k j i => D1 v1 (k - 1)%Z j (i + 1)%Z) (fun k j i => D1 v1 (k - 1)%Z j i) A ltac:(auto)
    (box_i n1 n2 n3 (sq (D1 v1)) ltac:(pd)) eq_refl (two_k_i (sq (D1 v1)) ltac:(pd)) (box_km n1 n2 n3 (sq (D1 v1)) ltac:(pd))) as MB.
  pose proof (mean4 (-1) (D3 v3) (fun k j i => D2 v2 k (j + 1)%Z i) (D2 v2) (fun k j i => D2 v2 (k - 1)%Z (j + 1)%Z i) (fun k j i => D2 v2 (k - 1)%Z j i) B ltac:(auto)
    (box_j n1 n2 n3 (sq (D2 v2)) ltac:(pd)) eq_refl (two_k_j (sq (D2 v2)) ltac:(pd)) (box_km n1 n2 n3 (sq (D2 v2)) ltac:(pd))) as MC.
  match type of MA with _ <= ?x => match type of MB with _ <= ?y => match type of MC with _ <= ?z => set (X := x) in *; set (Y := y) in *; set (Z := z) in * end end end.
  match goal with |- _ <= ?t => replace t with (2 * C + (2 / 3 * X + (2 / 3 * Y + 2 / 3 * Z))) end; [lra|]. unfold X, Y, Z. rewrite <- !box_scal, <- !box_plus. apply box_ext. intros. unfold sq, dv. replace (k - 1 + 1)%Z with k by lia. field.
Qed.
Ltac shear M P := match type of M with _ <= ?x => set (X := x) in *; match goal with |- _ <= ?t => replace t with (box (sq P) + X) end; [lra|]; unfold X; rewrite <- box_plus; apply box_ext; intros; unfold sq, m4; field end.
Lemma shear12 : / 2 * box (sq (D1 v2)) - / 2 * box (sq (D2 v1)) <= box (fun k j i => D1 v2 k j i * (D1 v2 k j i + m4 (D2 v1 k (j + 1)%Z i) (D2 v1 k j i) (D2 v1 k (j + 1)%Z (i - 1)%Z) (D2 v1 k j (i - 1)%Z))).
Proof.
  pose proof (mean4 1 (D1 v2) (fun k j i => D2 v1 k (j + 1)%Z i) (D2 v1) (fun k j i => D2 v1 k (j + 1)%Z (i - 1)%Z) (fun k j i => D2 v1 k j (i - 1)%Z) (box (sq (D2 v1))) ltac:(auto)
    (box_j n1 n2 n3 (sq (D2 v1)) ltac:(pd)) eq_refl (two_i_j (sq (D2 v1)) ltac:(pd)) (box_im n1 n2 n3 (sq (D2 v1)) ltac:(pd))) as M. shear M (D1 v2).
Qed.
Lemma shear13 : / 2 * box (sq (D1 v3)) - / 2 * box (sq (D3 v1)) <= box (fun k j i => D1 v3 k j i * (D1 v3 k j i + m4 (D3 v1 (k + 1)%Z j i) (D3 v1 k j i) (D3 v1 (k + 1)%Z j (i - 1)%Z) (D3 v1 k j (i - 1)%Z))).
Proof.
  pose proof (mean4 1 (D1 v3) (fun k j i => D3 v1 (k + 1)%Z j i) (D3 v1) (fun k j i => D3 v1 (k + 1)%Z j (i - 1)%Z) (fun k j i => D3 v1 k j (i - 1)%Z) (box (sq (D3 v1))) ltac:(auto)
    (box_k n1 n2 n3 (sq (D3 v1)) ltac:(pd)) eq_refl (two_i_k (sq (D3 v1)) ltac:(pd)) (box_im n1 n2 n3 (sq (D3 v1)) ltac:(pd))) as M. shear M (D1 v3).
Qed.
Lemma shear21 : / 2 * box (sq (D2 v1)) - / 2 * box (sq (D1 v2)) <= box (fun k j i => D2 v1 k j i * (D2 v1 k j i + m4 (D1 v2 k j (i + 1)%Z) (D1 v2 k j i) (D1 v2 k (j - 1)%Z (i + 1)%Z) (D1 v2 k (j - 1)%Z i))).
Proof.
  pose proof (mean4 1 (D2 v1) (fun k j i => D1 v2 k j (i + 1)%Z) (D1 v2) (fun k j i => D1 v2 k (j - 1)%Z (i + 1)%Z) (fun k j i => D1 v2 k (j - 1)%Z i) (box (sq (D1 v2))) ltac:(auto)
    (box_i n1 n2 n3 (sq (D1 v2)) ltac:(pd)) eq_refl (two_j_i (sq (D1 v2)) ltac:(pd)) (box_jm n1 n2 n3 (sq (D1 v2)) ltac:(pd))) as M. shear M (D2 v1).
Qed.
Lemma shear23 : / 2 * box (sq (D2 v3)) - / 2 * box (sq (D3 v2)) <= box (fun k j i => D2 v3 k j i * (D2 v3 k j i + m4 (D3 v2 (k + 1)%Z j i) (D3 v2 k j i) (D3 v2 (k + 1)%Z (j - 1)%Z i) (D3 v2 k (j - 1)%Z i))).
Proof.
  pose proof (mean4 1 (D2 v3) (fun k j i => D3 v2 (k + 1)%Z j i) (D3 v2) (fun k j i => D3 v2 (k + 1)%Z (j - 1)%Z i) (fun k j i => D3 v2 k (j - 1)%Z i) (box (sq (D3 v2))) ltac:(auto)
    (box_k n1 n2 n3 (sq (D3 v2)) ltac:(pd)) eq_refl (two_j_k (sq (D3 v2)) ltac:(pd)) (box_jm n1 n2 n3 (sq (D3 v2)) ltac:(pd))) as M. shear M (D2 v3).
Qed.
Lemma shear31 : / 2 * box (sq (D3 v1)) - / 2 * box (sq (D1 v3)) <= box (fun k j i => D3 v1 k j i * (D3 v1 k j i + m4 (D1 v3 k j (i + 1)%Z) (D1 v3 k j i) (D1 v3 (k - 1)%Z j (i + 1)%Z) (D1 v3 (k - 1)%Z j i))).
Proof.
  pose proof (mean4 1 (D3 v1) (fun k j i => D1 v3 k j (i + 1)%Z) (D1 v3) (fun k j i => D1 v3 (k - 1)%Z j (i + 1)%Z) (fun k j i => D1 v3 (k - 1)%Z j i) (box (sq (D1 v3))) ltac:(auto)
    (box_i n1 n2 n3 (sq (D1 v3)) ltac:(pd)) eq_refl (two_k_i (sq (D1 v3)) ltac:(pd)) (box_km n1 n2 n3 (sq (D1 v3)) ltac:(pd))) as M. shear M (D3 v1).
Qed.
Lemma shear32 : / 2 * box (sq (D3 v2)) - / 2 * box (sq (D2 v3)) <= box (fun k j i => D3 v2 k j i * (D3 v2 k j i + m4 (D2 v3 k (j + 1)%Z i) (D2 v3 k j i) (D2 v3 (k - 1)%Z (j + 1)%Z i) (D2 v3 (k - 1)%Z j i))).
Proof.
  pose proof (mean4 1 (D3 v2) (fun k j i => D2 v3 k (j + 1)%Z i) (D2 v3) (fun k j i => D2 v3 (k - 1)%Z (j + 1)%Z i) (fun k j i => D2 v3 (k - 1)%Z j i) (box (sq (D2 v3))) ltac:(auto)
    (box_j n1 n2 n3 (sq (D2 v3)) ltac:(pd)) eq_refl (two_k_j (sq (D2 v3)) ltac:(pd)) (box_km n1 n2 n3 (sq (D2 v3)) ltac:(pd))) as M. shear M (D3 v2).
Qed.

(** The power of one component of the flux through the faces of one direction. *)
Lemma work1 v F E : per v -> per E -> (forall k j i, F k j i = - w * E k j i) -> box (fun k j i => v k j i * ((F k j (i + 1)%Z - F k j i) / dx)) = w * box (fun k j i => D1 v k j i * E k j i).
Proof.
  intros Pv PE H. transitivity (- w / dx * box (fun k j i => v k j i * (E k j (i + 1)%Z - E k j i))); [rewrite <- box_scal; apply box_ext; intros; rewrite !H; field; lra|].
  rewrite parts_i by auto. rewrite <- box_scal. replace (- w / dx * - box (fun k j i => E k j i * (v k j i - v k j (i - 1)%Z))) with (w / dx * box (fun k j i => E k j i * (v k j i - v k j (i - 1)%Z))) by (field; lra).
  rewrite <- box_scal. apply box_ext. intros. unfold D1. field. lra.
Qed.
Lemma work2 v F E : per v -> per E -> (forall k j i, F k j i = - w * E k j i) -> box (fun k j i => v k j i * ((F k (j + 1)%Z i - F k j i) / dy)) = w * box (fun k j i => D2 v k j i * E k j i).
Proof.
  intros Pv PE H. transitivity (- w / dy * box (fun k j i => v k j i * (E k (j + 1)%Z i - E k j i))); [rewrite <- box_scal; apply box_ext; intros; rewrite !H; field; lra|].
  rewrite parts_j by auto. rewrite <- box_scal. replace (- w / dy * - box (fun k j i => E k j i * (v k j i - v k (j - 1)%Z i))) with (w / dy * box (fun k j i => E k j i * (v k j i - v k (j - 1)%Z i))) by (field; lra).
  rewrite <- box_scal. apply box_ext. intros. unfold D2. field. lra.
Qed.
Lemma work3 v F E : per v -> per E -> (forall k j i, F k j i = - w * E k j i) -> box (fun k j i => v k j i * ((F (k + 1)%Z j i - F k j i) / dz)) = w * box (fun k j i => D3 v k j i * E k j i).
Proof.
  intros Pv PE H. transitivity (- w / dz * box (fun k j i => v k j i * (E (k + 1)%Z j i - E k j i))); [rewrite <- box_scal; apply box_ext; intros; rewrite !H; field; lra|].
  rewrite parts_k by auto. rewrite <- box_scal. replace (- w / dz * - box (fun k j i => E k j i * (v k j i - v (k - 1)%Z j i))) with (w / dz * box (fun k j i => E k j i * (v k j i - v (k - 1)%Z j i))) by (field; lra).
  rewrite <- box_scal. apply box_ext. intros. unfold D3. field. lra.
Qed.
Ltac pm := unfold m4; pose proof per_dv; perio.
Lemma dissipates : power n1 n2 n3 v1 v2 v3
    (rate dx dy dz (fun k j i => s1 (F1 k j i)) (fun k j i => s1 (F2 k j i)) (fun k j i => s1 (F3 k j i)))
    (rate dx dy dz (fun k j i => s2 (F1 k j i)) (fun k j i => s2 (F2 k j i)) (fun k j i => s2 (F3 k j i)))
    (rate dx dy dz (fun k j i => s3 (F1 k j i)) (fun k j i => s3 (F2 k j i)) (fun k j i => s3 (F3 k j i))) <= 0.
Proof.
  pose proof (fun H => work1 v1 _ _ P1 H f11) as W11. specialize (W11 ltac:(pm)). pose proof (fun H => work1 v2 _ _ P2 H f12) as W12. specialize (W12 ltac:(pm)). pose proof (fun H => work1 v3 _ _ P3 H f13) as W13. specialize (W13 ltac:(pm)).
  pose proof (fun H => work2 v1 _ _ P1 H f21) as W21. specialize (W21 ltac:(pm)). pose proof (fun H => work2 v2 _ _ P2 H f22) as W22. specialize (W22 ltac:(pm)). pose proof (fun H => work2 v3 _ _ P3 H f23) as W23. specialize (W23 ltac:(pm)).
  pose proof (fun H => work3 v1 _ _ P1 H f31) as W31. specialize (W31 ltac:(pm)). pose proof (fun H => work3 v2 _ _ P2 H f32) as W32. specialize (W32 ltac:(pm)). pose proof (fun H => work3 v3 _ _ P3 H f33) as W33. specialize (W33 ltac:(pm)).
  unfold power, rate.
  match type of W11 with ?a = _ => match type of W12 with ?b = _ => match type of W13 with ?c = _ => match type of W21 with ?d = _ => match type of W22 with ?e = _ => match type of W23 with ?f = _ => match type of W31 with ?x = _ => match type of W32 with ?y = _ => match type of W33 with ?z = _ =>
    apply Rle_trans with (-1 * (a + (b + (c + (d + (e + (f + (x + (y + z))))))))) end end end end end end end end end.
  - apply Req_le. rewrite <- !box_plus, <- box_scal. apply box_ext. intros. ring.
  - rewrite W11, W12, W13, W21, W22, W23, W31, W32, W33.
    pose proof diag1. pose proof diag2. pose proof diag3. pose proof shear12. pose proof shear13. pose proof shear21. pose proof shear23. pose proof shear31. pose proof shear32.
    assert (Pw : 0 <= w) by (unfold w; apply Rmult_le_pos; auto).
    match goal with |- -1 * (w * ?a + (w * ?b + (w * ?c + (w * ?d + (w * ?e + (w * ?f + (w * ?x + (w * ?y + w * ?z)))))))) <= 0 => assert (Q : 0 <= w * (a + b + c + d + e + f + x + y + z)) by (apply Rmult_le_pos; [auto|lra]) end.
    lra.
Qed.
End Torus.
