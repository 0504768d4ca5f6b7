(** The algebra of the eigenvectors. *)
From Coq Require Import Reals ZArith Bool PeanoNat Lia Lra Psatz.
From Verif Require Import Time_Model Rec_Model Char_Model Char_Spec Char_Proofs.
Local Open Scope R_scope.

Ltac prep W := destruct W as [Hr Ha Hcf Hcs _ Hs _ Hal Hen _ _ _ _ _ _].
Lemma ma_RL : forall r a cf cs af as_ b1 by_ bz bt s be2 be3 v0 vx vy vz vp vby vbz, waves r a cf cs af as_ b1 by_ bz bt s -> be2 * be2 + be3 * be3 = 1 ->
  let L := left_ma (1 / (r * r)) r (a * a) a cf cs af as_ be2 be3 s v0 vx vy vz vp vby vbz in
  let qf := cf * af * s in let qs := cs * as_ * s in let Af := a * af * r in let As := a * as_ * r in
  r * r * (af * (L 0%nat + L 6%nat) + as_ * (L 2%nat + L 4%nat)) + L 3%nat = v0 /\
  cf * af * (L 6%nat - L 0%nat) + cs * as_ * (L 4%nat - L 2%nat) = vx /\
  be2 * (qs * (L 0%nat - L 6%nat) + qf * (L 4%nat - L 2%nat)) + be3 * (L 5%nat - L 1%nat) = vy /\
  be3 * (qs * (L 0%nat - L 6%nat) + qf * (L 4%nat - L 2%nat)) + be2 * (L 1%nat - L 5%nat) = vz /\
  r * r * (a * a) * (af * (L 0%nat + L 6%nat) + as_ * (L 2%nat + L 4%nat)) = vp /\
  be2 * (As * (L 0%nat + L 6%nat) - Af * (L 2%nat + L 4%nat)) - be3 * s * r * (L 5%nat + L 1%nat) = vby /\
  be3 * (As * (L 0%nat + L 6%nat) - Af * (L 2%nat + L 4%nat)) + be2 * s * r * (L 5%nat + L 1%nat) = vbz.
Proof.
  intros r a cf cs af as_ b1 by_ bz bt s be2 be3 v0 vx vy vz vp vby vbz W B L qf qs Af As. prep W.
  assert (Hal' : as_ * as_ = 1 - af * af) by lra. assert (Hen' : cs * cs * (as_ * as_) = a * a - cf * cf * (af * af)) by lra. assert (B' : be3 * be3 = 1 - be2 * be2) by lra.
  assert (F : L 0%nat + L 6%nat = af * vp / (a * a * (r * r)) + as_ * (be2 * vby + be3 * vbz) / (a * r)) by (unfold L, left_ma; field; lra).
  assert (S : L 2%nat + L 4%nat = as_ * vp / (a * a * (r * r)) - af * (be2 * vby + be3 * vbz) / (a * r)) by (unfold L, left_ma; field; lra).
  assert (F' : L 6%nat - L 0%nat = (af * cf * vx - cs * as_ * s * (be2 * vy + be3 * vz)) / (a * a)) by (unfold L, left_ma; field; lra).
  assert (S' : L 4%nat - L 2%nat = (as_ * cs * vx + cf * af * s * (be2 * vy + be3 * vz)) / (a * a)) by (unfold L, left_ma; field; lra).
  assert (A : L 5%nat + L 1%nat = s * (be2 * vbz - be3 * vby) / r) by (unfold L, left_ma; field; lra).
  assert (A' : L 1%nat - L 5%nat = be2 * vz - be3 * vy) by (unfold L, left_ma; field; lra).
  assert (M : L 3%nat = v0 - vp / (a * a)) by reflexivity.
  assert (P : af * (L 0%nat + L 6%nat) + as_ * (L 2%nat + L 4%nat) = vp / (a * a * (r * r))).
  { rewrite F, S. transitivity ((af * af + as_ * as_) * vp / (a * a * (r * r))); [field; lra|rewrite Hal; field; lra]. }
  assert (Q : as_ * (L 0%nat + L 6%nat) - af * (L 2%nat + L 4%nat) = (be2 * vby + be3 * vbz) / (a * r)).
  { rewrite F, S. transitivity ((af * af + as_ * as_) * (be2 * vby + be3 * vbz) / (a * r)); [field; lra|rewrite Hal; field; lra]. }
  assert (V : cs * as_ * (L 0%nat - L 6%nat) + cf * af * (L 4%nat - L 2%nat) = s * (be2 * vy + be3 * vz)).
  { replace (L 0%nat - L 6%nat) with (- (L 6%nat - L 0%nat)) by ring. rewrite F', S'. transitivity ((af * af * cf * cf + as_ * as_ * cs * cs) * s * (be2 * vy + be3 * vz) / (a * a)); [field; lra|rewrite Hen; field; lra]. }
  assert (V' : qs * (L 0%nat - L 6%nat) + qf * (L 4%nat - L 2%nat) = be2 * vy + be3 * vz).
  { unfold qs, qf. transitivity (s * (cs * as_ * (L 0%nat - L 6%nat) + cf * af * (L 4%nat - L 2%nat))); [ring|rewrite V]. transitivity (s * s * (be2 * vy + be3 * vz)); [ring|rewrite Hs; ring]. }
  assert (Q' : As * (L 0%nat + L 6%nat) - Af * (L 2%nat + L 4%nat) = be2 * vby + be3 * vbz).
  { unfold As, Af. transitivity (a * r * (as_ * (L 0%nat + L 6%nat) - af * (L 2%nat + L 4%nat))); [ring|rewrite Q; field; lra]. }
  refine (conj _ (conj _ (conj _ (conj _ (conj _ (conj _ _)))))).
  - rewrite P, M. field. lra.
  - rewrite F', S'. transitivity ((af * af * cf * cf + as_ * as_ * cs * cs) * vx / (a * a)); [field; lra|rewrite Hen; field; lra].
  - rewrite V'. replace (L 5%nat - L 1%nat) with (- (L 1%nat - L 5%nat)) by ring. rewrite A'. transitivity ((be2 * be2 + be3 * be3) * vy); [ring|rewrite B; ring].
  - rewrite V', A'. transitivity ((be2 * be2 + be3 * be3) * vz); [ring|rewrite B; ring].
  - rewrite P. field. lra.
  - rewrite Q', A. transitivity ((be2 * be2 + s * s * (be3 * be3)) * vby + (1 - s * s) * be2 * be3 * vbz); [field; lra|rewrite Hs; transitivity ((be2 * be2 + be3 * be3) * vby); [ring|rewrite B; ring]].
  - rewrite Q', A. transitivity ((be3 * be3 + s * s * (be2 * be2)) * vbz + (1 - s * s) * be2 * be3 * vby); [field; lra|rewrite Hs; transitivity ((be2 * be2 + be3 * be3) * vbz); [ring|rewrite B; ring]].
Qed.

(** The other way round. *)
Lemma ma_LR : forall r a cf cs af as_ b1 by_ bz bt s be2 be3 c0 c1 c2 c3 c4 c5 c6, waves r a cf cs af as_ b1 by_ bz bt s -> be2 * be2 + be3 * be3 = 1 ->
  let qf := cf * af * s in let qs := cs * as_ * s in let Af := a * af * r in let As := a * as_ * r in
  let L := left_ma (1 / (r * r)) r (a * a) a cf cs af as_ be2 be3 s
     (r * r * (af * (c0 + c6) + as_ * (c2 + c4)) + c3) (cf * af * (c6 - c0) + cs * as_ * (c4 - c2))
     (be2 * (qs * (c0 - c6) + qf * (c4 - c2)) + be3 * (c5 - c1)) (be3 * (qs * (c0 - c6) + qf * (c4 - c2)) + be2 * (c1 - c5))
     (r * r * (a * a) * (af * (c0 + c6) + as_ * (c2 + c4)))
     (be2 * (As * (c0 + c6) - Af * (c2 + c4)) - be3 * s * r * (c5 + c1)) (be3 * (As * (c0 + c6) - Af * (c2 + c4)) + be2 * s * r * (c5 + c1)) in
  L 0%nat = c0 /\ L 1%nat = c1 /\ L 2%nat = c2 /\ L 3%nat = c3 /\ L 4%nat = c4 /\ L 5%nat = c5 /\ L 6%nat = c6.
Proof.
  intros r a cf cs af as_ b1 by_ bz bt s be2 be3 c0 c1 c2 c3 c4 c5 c6 W B qf qs Af As L. prep W.
  assert (V : be2 * (be2 * (qs * (c0 - c6) + qf * (c4 - c2)) + be3 * (c5 - c1)) + be3 * (be3 * (qs * (c0 - c6) + qf * (c4 - c2)) + be2 * (c1 - c5)) = s * (cs * as_ * (c0 - c6) + cf * af * (c4 - c2))).
  { transitivity ((be2 * be2 + be3 * be3) * (qs * (c0 - c6) + qf * (c4 - c2))); [ring|rewrite B; unfold qs, qf; ring]. }
  assert (Q : be2 * (be2 * (As * (c0 + c6) - Af * (c2 + c4)) - be3 * s * r * (c5 + c1)) + be3 * (be3 * (As * (c0 + c6) - Af * (c2 + c4)) + be2 * s * r * (c5 + c1)) = a * r * (as_ * (c0 + c6) - af * (c2 + c4))).
  { transitivity ((be2 * be2 + be3 * be3) * (As * (c0 + c6) - Af * (c2 + c4))); [ring|rewrite B; unfold As, Af; ring]. }
  assert (K : forall x y, s * (s * x) = y -> x = y) by (intros x y H; replace x with ((s * s) * x) by (rewrite Hs; ring); rewrite Rmult_assoc; exact H).
  refine (conj _ (conj _ (conj _ (conj _ (conj _ (conj _ _)))))); unfold L, left_ma; cbv zeta; rewrite ?V, ?Q.
  - transitivity (1 / 2 * ((af * af + as_ * as_) * (c0 + c6)) + (1 / 2) * ((af * af * cf * cf + s * s * (as_ * as_ * cs * cs)) * (c0 - c6) + (s * s - 1) * (af * cf * as_ * cs) * (c4 - c2)) / (a * a)); [field; lra|].
    rewrite Hs, Hal. rewrite !Rmult_1_l, Hen. field. lra.
  - transitivity (1 / 2 * (be2 * be2 + be3 * be3) * (s * s * (c5 + c1) + (c1 - c5))); [field; lra|rewrite B, Hs; field].
  - transitivity (1 / 2 * ((af * af + as_ * as_) * (c2 + c4)) + (1 / 2) * ((as_ * as_ * cs * cs + s * s * (af * af * cf * cf)) * (c2 - c4) + (s * s - 1) * (af * cf * as_ * cs) * (c6 - c0)) / (a * a)); [field; lra|].
    rewrite Hs, Hal. rewrite !Rmult_1_l, (Rplus_comm (as_ * as_ * cs * cs)), Hen. field. lra.
  - field. lra.
  - transitivity (1 / 2 * ((af * af + as_ * as_) * (c2 + c4)) - (1 / 2) * ((as_ * as_ * cs * cs + s * s * (af * af * cf * cf)) * (c2 - c4) + (s * s - 1) * (af * cf * as_ * cs) * (c6 - c0)) / (a * a)); [field; lra|].
    rewrite Hs, Hal. rewrite !Rmult_1_l, (Rplus_comm (as_ * as_ * cs * cs)), Hen. field. lra.
  - transitivity (1 / 2 * (be2 * be2 + be3 * be3) * (s * s * (c5 + c1) - (c1 - c5))); [field; lra|rewrite B, Hs; field].
  - transitivity (1 / 2 * ((af * af + as_ * as_) * (c0 + c6)) - (1 / 2) * ((af * af * cf * cf + s * s * (as_ * as_ * cs * cs)) * (c0 - c6) + (s * s - 1) * (af * cf * as_ * cs) * (c4 - c2)) / (a * a)); [field; lra|].
    rewrite Hs, Hal. rewrite !Rmult_1_l, Hen. field. lra.
Qed.

(** Rows of the left matrix are left eigenvectors. *)
Lemma ma_eig : forall r a cf cs af as_ b1 bt s be2 be3 u v0 vx vy vz vp vby vbz, waves r a cf cs af as_ b1 (be2 * bt) (be3 * bt) bt s -> be2 * be2 + be3 * be3 = 1 ->
  let d := r * r in let by_ := be2 * bt in let bz := be3 * bt in let ca := s * b1 / r in
  let L := left_ma (1 / d) r (a * a) a cf cs af as_ be2 be3 s v0 vx vy vz vp vby vbz in
  let M := left_ma (1 / d) r (a * a) a cf cs af as_ be2 be3 s (u * v0 + d * vx) (u * vx + (vp + (by_ * vby + bz * vbz)) / d) (u * vy - b1 / d * vby) (u * vz - b1 / d * vbz)
     (u * vp + (a * a * d) * vx) (u * vby + by_ * vx - b1 * vy) (u * vbz + bz * vx - b1 * vz) in
  M 0%nat = (u - cf) * L 0%nat /\ M 1%nat = (u - ca) * L 1%nat /\ M 2%nat = (u - cs) * L 2%nat /\ M 3%nat = u * L 3%nat /\ M 4%nat = (u + cs) * L 4%nat /\ M 5%nat = (u + ca) * L 5%nat /\ M 6%nat = (u + cf) * L 6%nat.
Proof.
  intros r a cf cs af as_ b1 bt s be2 be3 u v0 vx vy vz vp vby vbz W B d by_ bz ca L M. destruct W as [Hr Ha Hcf Hcs _ Hs _ Hal Hen E1 E2 E3 _ _ _].
  (* the coefficients that must vanish *)
  assert (K1 : af * (a * a) + a * as_ * bt / r - af * (cf * cf) = 0) by (replace (a * as_ * bt / r) with ((as_ * a * bt) / r) by (field; lra); rewrite <- E1; field; lra).
  assert (SB : s * b1 = cs * cf * r / a) by (rewrite E3; field; lra).
  assert (SB2 : b1 = s * (cs * cf * r / a)) by (rewrite <- SB; transitivity (s * s * b1); [rewrite Hs; ring|ring]).
  assert (K2 : cf * as_ * a * r - af * cf * bt - cs * as_ * (s * b1) = 0).
  { rewrite SB. transitivity (cf / a * (as_ * r * (a * a - cs * cs) - af * bt * a)); [field; lra|rewrite E2; ring]. }
  assert (K3 : s * (cf * cs) - a * b1 / r = 0). { rewrite SB2. field. lra. }
  assert (K4 : as_ * (a * a) - a * af * bt / r - as_ * (cs * cs) = 0).
  { replace (a * af * bt / r) with ((af * bt * a) / r) by (field; lra). rewrite E2. field. lra. }
  assert (K5 : as_ * cs * bt - cf * af * (s * b1) + cs * a * af * r = 0).
  { rewrite SB. replace (as_ * cs * bt) with (cs * (as_ * a * bt) / a) by (field; lra). rewrite <- E1. field. lra. }
  refine (conj _ (conj _ (conj _ (conj _ (conj _ (conj _ _)))))); unfold L, M, left_ma, d, by_, bz, ca; cbv zeta.
  - apply Rminus_diag_uniq. transitivity (1 / 2 / (a * a) * ((af * (a * a) + a * as_ * bt / r * (be2 * be2 + be3 * be3) - af * (cf * cf)) * vx + as_ * (s * (cf * cs) - a * b1 / r) * (be2 * vy + be3 * vz) + (cf * as_ * a * r - af * cf * bt - cs * as_ * (s * b1)) / (r * r) * (be2 * vby + be3 * vbz))); [field; lra|].
    rewrite B, Rmult_1_r, K1, K2, K3. field. lra.
  - apply Rminus_diag_uniq. transitivity (1 / 2 * (b1 / (r * r)) * (s * s - 1) * (be2 * vbz - be3 * vby)); [field; lra|rewrite Hs; ring].
  - apply Rminus_diag_uniq. transitivity (1 / 2 / (a * a) * ((as_ * (a * a) - a * af * bt / r * (be2 * be2 + be3 * be3) - as_ * (cs * cs)) * vx - af * (s * (cf * cs) - a * b1 / r) * (be2 * vy + be3 * vz) - (as_ * cs * bt - cf * af * (s * b1) + cs * a * af * r) / (r * r) * (be2 * vby + be3 * vbz))); [field; lra|].
    rewrite B, Rmult_1_r, K4, K5, K3. field. lra.
  - field. lra.
  - apply Rminus_diag_uniq. transitivity (1 / 2 / (a * a) * ((as_ * (a * a) - a * af * bt / r * (be2 * be2 + be3 * be3) - as_ * (cs * cs)) * vx - af * (s * (cf * cs) - a * b1 / r) * (be2 * vy + be3 * vz) + (as_ * cs * bt - cf * af * (s * b1) + cs * a * af * r) / (r * r) * (be2 * vby + be3 * vbz))); [field; lra|].
    rewrite B, Rmult_1_r, K4, K5, K3. field. lra.
  - apply Rminus_diag_uniq. transitivity (- (1 / 2) * (b1 / (r * r)) * (s * s - 1) * (be2 * vbz - be3 * vby)); [field; lra|rewrite Hs; ring].
  - apply Rminus_diag_uniq. transitivity (1 / 2 / (a * a) * ((af * (a * a) + a * as_ * bt / r * (be2 * be2 + be3 * be3) - af * (cf * cf)) * vx + as_ * (s * (cf * cs) - a * b1 / r) * (be2 * vy + be3 * vz) - (cf * as_ * a * r - af * cf * bt - cs * as_ * (s * b1)) / (r * r) * (be2 * vby + be3 * vbz))); [field; lra|].
    rewrite B, Rmult_1_r, K1, K2, K3. field. lra.
Qed.

(** Isothermal MHD: the adiabatic rows with pressure a^2 times density. *)
Lemma mi_ma : forall r a cf cs af as_ be2 be3 s v0 vx vy vz vby vbz, 0 < r -> 0 < a ->
  let A := left_ma (1 / (r * r)) r (a * a) a cf cs af as_ be2 be3 s v0 vx vy vz (a * a * v0) vby vbz in
  let I := left_mi (1 / (r * r)) r a cf cs af as_ be2 be3 s v0 vx vy vz vby vbz in
  I 0%nat = A 0%nat /\ I 1%nat = A 1%nat /\ I 2%nat = A 2%nat /\ I 3%nat = A 4%nat /\ I 4%nat = A 5%nat /\ I 5%nat = A 6%nat /\ A 3%nat = 0.
Proof.
  intros r a cf cs af as_ be2 be3 s v0 vx vy vz vby vbz Hr Ha A I. unfold A, I, left_ma, left_mi, SQR; cbv zeta. refine (conj _ (conj _ (conj _ (conj _ (conj _ (conj _ _)))))); field; lra.
Qed.
