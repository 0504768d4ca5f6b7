(** The curl on a periodic mesh. *)
From Coq Require Import Reals ZArith List Bool Lra Lia Psatz.
From Verif Require Import Fv_Model Fv_Spec Pos_Model Lud_Spec Lud_Proofs Tor_Spec Tor_Proofs Dif_Model Dif_Spec Dif_Proofs Res_Model Res_Spec.
Import ListNotations.
Local Open Scope R_scope.

Lemma row_ext_in n f g : (forall i, (0 <= i < Z.of_nat n)%Z -> f i = g i) -> row_sum n f = row_sum n g.
Proof. intros H. unfold row_sum. apply total_ext. intros i Hi. apply H. lia. Qed.
Lemma box_ext_in n1 n2 n3 f g : (forall k j i, (0 <= k < Z.of_nat n3)%Z -> (0 <= j < Z.of_nat n2)%Z -> (0 <= i < Z.of_nat n1)%Z -> f k j i = g k j i) -> box_sum n1 n2 n3 f = box_sum n1 n2 n3 g.
Proof. intros H. unfold box_sum. apply row_ext_in. intros k Hk. apply row_ext_in. intros j Hj. apply row_ext_in. intros i Hi. auto. Qed.

Section Torus.
Variables n1 n2 n3 : nat.
Variables dx dy dz : R.
Hypothesis Hx : 0 < dx.
Hypothesis Hy : 0 < dy.
Hypothesis Hz : 0 < dz.
Notation box := (box_sum n1 n2 n3).
Notation per := (periodic n1 n2 n3).
Definition D1p (f : arr) : arr := fun k j i => (f k j (i + 1)%Z - f k j i) / dx.
Definition D2p (f : arr) : arr := fun k j i => (f k (j + 1)%Z i - f k j i) / dy.
Definition D3p (f : arr) : arr := fun k j i => (f (k + 1)%Z j i - f k j i) / dz.
Definition D1m (f : arr) : arr := fun k j i => (f k j i - f k j (i - 1)%Z) / dx.
Definition D2m (f : arr) : arr := fun k j i => (f k j i - f k (j - 1)%Z i) / dy.
Definition D3m (f : arr) : arr := fun k j i => (f k j i - f (k - 1)%Z j i) / dz.

Lemma per_D1p f : per f -> per (D1p f).
Proof. intros P. unfold D1p. apply per_div; [apply per_minus; [apply per_ip|]; auto|apply per_const]. Qed.
Lemma per_D2p f : per f -> per (D2p f).
Proof. intros P. unfold D2p. apply per_div; [apply per_minus; [apply per_jp|]; auto|apply per_const]. Qed.
Lemma per_D3p f : per f -> per (D3p f).
Proof. intros P. unfold D3p. apply per_div; [apply per_minus; [apply per_kp|]; auto|apply per_const]. Qed.
Lemma per_D1m f : per f -> per (D1m f).
Proof. intros P. unfold D1m. apply per_div; [apply per_minus; [|apply per_im]; auto|apply per_const]. Qed.
Lemma per_D2m f : per f -> per (D2m f).
Proof. intros P. unfold D2m. apply per_div; [apply per_minus; [|apply per_jm]; auto|apply per_const]. Qed.
Lemma per_D3m f : per f -> per (D3m f).
Proof. intros P. unfold D3m. apply per_div; [apply per_minus; [|apply per_km]; auto|apply per_const]. Qed.

Lemma pt1 v F : per v -> per F -> box (fun k j i => v k j i * D1p F k j i) = - box (fun k j i => F k j i * D1m v k j i).
Proof.
  intros P Q. transitivity (/ dx * box (fun k j i => v k j i * (F k j (i + 1)%Z - F k j i))); [rewrite <- box_scal; apply box_ext; intros; unfold D1p; field; lra|].
  rewrite parts_i by auto. rewrite <- Ropp_mult_distr_r. f_equal. rewrite <- box_scal. apply box_ext. intros. unfold D1m. field. lra.
Qed.
Lemma pt2 v F : per v -> per F -> box (fun k j i => v k j i * D2p F k j i) = - box (fun k j i => F k j i * D2m v k j i).
Proof.
  intros P Q. transitivity (/ dy * box (fun k j i => v k j i * (F k (j + 1)%Z i - F k j i))); [rewrite <- box_scal; apply box_ext; intros; unfold D2p; field; lra|].
  rewrite parts_j by auto. rewrite <- Ropp_mult_distr_r. f_equal. rewrite <- box_scal. apply box_ext. intros. unfold D2m. field. lra.
Qed.
Lemma pt3 v F : per v -> per F -> box (fun k j i => v k j i * D3p F k j i) = - box (fun k j i => F k j i * D3m v k j i).
Proof.
  intros P Q. transitivity (/ dz * box (fun k j i => v k j i * (F (k + 1)%Z j i - F k j i))); [rewrite <- box_scal; apply box_ext; intros; unfold D3p; field; lra|].
  rewrite parts_k by auto. rewrite <- Ropp_mult_distr_r. f_equal. rewrite <- box_scal. apply box_ext. intros. unfold D3m. field. lra.
Qed.
(** Mixed differences of two fields can be exchanged. *)
Lemma cross12 f g : per f -> per g -> box (fun k j i => D1p f k j i * D2p g k j i) = box (fun k j i => D2m f k j i * D1m g k j i).
Proof.
  intros P Q. transitivity (box (fun k j i => D2p g k j i * D1p f k j i)); [apply box_ext; intros; ring|]. rewrite pt1 by (auto using per_D2p).
  transitivity (- box (fun k j i => f k j i * D2p (D1m g) k j i)); [f_equal; apply box_ext; intros; unfold D1m, D2p; field; lra|]. rewrite pt2 by (auto using per_D1m). rewrite Ropp_involutive. apply box_ext. intros. ring.
Qed.
Lemma cross23 f g : per f -> per g -> box (fun k j i => D2p f k j i * D3p g k j i) = box (fun k j i => D3m f k j i * D2m g k j i).
Proof.
  intros P Q. transitivity (box (fun k j i => D3p g k j i * D2p f k j i)); [apply box_ext; intros; ring|]. rewrite pt2 by (auto using per_D3p).
  transitivity (- box (fun k j i => f k j i * D3p (D2m g) k j i)); [f_equal; apply box_ext; intros; unfold D2m, D3p; field; lra|]. rewrite pt3 by (auto using per_D2m). rewrite Ropp_involutive. apply box_ext. intros. ring.
Qed.
Lemma cross31 f g : per f -> per g -> box (fun k j i => D3p f k j i * D1p g k j i) = box (fun k j i => D1m f k j i * D3m g k j i).
Proof.
  intros P Q. transitivity (box (fun k j i => D1p g k j i * D3p f k j i)); [apply box_ext; intros; ring|]. rewrite pt3 by (auto using per_D1p).
  transitivity (- box (fun k j i => f k j i * D1p (D3m g) k j i)); [f_equal; apply box_ext; intros; unfold D3m, D1p; field; lra|]. rewrite pt1 by (auto using per_D3m). rewrite Ropp_involutive. apply box_ext. intros. ring.
Qed.
Lemma sq1 f : per f -> box (fun k j i => D1m f k j i ^ 2) = box (fun k j i => D1p f k j i ^ 2).
Proof. intros P. rewrite <- (box_im n1 n2 n3 (fun k j i => D1p f k j i ^ 2)) by (apply (per_op n1 n2 n3 (fun x _ => x ^ 2) (D1p f) (D1p f)); apply per_D1p; auto). apply box_ext. intros. unfold D1p, D1m. replace (i - 1 + 1)%Z with i by lia. reflexivity. Qed.
Lemma sq2 f : per f -> box (fun k j i => D2m f k j i ^ 2) = box (fun k j i => D2p f k j i ^ 2).
Proof. intros P. rewrite <- (box_jm n1 n2 n3 (fun k j i => D2p f k j i ^ 2)) by (apply (per_op n1 n2 n3 (fun x _ => x ^ 2) (D2p f) (D2p f)); apply per_D2p; auto). apply box_ext. intros. unfold D2p, D2m. replace (j - 1 + 1)%Z with j by lia. reflexivity. Qed.
Lemma sq3 f : per f -> box (fun k j i => D3m f k j i ^ 2) = box (fun k j i => D3p f k j i ^ 2).
Proof. intros P. rewrite <- (box_km n1 n2 n3 (fun k j i => D3p f k j i ^ 2)) by (apply (per_op n1 n2 n3 (fun x _ => x ^ 2) (D3p f) (D3p f)); apply per_D3p; auto). apply box_ext. intros. unfold D3p, D3m. replace (k - 1 + 1)%Z with k by lia. reflexivity. Qed.

Definition C1 (E1 E2 E3 : arr) : arr := fun k j i => D2p E3 k j i - D3p E2 k j i.
Definition C2 (E1 E2 E3 : arr) : arr := fun k j i => D3p E1 k j i - D1p E3 k j i.
Definition C3 (E1 E2 E3 : arr) : arr := fun k j i => D1p E2 k j i - D2p E1 k j i.
Definition n2of (f : arr) : R := box (fun k j i => f k j i ^ 2).
Definition grads (f : arr) : R := n2of (D1p f) + n2of (D2p f) + n2of (D3p f).

Lemma curl_norm E1 E2 E3 : per E1 -> per E2 -> per E3 -> n2of (C1 E1 E2 E3) + n2of (C2 E1 E2 E3) + n2of (C3 E1 E2 E3) <= grads E1 + grads E2 + grads E3.
Proof.
  intros P1 P2 P3.
  assert (S : forall f g : arr, n2of (fun k j i => f k j i - g k j i) = n2of f + n2of g - 2 * box (fun k j i => f k j i * g k j i)).
  { intros. unfold n2of. rewrite <- box_scal, <- box_plus, <- box_minus. apply box_ext. intros. ring. }
  unfold C1, C2, C3. rewrite !S. rewrite (cross23 E3 E2), (cross31 E1 E3), (cross12 E2 E1) by auto.
  assert (D : 0 <= n2of (fun k j i => D1m E1 k j i + D2m E2 k j i + D3m E3 k j i)) by (apply box_pos; intros; apply pow2_ge_0).
  assert (T : n2of (fun k j i => D1m E1 k j i + D2m E2 k j i + D3m E3 k j i) = n2of (D1m E1) + n2of (D2m E2) + n2of (D3m E3) + 2 * box (fun k j i => D3m E3 k j i * D2m E2 k j i) + 2 * box (fun k j i => D1m E1 k j i * D3m E3 k j i) + 2 * box (fun k j i => D2m E2 k j i * D1m E1 k j i)).
  { unfold n2of. rewrite <- !box_scal, <- !box_plus. apply box_ext. intros. ring. }
  assert (Q1 : n2of (D1m E1) = n2of (D1p E1)) by (apply sq1; auto). assert (Q2 : n2of (D2m E2) = n2of (D2p E2)) by (apply sq2; auto). assert (Q3 : n2of (D3m E3) = n2of (D3p E3)) by (apply sq3; auto).
  unfold grads. lra.
Qed.
Lemma bound1 f : per f -> n2of (D1p f) <= 4 / (dx * dx) * n2of f.
Proof.
  intros P. unfold n2of. replace (4 / (dx * dx) * box (fun k j i => f k j i ^ 2)) with (2 / (dx * dx) * (box (fun k j i => f k j (i + 1)%Z ^ 2) + box (fun k j i => f k j i ^ 2))).
  - rewrite <- box_plus, <- box_scal. apply box_le. intros. unfold D1p. assert (0 < / (dx * dx)) by (apply Rinv_0_lt_compat; nra).
    replace (((f k j (i + 1)%Z - f k j i) / dx) ^ 2) with ((f k j (i + 1)%Z - f k j i) ^ 2 * / (dx * dx)) by (field; lra). replace (2 / (dx * dx) * (f k j (i + 1)%Z ^ 2 + f k j i ^ 2)) with (2 * (f k j (i + 1)%Z ^ 2 + f k j i ^ 2) * / (dx * dx)) by (field; lra).
    apply Rmult_le_compat_r; [lra|]. pose proof (pow2_ge_0 (f k j (i + 1)%Z + f k j i)). nra.
  - rewrite (box_i n1 n2 n3 (fun k j i => f k j i ^ 2)); [field; lra|]. apply (per_op n1 n2 n3 (fun x _ => x ^ 2) f f); auto.
Qed.
Lemma bound2 f : per f -> n2of (D2p f) <= 4 / (dy * dy) * n2of f.
Proof.
  intros P. unfold n2of. replace (4 / (dy * dy) * box (fun k j i => f k j i ^ 2)) with (2 / (dy * dy) * (box (fun k j i => f k (j + 1)%Z i ^ 2) + box (fun k j i => f k j i ^ 2))).
  - rewrite <- box_plus, <- box_scal. apply box_le. intros. unfold D2p. assert (0 < / (dy * dy)) by (apply Rinv_0_lt_compat; nra).
    replace (((f k (j + 1)%Z i - f k j i) / dy) ^ 2) with ((f k (j + 1)%Z i - f k j i) ^ 2 * / (dy * dy)) by (field; lra). replace (2 / (dy * dy) * (f k (j + 1)%Z i ^ 2 + f k j i ^ 2)) with (2 * (f k (j + 1)%Z i ^ 2 + f k j i ^ 2) * / (dy * dy)) by (field; lra).
    apply Rmult_le_compat_r; [lra|]. pose proof (pow2_ge_0 (f k (j + 1)%Z i + f k j i)). nra.
  - rewrite (box_j n1 n2 n3 (fun k j i => f k j i ^ 2)); [field; lra|]. apply (per_op n1 n2 n3 (fun x _ => x ^ 2) f f); auto.
Qed.
Lemma bound3 f : per f -> n2of (D3p f) <= 4 / (dz * dz) * n2of f.
Proof.
  intros P. unfold n2of. replace (4 / (dz * dz) * box (fun k j i => f k j i ^ 2)) with (2 / (dz * dz) * (box (fun k j i => f (k + 1)%Z j i ^ 2) + box (fun k j i => f k j i ^ 2))).
  - rewrite <- box_plus, <- box_scal. apply box_le. intros. unfold D3p. assert (0 < / (dz * dz)) by (apply Rinv_0_lt_compat; nra).
    replace (((f (k + 1)%Z j i - f k j i) / dz) ^ 2) with ((f (k + 1)%Z j i - f k j i) ^ 2 * / (dz * dz)) by (field; lra). replace (2 / (dz * dz) * (f (k + 1)%Z j i ^ 2 + f k j i ^ 2)) with (2 * (f (k + 1)%Z j i ^ 2 + f k j i ^ 2) * / (dz * dz)) by (field; lra).
    apply Rmult_le_compat_r; [lra|]. pose proof (pow2_ge_0 (f (k + 1)%Z j i + f k j i)). nra.
  - rewrite (box_k n1 n2 n3 (fun k j i => f k j i ^ 2)); [field; lra|]. apply (per_op n1 n2 n3 (fun x _ => x ^ 2) f f); auto.
Qed.
(** One cell along a direction: no differences. *)
Lemma flat2 f k j i : n2 = 1%nat -> per f -> f k (j + 1)%Z i = f k j i.
Proof. intros E P. rewrite E in P. apply (P k j i). Qed.
Lemma flat3 f k j i : n3 = 1%nat -> per f -> f (k + 1)%Z j i = f k j i.
Proof. intros E P. rewrite E in P. apply (P k j i). Qed.
Lemma flat2m f k j i : n2 = 1%nat -> per f -> f k (j - 1)%Z i = f k j i.
Proof. intros E P. rewrite <- (flat2 f k (j - 1) i E P). f_equal; lia. Qed.
Lemma flat3m f k j i : n3 = 1%nat -> per f -> f (k - 1)%Z j i = f k j i.
Proof. intros E P. rewrite <- (flat3 f (k - 1) j i E P). f_equal; lia. Qed.
Definition stiff : R := 4 / (dx * dx) + (if Nat.eqb n2 1 then 0 else 4 / (dy * dy)) + (if Nat.eqb n3 1 then 0 else 4 / (dz * dz)).
Lemma grads_bound f : per f -> grads f <= stiff * n2of f.
Proof.
  intros P. unfold grads, stiff. pose proof (bound1 f P). pose proof (bound2 f P). pose proof (bound3 f P).
  assert (Z2 : n2 = 1%nat -> n2of (D2p f) = 0). { intros E. unfold n2of. rewrite <- (box_zero n1 n2 n3). apply box_ext. intros. unfold D2p. rewrite (flat2 f k j i E P). unfold Rdiv. ring. }
  assert (Z3 : n3 = 1%nat -> n2of (D3p f) = 0). { intros E. unfold n2of. rewrite <- (box_zero n1 n2 n3). apply box_ext. intros. unfold D3p. rewrite (flat3 f k j i E P). unfold Rdiv. ring. }
  destruct (Nat.eqb_spec n2 1), (Nat.eqb_spec n3 1); rewrite ?Z2, ?Z3 by auto; lra.
Qed.
Lemma energy_identity b1 b2 b3 E1 E2 E3 dt : per b1 -> per b2 -> per b3 -> per E1 -> per E2 -> per E3 ->
  box (fun k j i => (b1 k j i - dt * C1 E1 E2 E3 k j i) ^ 2 + (b2 k j i - dt * C2 E1 E2 E3 k j i) ^ 2 + (b3 k j i - dt * C3 E1 E2 E3 k j i) ^ 2) = box (fun k j i => b1 k j i ^ 2 + b2 k j i ^ 2 + b3 k j i ^ 2)
  - 2 * dt * box (fun k j i => E1 k j i * (D2m b3 k j i - D3m b2 k j i) + E2 k j i * (D3m b1 k j i - D1m b3 k j i) + E3 k j i * (D1m b2 k j i - D2m b1 k j i))
  + dt * (dt * (n2of (C1 E1 E2 E3) + n2of (C2 E1 E2 E3) + n2of (C3 E1 E2 E3))).
Proof.
  intros B1 B2 B3 P1 P2 P3.
  set (W := box (fun k j i => E1 k j i * (D2m b3 k j i - D3m b2 k j i) + E2 k j i * (D3m b1 k j i - D1m b3 k j i) + E3 k j i * (D1m b2 k j i - D2m b1 k j i))).
  assert (EW : box (fun k j i => b1 k j i * C1 E1 E2 E3 k j i + b2 k j i * C2 E1 E2 E3 k j i + b3 k j i * C3 E1 E2 E3 k j i) = W).
  { transitivity (box (fun k j i => b1 k j i * D2p E3 k j i) - box (fun k j i => b1 k j i * D3p E2 k j i) + (box (fun k j i => b2 k j i * D3p E1 k j i) - box (fun k j i => b2 k j i * D1p E3 k j i)) + (box (fun k j i => b3 k j i * D1p E2 k j i) - box (fun k j i => b3 k j i * D2p E1 k j i))).
    - rewrite <- !box_minus, <- !box_plus. apply box_ext. intros. unfold C1, C2, C3. ring.
    - rewrite !pt1, !pt2, !pt3 by auto. unfold W.
      transitivity (box (fun k j i => E1 k j i * D2m b3 k j i) - box (fun k j i => E1 k j i * D3m b2 k j i) + (box (fun k j i => E2 k j i * D3m b1 k j i) - box (fun k j i => E2 k j i * D1m b3 k j i)) + (box (fun k j i => E3 k j i * D1m b2 k j i) - box (fun k j i => E3 k j i * D2m b1 k j i))); [ring|].
      rewrite <- !box_minus, <- !box_plus. apply box_ext. intros. ring. }
  rewrite <- EW. unfold n2of. rewrite <- !box_plus, <- !box_scal, <- !box_minus, <- !box_plus. apply box_ext. intros. ring.
Qed.
Lemma energy_step b1 b2 b3 E1 E2 E3 dt : per b1 -> per b2 -> per b3 -> per E1 -> per E2 -> per E3 -> 0 <= dt ->
  (forall k j i, dt * stiff * (E1 k j i ^ 2 + E2 k j i ^ 2 + E3 k j i ^ 2) <= 2 * (E1 k j i * (D2m b3 k j i - D3m b2 k j i) + E2 k j i * (D3m b1 k j i - D1m b3 k j i) + E3 k j i * (D1m b2 k j i - D2m b1 k j i))) ->
  box (fun k j i => (b1 k j i - dt * C1 E1 E2 E3 k j i) ^ 2 + (b2 k j i - dt * C2 E1 E2 E3 k j i) ^ 2 + (b3 k j i - dt * C3 E1 E2 E3 k j i) ^ 2) <= box (fun k j i => b1 k j i ^ 2 + b2 k j i ^ 2 + b3 k j i ^ 2).
Proof.
  intros B1 B2 B3 P1 P2 P3 Hdt H. rewrite energy_identity by auto. set (W := box (fun k j i => E1 k j i * _ + _ + _)).
  assert (N : n2of (C1 E1 E2 E3) + n2of (C2 E1 E2 E3) + n2of (C3 E1 E2 E3) <= stiff * (n2of E1 + n2of E2 + n2of E3)).
  { pose proof (curl_norm E1 E2 E3 P1 P2 P3). pose proof (grads_bound E1 P1). pose proof (grads_bound E2 P2). pose proof (grads_bound E3 P3). lra. }
  assert (HW : dt * (stiff * (n2of E1 + n2of E2 + n2of E3)) <= 2 * W).
  { unfold n2of, W. rewrite <- !box_plus, <- !box_scal. apply box_le. intros. specialize (H k j i). lra. }
  assert (dt * (dt * (n2of (C1 E1 E2 E3) + n2of (C2 E1 E2 E3) + n2of (C3 E1 E2 E3))) <= dt * (2 * W)); [|lra]. apply Rmult_le_compat_l; auto. eapply Rle_trans; [apply Rmult_le_compat_l; [exact Hdt|exact N]|exact HW].
Qed.
End Torus.
