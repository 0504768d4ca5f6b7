From Coq Require Import Reals ZArith List Bool Lra Lia FunctionalExtensionality Arith.
From Verif Require Import RK_Spec Fv_Model Time_Model Time_Proofs Time_Proofs2 Sts_Model Sts_Spec Sts_Proofs Sts_Proofs2.
Import ListNotations.
Local Open Scope R_scope.

(** ** Number of stages *)
Lemma odd_up : forall n, let m := if Z.eqb (n mod 2) 0 then (n + 1)%Z else n in Z.odd m = true /\ (n <= m)%Z /\ forall k, Z.odd k = true -> (n <= k)%Z -> (m <= k)%Z.
Proof.
  intros n m. unfold m. rewrite Zmod_even. destruct (Z.even n) eqn:E; cbn [Z.eqb].
  - split; [|split; [lia|]]. + rewrite Z.odd_add. change (Z.odd 1) with true. rewrite <- Z.negb_even, E. reflexivity.
    + intros k Hk Hn. assert (k <> n). { intros ->. rewrite <- Z.negb_even, E in Hk. discriminate Hk. } lia.
  - split; [|split; [lia|auto]]. rewrite <- Z.negb_even, E. reflexivity.
Qed.
(** The ceiling of the positive root of x^2 + x = q, strictly above. *)
Lemma root_stages : forall q, 0 <= q -> let x := 1 / 2 * (-1 + sqrt (1 + 4 * q)) in
  0 <= x /\ x * x + x = q.
Proof.
  intros q Hq x. assert (S1 : 1 <= sqrt (1 + 4 * q)) by (rewrite <- sqrt_1 at 1; apply sqrt_le_1; lra).
  assert (S2 : sqrt (1 + 4 * q) * sqrt (1 + 4 * q) = 1 + 4 * q) by (apply sqrt_sqrt; lra). unfold x. split; nra.
Qed.
Lemma trunc_above : forall x (m : Z), 0 <= x -> (1 <= m)%Z -> (x < IZR m <-> (trunc x + 1 <= m)%Z).
Proof.
  intros x m Hx Hm. destruct (trunc_nonneg x Hx) as [T0 [T1 T2]]. split; intro H.
  - assert (trunc x < m)%Z by (apply lt_IZR; lra). lia.
  - apply IZR_le in H. rewrite plus_IZR in H. lra.
Qed.
Lemma sq_mono : forall x y, 0 <= x -> 0 <= y -> (x * x + x < y * y + y <-> x < y).
Proof. intros x y Hx Hy. split; intro H; [|nra]. destruct (Rlt_le_dec x y); [assumption|nra]. Qed.
Lemma stages_root : forall sc dt dtp, 0 <= dt -> 0 < dtp -> exists x, 0 <= x /\ (sc = rkl2 -> 1 <= x) /\
  nstages sc dt dtp = (let n := (trunc x + 1)%Z in if Z.eqb (n mod 2) 0 then (n + 1)%Z else n) /\
  forall m, (1 <= m)%Z -> (x < IZR m <-> step_of sc dt < dtp * stable_ratio sc m).
Proof.
  intros sc dt dtp Hdt Hp. set (r := dt / dtp). assert (Hr : 0 <= r) by (unfold r; apply Rle_mult_inv_pos; lra). assert (Er : dt = r * dtp) by (unfold r; field; lra).
  destruct sc.
  - destruct (root_stages (2 * r)) as [X0 X1]; [lra|]. set (x := 1 / 2 * (-1 + sqrt (1 + 4 * (2 * r)))) in *. exists x. split; [exact X0|]. split; [intro H; discriminate H|]. split.
    + unfold nstages. replace (1 + 8 * dt / dtp) with (1 + 4 * (2 * r)) by (unfold r; field; lra). reflexivity.
    + intros m Hm. apply IZR_le in Hm. cbn [step_of stable_ratio]. rewrite Er. split; intro H.
      * apply sq_mono in H; [|lra|lra]. rewrite X1 in H. nra.
      * apply sq_mono; [lra|lra|]. rewrite X1. assert (r < (IZR m * IZR m + IZR m) / 2) by (apply (Rmult_lt_reg_r dtp); [lra|]; lra). lra.
  - destruct (root_stages (2 + 2 * r)) as [X0 X1]; [lra|]. set (x := 1 / 2 * (-1 + sqrt (1 + 4 * (2 + 2 * r)))) in *. exists x. split; [exact X0|]. split; [intros _; nra|]. split.
    + unfold nstages. replace (9 + 16 * (1 / 2 * dt) / dtp) with (1 + 4 * (2 + 2 * r)) by (unfold r; field; lra). reflexivity.
    + intros m Hm. apply IZR_le in Hm. cbn [step_of stable_ratio]. rewrite Er. split; intro H.
      * apply sq_mono in H; [|lra|lra]. rewrite X1 in H. nra.
      * apply sq_mono; [lra|lra|]. rewrite X1. assert (r / 2 < (IZR m * IZR m + IZR m - 2) / 4) by (apply (Rmult_lt_reg_r dtp); [lra|]; lra). lra.
Qed.
Theorem nstages_ok : forall sc dt dtp, 0 <= dt -> 0 < dtp -> let n := nstages sc dt dtp in
  (1 <= n)%Z /\ (sc = rkl2 -> (3 <= n)%Z) /\ Z.odd n = true /\ step_of sc dt < dtp * stable_ratio sc n /\
  forall m, (1 <= m)%Z -> Z.odd m = true -> step_of sc dt < dtp * stable_ratio sc m -> (n <= m)%Z.
Proof.
  intros sc dt dtp Hdt Hp n. destruct (stages_root sc dt dtp Hdt Hp) as [x [X0 [X2 [En Hm]]]]. fold n in En. cbv zeta in En.
  destruct (odd_up (trunc x + 1)) as [O1 [O2 O3]]. cbv zeta in O1, O2, O3. rewrite <- En in O1, O2, O3. destruct (trunc_nonneg x X0) as [T0 [T1 T2]].
  assert (Hn1 : (1 <= n)%Z) by lia. split; [exact Hn1|]. split; [|split; [exact O1|split]].
  - intro E. specialize (X2 E). assert (1 <= trunc x)%Z by (apply Z.lt_succ_r; apply lt_IZR; rewrite succ_IZR; lra). assert (n <> 2)%Z by (intro E2; rewrite E2 in O1; discriminate O1). lia.
  - apply Hm; [exact Hn1|]. apply trunc_above; assumption.
  - intros m Hm1 Om Hs. apply O3; [exact Om|]. apply trunc_above; [assumption|assumption|]. apply Hm; assumption.
Qed.
Lemma w1_ratio : forall sc n, (1 <= n)%Z -> (sc = rkl2 -> (2 <= n)%Z) -> 0 < stable_ratio sc n /\ w1_of sc (Z.to_nat n) = / stable_ratio sc n.
Proof.
  intros sc n H1 H2. unfold w1_of, stable_ratio. rewrite INR_IZR_INZ, Z2Nat.id by lia. destruct sc.
  - apply IZR_le in H1. split; [nra|]. field. intro X0; nra.
  - specialize (H2 eq_refl). apply IZR_le in H2. split; [nra|]. field. intro X0; nra.
Qed.
Lemma stable_arg : forall sc dt dtp lam, 0 <= dt -> 0 < dtp -> -1 <= 1 + dtp * lam <= 1 -> let s := Z.to_nat (nstages sc dt dtp) in
  -2 <= w1_of sc s * (step_of sc dt * lam) <= 0.
Proof.
  intros sc dt dtp lam Hdt Hp Hl s. destruct (nstages_ok sc dt dtp Hdt Hp) as [N1 [N3 [_ [N4 _]]]].
  destruct (w1_ratio sc (nstages sc dt dtp) N1) as [W1 W2]; [intro E; specialize (N3 E); lia|]. fold s in W2. rewrite W2. set (q := stable_ratio sc (nstages sc dt dtp)) in *. clearbody q.
  assert (T0 : 0 <= step_of sc dt) by (destruct sc; cbn [step_of]; lra). set (tau := step_of sc dt) in *. clearbody tau.
  set (a := / q * tau). assert (0 <= a). { unfold a. apply Rmult_le_pos; [left; apply Rinv_0_lt_compat; lra|lra]. }
  assert (a <= dtp). { unfold a. apply (Rmult_le_reg_l q); [lra|]. rewrite <- Rmult_assoc, Rinv_r by lra. lra. }
  replace (/ q * (tau * lam)) with (a * lam) by (unfold a; ring). assert (lam <= 0) by nra. nra.
Qed.

(** ** Order of accuracy for linear right-hand sides *)
Definition d0 (k : nat) : R := if Nat.eqb k 0 then 1 else 0.
Definition d1 (k : nat) : R := if Nat.eqb k 1 then 1 else 0.
Definition shift (c : nat -> R) (k : nat) : R := match k with O => 0 | S k => c k end.
Definition poly {I} (G : (I -> R) -> I -> R) (tau : R) (c : nat -> R) (N : nat) (v : I -> R) (x : I) : R :=
  sum_f_R0 (fun k => c k * tau ^ k * iterate G k v x) N.
Lemma poly_lin : forall I (G : (I -> R) -> I -> R) tau N v x a b c d, poly G tau (fun k => a * c k + b * d k) N v x = a * poly G tau c N v x + b * poly G tau d N v x.
Proof. intros. unfold poly. induction N as [|N IH]; cbn [sum_f_R0]; [ring|]. rewrite IH. ring. Qed.
Lemma poly_ext : forall I (G : (I -> R) -> I -> R) tau N v x c d, (forall k, (k <= N)%nat -> c k = d k) -> poly G tau c N v x = poly G tau d N v x.
Proof. intros I G tau N v x c d H. unfold poly. apply sum_eq. intros k Hk. rewrite (H k Hk). reflexivity. Qed.
Lemma lin_sum : forall I (G : (I -> R) -> I -> R), linear G -> forall tau c N v x,
  G (poly G tau c N v) x = sum_f_R0 (fun k => c k * tau ^ k * iterate G (S k) v x) N.
Proof.
  intros I G HG tau c N v. induction N as [|N IH]; intro x.
  - cbn [sum_f_R0]. change (poly G tau c 0 v) with (fun y => (c 0%nat * tau ^ 0) * iterate G 0 v y). rewrite (lin_scale _ _ HG). reflexivity.
  - cbn [sum_f_R0]. rewrite <- IH. 
    replace (poly G tau c (S N) v) with (fun y => 1 * poly G tau c N v y + (c (S N) * tau ^ S N) * iterate G (S N) v y).
    + rewrite HG. cbn [iterate]. ring.
    + apply functional_extensionality. intro y. unfold poly. cbn [sum_f_R0]. ring.
Qed.
Lemma poly_shift : forall I (G : (I -> R) -> I -> R), linear G -> forall tau c N v x, c N = 0 -> tau * G (poly G tau c N v) x = poly G tau (shift c) N v x.
Proof.
  intros I G HG tau c N v x Hc. rewrite (lin_sum _ _ HG).
  assert (H : forall M, tau * sum_f_R0 (fun k => c k * tau ^ k * iterate G (S k) v x) M = poly G tau (shift c) M v x + c M * tau ^ S M * iterate G (S M) v x).
  { induction M as [|M IH]; unfold poly in *; cbn [sum_f_R0].
    - cbn [shift pow]. ring.
    - rewrite Rmult_plus_distr_l, IH. cbn [shift pow]. ring. }
  rewrite H, Hc. ring.
Qed.
Lemma poly_d0 : forall I (G : (I -> R) -> I -> R) tau N v x, poly G tau d0 N v x = v x.
Proof. intros. unfold poly. induction N as [|N IH]; cbn [sum_f_R0]; [unfold d0; cbn [Nat.eqb pow iterate]; ring|]. rewrite IH. unfold d0. cbn [Nat.eqb]. ring. Qed.
Lemma poly_d1 : forall I (G : (I -> R) -> I -> R) tau N v x, (1 <= N)%nat -> poly G tau d1 N v x = tau * G v x.
Proof.
  intros I G tau N v x HN. destruct N as [|N]; [lia|]. clear HN. unfold poly. induction N as [|N IH]; cbn [sum_f_R0]; [unfold d1; cbn [Nat.eqb pow iterate]; ring|].
  cbn [sum_f_R0] in IH. rewrite IH. unfold d1. cbn [Nat.eqb]. ring.
Qed.
Definition coefs1 (s j : nat) : nat -> R :=
  nth2 d0 (fun k => 1 * d0 k + w1_of rkl1 s * d1 k)
    (fun j p q k => 1 * ((2 * INR j - 1) / INR j * p k + (1 - INR j) / INR j * q k) + ((2 * INR j - 1) / INR j * w1_of rkl1 s) * shift p k) j.
Definition coefs2 (s j : nat) : nat -> R :=
  nth2 d0 (fun k => 1 * d0 k + (b_of 1 * w1_of rkl2 s) * d1 k)
    (fun j p q k => 1 * (mu2 j * p k + nu2 j * q k) + 1 * ((1 - mu2 j - nu2 j) * d0 k + 1 * ((mu2 j * w1_of rkl2 s) * shift p k + (- (1 - b_of (j - 1)) * (mu2 j * w1_of rkl2 s)) * d1 k))) j.
Lemma coefs1_SS : forall s n, coefs1 s (S (S n)) = (fun k => 1 * ((2 * INR (S (S n)) - 1) / INR (S (S n)) * coefs1 s (S n) k + (1 - INR (S (S n))) / INR (S (S n)) * coefs1 s n k)
   + ((2 * INR (S (S n)) - 1) / INR (S (S n)) * w1_of rkl1 s) * shift (coefs1 s (S n)) k).
Proof. intros. unfold coefs1. rewrite nth2_SS. reflexivity. Qed.
Lemma coefs2_SS : forall s n, coefs2 s (S (S n)) = (fun k => 1 * (mu2 (S (S n)) * coefs2 s (S n) k + nu2 (S (S n)) * coefs2 s n k) + 1 * ((1 - mu2 (S (S n)) - nu2 (S (S n))) * d0 k
   + 1 * ((mu2 (S (S n)) * w1_of rkl2 s) * shift (coefs2 s (S n)) k + (- (1 - b_of (S n)) * (mu2 (S (S n)) * w1_of rkl2 s)) * d1 k))).
Proof. intros. unfold coefs2. rewrite nth2_SS. replace (S (S n) - 1)%nat with (S n) by lia. reflexivity. Qed.
Lemma coefs1_high : forall s n k, (n < k)%nat -> coefs1 s n k = 0.
Proof.
  intros s. apply (two_step (fun n => forall k, (n < k)%nat -> coefs1 s n k = 0)).
  - intros k Hk. unfold coefs1. rewrite nth2_0. unfold d0. destruct k; [lia|reflexivity].
  - intros k Hk. unfold coefs1. rewrite nth2_1. unfold d0, d1. destruct k as [|[|k]]; [lia|lia|cbn [Nat.eqb]; ring].
  - intros n H0 H1 k Hk. rewrite coefs1_SS. destruct k as [|k]; [lia|]. cbn [shift]. rewrite H0, H1, H1 by lia. ring.
Qed.
Lemma coefs2_high : forall s n k, (n < k)%nat -> coefs2 s n k = 0.
Proof.
  intros s. apply (two_step (fun n => forall k, (n < k)%nat -> coefs2 s n k = 0)).
  - intros k Hk. unfold coefs2. rewrite nth2_0. unfold d0. destruct k; [lia|reflexivity].
  - intros k Hk. unfold coefs2. rewrite nth2_1. unfold d0, d1. destruct k as [|[|k]]; [lia|lia|cbn [Nat.eqb]; ring].
  - intros n H0 H1 k Hk. rewrite coefs2_SS. destruct k as [|[|k]]; [lia|lia|]. cbn [shift]. rewrite H0, H1, H1 by lia. unfold d0, d1. cbn [Nat.eqb]. ring.
Qed.
Lemma rkl1_poly : forall I (G : (I -> R) -> I -> R), linear G -> forall tau s v N n, (n <= N)%nat -> (1 <= N)%nat -> RKL1 G tau s v n = poly G tau (coefs1 s n) N v.
Proof.
  intros I G HG tau s v N. apply (two_step (fun n => (n <= N)%nat -> (1 <= N)%nat -> RKL1 G tau s v n = poly G tau (coefs1 s n) N v)).
  - intros _ _. apply functional_extensionality; intro x. unfold coefs1. rewrite nth2_0, poly_d0. reflexivity.
  - intros _ HN. apply functional_extensionality; intro x. unfold coefs1. rewrite nth2_1, poly_lin, poly_d0, poly_d1, RKL1_1 by exact HN. ring.
  - intros n E0 E1 Hn HN. specialize (E0 ltac:(lia) HN). specialize (E1 ltac:(lia) HN). apply functional_extensionality; intro x. rewrite RKL1_SS, coefs1_SS, !poly_lin.
    rewrite <- (poly_shift _ _ HG) by (apply coefs1_high; lia). rewrite <- E1, <- E0. ring.
Qed.
Lemma rkl2_poly : forall I (G : (I -> R) -> I -> R), linear G -> forall tau s v N n, (n <= N)%nat -> (1 <= N)%nat -> RKL2 G tau s v n = poly G tau (coefs2 s n) N v.
Proof.
  intros I G HG tau s v N. apply (two_step (fun n => (n <= N)%nat -> (1 <= N)%nat -> RKL2 G tau s v n = poly G tau (coefs2 s n) N v)).
  - intros _ _. apply functional_extensionality; intro x. unfold coefs2. rewrite nth2_0, poly_d0. reflexivity.
  - intros _ HN. apply functional_extensionality; intro x. unfold coefs2. rewrite nth2_1, poly_lin, poly_d0, poly_d1, RKL2_1 by exact HN. ring.
  - intros n E0 E1 Hn HN. specialize (E0 ltac:(lia) HN). specialize (E1 ltac:(lia) HN). apply functional_extensionality; intro x. rewrite RKL2_SS, coefs2_SS, !poly_lin.
    rewrite <- (poly_shift _ _ HG) by (apply coefs2_high; lia). rewrite poly_d0, poly_d1 by exact HN. rewrite <- E1, <- E0. ring.
Qed.
Lemma coefs1_low : forall s n, coefs1 s n 0 = 1 /\ coefs1 s n 1 = w1_of rkl1 s * (INR n * (INR n + 1) / 2).
Proof.
  intro s. apply two_step.
  - unfold coefs1. rewrite nth2_0. unfold d0; cbn [Nat.eqb]. change (INR 0) with 0. split; [reflexivity|field].
  - unfold coefs1. rewrite nth2_1. unfold d0, d1; cbn [Nat.eqb]. change (INR 1) with 1. split; field.
  - intros n [A0 A1] [B0 B1]. rewrite coefs1_SS. cbn [shift]. rewrite A0, A1, B0, B1. generalize (INR_ge2 n). rewrite !S_INR. intro. split; field; lra.
Qed.
Lemma coefs2_low : forall s n, coefs2 s n 0 = 1 /\ coefs2 s n 1 = b_of n * w1_of rkl2 s * (INR n * (INR n + 1) / 2) /\
  coefs2 s n 2 = b_of n * (w1_of rkl2 s * w1_of rkl2 s) * ((INR n - 1) * INR n * (INR n + 1) * (INR n + 2) / 16).
Proof.
  intro s. apply two_step.
  - unfold coefs2. rewrite nth2_0. unfold d0; cbn [Nat.eqb]. change (INR 0) with 0. split; [reflexivity|split; field].
  - unfold coefs2. rewrite nth2_1. unfold d0, d1; cbn [Nat.eqb]. change (INR 1) with 1. split; [ring|split; field].
  - intros n [A0 [A1 A2]] [B0 [B1 B2]]. rewrite coefs2_SS. cbn [shift]. rewrite A0, A1, A2, B0, B1, B2. unfold d0, d1; cbn [Nat.eqb]. rewrite nu_SS, mu_SS.
    generalize (b_pos n) (b_pos (S n)) (INR_ge2 n). set (b := b_of (S (S n))). set (b1 := b_of (S n)). set (b0 := b_of n). set (w := w1_of rkl2 s). clearbody b b1 b0 w. rewrite !S_INR. intros.
    repeat split; field; repeat apply conj; intro X0; lra.
Qed.
Lemma w_second : forall s, (2 <= s)%nat -> b_of s * (w1_of rkl2 s * w1_of rkl2 s) * ((INR s - 1) * INR s * (INR s + 1) * (INR s + 2) / 16) = 1 / 2.
Proof.
  intros s Hs. generalize (bw_last s Hs). intro E. generalize (s_pos2 s Hs). intro H2.
  replace (b_of s * (w1_of rkl2 s * w1_of rkl2 s) * ((INR s - 1) * INR s * (INR s + 1) * (INR s + 2) / 16)) with
    (b_of s * w1_of rkl2 s * (INR s * (INR s + 1) / 2) * (w1_of rkl2 s * ((INR s * INR s + INR s - 2) / 8))) by field.
  rewrite E. unfold w1_of. field. intro X0; nra.
Qed.
Theorem rkl_order : forall sc s, (least_stages sc <= s)%nat -> exists c : nat -> R,
  (forall k, (k <= sts_order sc)%nat -> c k = / INR (fact k)) /\
  forall I (G : (I -> R) -> I -> R), linear G -> forall tau v x, RKL sc G tau s v x = sum_f_R0 (fun k => c k * tau ^ k * iterate G k v x) s.
Proof.
  intros sc s Hs. destruct sc; cbn [least_stages sts_order RKL] in *.
  - exists (coefs1 s s). split.
    + destruct (coefs1_low s s) as [A0 A1]. rewrite w_last in A1 by exact Hs. intros k Hk. destruct k as [|[|k]]; [rewrite A0|rewrite A1|lia]; simpl; field.
    + intros I G HG tau v x. rewrite (rkl1_poly _ _ HG tau s v s s) by lia. reflexivity.
  - exists (coefs2 s s). split.
    + destruct (coefs2_low s s) as [A0 [A1 A2]]. rewrite bw_last in A1 by exact Hs. rewrite w_second in A2 by exact Hs. intros k Hk. destruct k as [|[|[|k]]]; [rewrite A0|rewrite A1|rewrite A2|lia]; simpl; field.
    + intros I G HG tau v x. rewrite (rkl2_poly _ _ HG tau s v s s) by lia. reflexivity.
Qed.
