From Coq Require Import Reals ZArith List Bool Lra Lia FunctionalExtensionality Arith.
From Verif Require Import RK_Spec Fv_Model Time_Model Time_Proofs Time_Proofs2 Sts_Model Sts_Spec Sts_Proofs.
Import ListNotations.
Local Open Scope R_scope.

Theorem sweep_is : forall I sc (sub : I -> bool) ns dt F (r : regs I), (1 <= ns)%nat -> allocated sub r ->
  u (sweep sc sub ns dt F r) = RKL sc (only sub F) (step_of sc dt) ns (u r).
Proof.
  intros I sc sub ns dt F r Hn Ha. unfold sweep. destruct ns as [|n]; [lia|]. destruct sc; cbn [RKL step_of].
  - apply (rkl1_stages I sub F dt (S n) r n).
  - apply (rkl2_stages I sub F dt (S n) r n Ha).
Qed.
Theorem sweep_allocated : forall I sc (sub : I -> bool) ns dt F (r : regs I), allocated sub r -> allocated sub (sweep sc sub ns dt F r).
Proof.
  intros I sc sub ns dt F r Ha. unfold sweep. assert (H : forall n, allocated sub (stages sc sub ns dt F n r)); [|apply H]. induction n as [|n IH]; [exact Ha|].
  intros x Hx. cbn [stages]. unfold Integrate_STS. cbn [fl_div]. rewrite Hx. cbn [andb]. apply IH. exact Hx.
Qed.

(** ** Unfolding the recurrences *)
Lemma RKL1_0 : forall I (G : (I -> R) -> I -> R) tau s v, RKL1 G tau s v 0 = v. Proof. reflexivity. Qed.
Lemma RKL1_1 : forall I (G : (I -> R) -> I -> R) tau s v, RKL1 G tau s v 1 = (fun x => v x + w1_of rkl1 s * tau * G v x). Proof. reflexivity. Qed.
Lemma RKL1_SS : forall I (G : (I -> R) -> I -> R) tau s v n, RKL1 G tau s v (S (S n)) =
  (fun x => (2 * INR (S (S n)) - 1) / INR (S (S n)) * RKL1 G tau s v (S n) x + (1 - INR (S (S n))) / INR (S (S n)) * RKL1 G tau s v n x
    + (2 * INR (S (S n)) - 1) / INR (S (S n)) * w1_of rkl1 s * tau * G (RKL1 G tau s v (S n)) x).
Proof. intros. unfold RKL1. rewrite nth2_SS. reflexivity. Qed.
Definition mu2 (j : nat) : R := (2 * INR j - 1) / INR j * b_of j / b_of (j - 1).
Definition nu2 (j : nat) : R := - ((INR j - 1) / INR j) * b_of j / b_of (j - 2).
Lemma RKL2_0 : forall I (G : (I -> R) -> I -> R) tau s v, RKL2 G tau s v 0 = v. Proof. reflexivity. Qed.
Lemma RKL2_1 : forall I (G : (I -> R) -> I -> R) tau s v, RKL2 G tau s v 1 = (fun x => v x + b_of 1 * w1_of rkl2 s * tau * G v x). Proof. reflexivity. Qed.
Lemma RKL2_SS : forall I (G : (I -> R) -> I -> R) tau s v n, RKL2 G tau s v (S (S n)) =
  (fun x => mu2 (S (S n)) * RKL2 G tau s v (S n) x + nu2 (S (S n)) * RKL2 G tau s v n x + (1 - mu2 (S (S n)) - nu2 (S (S n))) * v x
    + mu2 (S (S n)) * w1_of rkl2 s * tau * G (RKL2 G tau s v (S n)) x - (1 - b_of (S n)) * (mu2 (S (S n)) * w1_of rkl2 s) * tau * G v x).
Proof. intros. unfold RKL2. rewrite nth2_SS. replace (S (S n) - 1)%nat with (S n) by lia. unfold mu2, nu2. replace (S (S n) - 1)%nat with (S n) by lia. reflexivity. Qed.
Lemma INR_nz : forall n, INR (S (S n)) <> 0. Proof. intros n H. generalize (INR_ge2 n). lra. Qed.

(** ** Steady states *)
Theorem rkl_steady : forall I sc (G : (I -> R) -> I -> R) tau s v, (forall x, G v x = 0) -> RKL sc G tau s v = v.
Proof.
  intros I sc G tau s v Hv. destruct sc; cbn [RKL].
  - assert (H : forall n, RKL1 G tau s v n = v); [|apply H]. apply two_step; [reflexivity| |].
    + rewrite RKL1_1. apply functional_extensionality. intro x. rewrite Hv. ring.
    + intros n E0 E1. rewrite RKL1_SS, E0, E1. apply functional_extensionality. intro x. rewrite Hv. field. apply INR_nz.
  - assert (H : forall n, RKL2 G tau s v n = v); [|apply H]. apply two_step; [reflexivity| |].
    + rewrite RKL2_1. apply functional_extensionality. intro x. rewrite Hv. ring.
    + intros n E0 E1. rewrite RKL2_SS, E0, E1. apply functional_extensionality. intro x. rewrite Hv. ring.
Qed.

(** ** Constant right-hand sides *)
Lemma s_pos : forall s, (1 <= s)%nat -> 1 <= INR s. Proof. intros s H. apply (le_INR 1) in H. exact H. Qed.
Lemma s_pos2 : forall s, (2 <= s)%nat -> 2 <= INR s. Proof. intros s H. apply (le_INR 2) in H. simpl in H. lra. Qed.
Lemma bw_last : forall s, (2 <= s)%nat -> b_of s * w1_of rkl2 s * (INR s * (INR s + 1) / 2) = 1.
Proof.
  intros s H. generalize (s_pos2 s H). intro Hs. unfold w1_of. assert (E : b_of s = (INR s * INR s + INR s - 2) / (2 * INR s * (INR s + 1))).
  { destruct (Nat.eq_dec s 2) as [->|N]; [rewrite b2; reflexivity|]. rewrite b_bfrac by lia. reflexivity. }
  rewrite E. field. repeat apply conj; intro X0; nra.
Qed.
Lemma w_last : forall s, (1 <= s)%nat -> w1_of rkl1 s * (INR s * (INR s + 1) / 2) = 1.
Proof. intros s H. generalize (s_pos s H). intro Hs. unfold w1_of. field. intro X0. nra. Qed.
Lemma nu_SS : forall n, nu2 (S (S n)) = - ((INR (S (S n)) - 1) / INR (S (S n))) * b_of (S (S n)) / b_of n.
Proof. intro n. unfold nu2. replace (S (S n) - 2)%nat with n by lia. reflexivity. Qed.
Lemma mu_SS : forall n, mu2 (S (S n)) = (2 * INR (S (S n)) - 1) / INR (S (S n)) * b_of (S (S n)) / b_of (S n).
Proof. intro n. unfold mu2. replace (S (S n) - 1)%nat with (S n) by lia. reflexivity. Qed.
Lemma munu_b : forall n, mu2 (S (S n)) * b_of (S n) + nu2 (S (S n)) * b_of n = b_of (S (S n)).
Proof. intro n. rewrite nu_SS, mu_SS. generalize (b_pos n) (b_pos (S n)) (INR_ge2 n). intros. field. repeat apply conj; intro X0; lra. Qed.

Theorem rkl_constant : forall I sc (G : (I -> R) -> I -> R) (C : I -> R) tau s v, (least_stages sc <= s)%nat -> (forall y x, G y x = C x) ->
  forall x, RKL sc G tau s v x = v x + tau * C x.
Proof.
  intros I sc G C tau s v Hs HG x. destruct sc; cbn [RKL least_stages] in *.
  - assert (H : forall n, RKL1 G tau s v n x = v x + tau * (w1_of rkl1 s * (INR n * (INR n + 1) / 2)) * C x); [|rewrite H, w_last by exact Hs; ring].
    apply two_step.
    + rewrite RKL1_0. change (INR 0) with 0. field.
    + rewrite RKL1_1, HG. change (INR 1) with 1. field.
    + intros n E0 E1. rewrite RKL1_SS, E0, E1, HG. generalize (INR_ge2 n). rewrite !S_INR. intro. field. intro X0; lra.
  - assert (H : forall n, RKL2 G tau s v n x = v x + tau * (b_of n * w1_of rkl2 s * (INR n * (INR n + 1) / 2)) * C x); [|rewrite H, bw_last by exact Hs; ring].
    apply two_step.
    + rewrite RKL2_0. change (INR 0) with 0. field.
    + rewrite RKL2_1, HG. change (INR 1) with 1. field.
    + intros n E0 E1. rewrite RKL2_SS, E0, E1, !HG. rewrite nu_SS, mu_SS. generalize (b_pos n) (b_pos (S n)) (INR_ge2 n). set (b := b_of (S (S n))). set (b1 := b_of (S n)). set (b0 := b_of n). clearbody b b1 b0.
      set (w := w1_of rkl2 s). clearbody w. rewrite !S_INR. intros. field. repeat apply conj; intro X0; lra.
Qed.

(** ** Conservation *)
Lemma total_lin : forall I vol (cells : list I) a b f g, total vol cells (fun x => a * f x + b * g x) = a * total vol cells f + b * total vol cells g.
Proof. intros. induction cells as [|x cells IH]; cbn [total fold_right]; [ring|]. unfold total in IH. rewrite IH. ring. Qed.
Lemma total_ext : forall I vol (cells : list I) f g, (forall x, f x = g x) -> total vol cells f = total vol cells g.
Proof. intros I vol cells f g H. induction cells as [|x cells IH]; cbn [total fold_right]; [reflexivity|]. unfold total in IH. rewrite IH, H. reflexivity. Qed.
Theorem rkl_conserved : forall I sc (G : (I -> R) -> I -> R) vol (cells : list I) tau s v, (forall y, total vol cells (G y) = 0) ->
  total vol cells (RKL sc G tau s v) = total vol cells v.
Proof.
  intros I sc G vol cells tau s v HG. destruct sc; cbn [RKL].
  - assert (H : forall n, total vol cells (RKL1 G tau s v n) = total vol cells v); [|apply H]. apply two_step; [reflexivity| |].
    + rewrite RKL1_1. rewrite (total_ext _ _ _ _ (fun x => 1 * v x + (w1_of rkl1 s * tau) * G v x)) by (intro; ring). rewrite total_lin, HG. ring.
    + intros n E0 E1. rewrite RKL1_SS. generalize (INR_nz n). set (j := INR (S (S n))). clearbody j. intro Hj.
      rewrite (total_ext _ _ _ _ (fun x => 1 * ((2 * j - 1) / j * RKL1 G tau s v (S n) x + (1 - j) / j * RKL1 G tau s v n x) + ((2 * j - 1) / j * w1_of rkl1 s * tau) * G (RKL1 G tau s v (S n)) x)) by (intro; ring).
      rewrite total_lin, HG, total_lin, E0, E1. field. exact Hj.
  - assert (H : forall n, total vol cells (RKL2 G tau s v n) = total vol cells v); [|apply H]. apply two_step; [reflexivity| |].
    + rewrite RKL2_1. rewrite (total_ext _ _ _ _ (fun x => 1 * v x + (b_of 1 * w1_of rkl2 s * tau) * G v x)) by (intro; ring). rewrite total_lin, HG. ring.
    + intros n E0 E1. rewrite RKL2_SS. set (mu := mu2 (S (S n))). set (nu := nu2 (S (S n))). set (b := b_of (S n)). set (w := w1_of rkl2 s). clearbody mu nu b w.
      rewrite (total_ext _ _ _ _ (fun x => 1 * (mu * RKL2 G tau s v (S n) x + nu * RKL2 G tau s v n x) + 1 * ((1 - mu - nu) * v x + 1 * (mu * w * tau * G (RKL2 G tau s v (S n)) x + - (1 - b) * (mu * w) * tau * G v x)))) by (intro; ring).
      rewrite total_lin, total_lin, total_lin, total_lin, !HG, E0, E1. ring.
Qed.

(** ** Legendre polynomials *)
Lemma legendre_0 : forall x, legendre x 0 = 1. Proof. reflexivity. Qed.
Lemma legendre_1 : forall x, legendre x 1 = x. Proof. reflexivity. Qed.
Lemma legendre_SS : forall x n, legendre x (S (S n)) = ((2 * INR (S (S n)) - 1) * x * legendre x (S n) - (INR (S (S n)) - 1) * legendre x n) / INR (S (S n)).
Proof. intros. unfold legendre. rewrite nth2_SS. reflexivity. Qed.
(** (1-x^2) P_n^2 + (P_(n-1) - x P_n)^2 does not grow: the recurrence is a rotation followed by a contraction. *)
Lemma legendre_energy : forall x, -1 <= x <= 1 -> forall n,
  (1 - x * x) * (legendre x (S n) * legendre x (S n)) + (legendre x n - x * legendre x (S n)) * (legendre x n - x * legendre x (S n)) <= 1 - x * x.
Proof.
  intros x Hx. induction n as [|n IH].
  - rewrite legendre_0, legendre_1. nra.
  - rewrite legendre_SS. set (a := legendre x (S n)) in *. set (b := legendre x n) in *. clearbody a b. generalize (INR_ge2 n). set (m := INR (S (S n))). clearbody m. intro Hm.
    set (d := b - x * a) in *. set (k := (m - 1) / m).
    assert (Hk : 0 <= k <= 1). { unfold k. split; [apply Rle_mult_inv_pos; lra|]. apply (Rmult_le_reg_r m); [lra|]. unfold Rdiv. rewrite Rmult_assoc, Rinv_l by lra. lra. }
    replace (((2 * m - 1) * x * a - (m - 1) * b) / m) with (x * a - k * d) by (unfold k, d; field; lra).
    replace ((1 - x * x) * ((x * a - k * d) * (x * a - k * d)) + (a - x * (x * a - k * d)) * (a - x * (x * a - k * d))) with ((1 - x * x) * (a * a) + k * k * (d * d)) by ring.
    assert (k * k <= 1) by nra. assert (0 <= d * d) by nra. assert (k * k * (d * d) <= d * d) by nra. lra.
Qed.
Theorem legendre_bound : forall x n, -1 <= x <= 1 -> -1 <= legendre x n <= 1.
Proof.
  intros x n Hx. destruct n as [|n]; [rewrite legendre_0; lra|].
  destruct (Req_dec (x * x) 1) as [E|N].
  - assert (H : forall n, legendre x (S n) = x * legendre x n).
    { clear n. induction n as [|n IH]; [rewrite legendre_0, legendre_1; ring|]. generalize (INR_nz n). intro Hz. rewrite legendre_SS.
      assert (E2 : x * legendre x (S n) = legendre x n) by (rewrite IH, <- Rmult_assoc, E; ring). rewrite <- E2. field. exact Hz. }
    clear Hx. assert (Hx : x = 1 \/ x = -1) by (assert ((x - 1) * (x + 1) = 0) as Z0 by lra; apply Rmult_integral in Z0; destruct Z0; [left|right]; lra).
    assert (B : forall n, -1 <= legendre x n <= 1). { induction n0 as [|m IH]; [rewrite legendre_0; lra|]. rewrite H. destruct Hx as [->| ->]; lra. }
    apply B.
  - generalize (legendre_energy x Hx n). set (P := legendre x (S n)). set (d := legendre x n - x * P). clearbody P d. intro H.
    assert (0 < 1 - x * x) by nra. assert (P * P <= 1). { assert (0 <= d * d) by nra. apply (Rmult_le_reg_l (1 - x * x)); [assumption|]. lra. } nra.
Qed.
Lemma legendre_at_1 : forall n, legendre 1 n = 1.
Proof. apply two_step; [reflexivity|reflexivity|]. intros n E0 E1. rewrite legendre_SS, E0, E1. field. apply INR_nz. Qed.

(** ** Linear right-hand sides *)
Lemma lin_scale : forall I (G : (I -> R) -> I -> R), linear G -> forall c v x, G (fun y => c * v y) x = c * G v x.
Proof. intros I G HG c v x. replace (fun y => c * v y) with (fun y => c * v y + 0 * v y) by (apply functional_extensionality; intro; ring). rewrite HG. ring. Qed.
Definition growth (sc : scheme) (s : nat) (z : R) (n : nat) : R :=
  match sc with rkl1 => legendre (1 + w1_of rkl1 s * z) n | rkl2 => 1 - b_of n + b_of n * legendre (1 + w1_of rkl2 s * z) n end.
Theorem rkl_mode : forall I sc (G : (I -> R) -> I -> R) tau s v lam, linear G -> (forall x, G v x = lam * v x) ->
  RKL sc G tau s v = (fun x => growth sc s (tau * lam) s * v x).
Proof.
  intros I sc G tau s v lam HG Hv. destruct sc; cbn [RKL growth].
  - set (w := w1_of rkl1 s).
    assert (H : forall n, RKL1 G tau s v n = (fun x => legendre (1 + w * (tau * lam)) n * v x)); [|apply H]. apply two_step.
    + rewrite RKL1_0. apply functional_extensionality; intro x. rewrite legendre_0. ring.
    + rewrite RKL1_1. apply functional_extensionality; intro x. rewrite legendre_1, Hv. unfold w. ring.
    + intros n E0 E1. rewrite RKL1_SS, E0, E1. apply functional_extensionality; intro x. rewrite (lin_scale _ _ HG), Hv, legendre_SS. fold w. field. apply INR_nz.
  - set (w := w1_of rkl2 s).
    assert (H : forall n, RKL2 G tau s v n = (fun x => (1 - b_of n + b_of n * legendre (1 + w * (tau * lam)) n) * v x)); [|apply H]. apply two_step.
    + rewrite RKL2_0. apply functional_extensionality; intro x. rewrite legendre_0. ring.
    + rewrite RKL2_1. apply functional_extensionality; intro x. rewrite legendre_1, Hv. unfold w. ring.
    + intros n E0 E1. rewrite RKL2_SS, E0, E1. apply functional_extensionality; intro x. rewrite (lin_scale _ _ HG), Hv, legendre_SS. fold w.
      rewrite nu_SS, mu_SS. generalize (b_pos n) (b_pos (S n)) (INR_nz n). set (b := b_of (S (S n))). set (b1 := b_of (S n)). set (b0 := b_of n). clearbody b b1 b0 w.
      set (P1 := legendre (1 + w * (tau * lam)) (S n)). set (P0 := legendre (1 + w * (tau * lam)) n). clearbody P1 P0. intros. field. repeat apply conj; try assumption; intro X0; lra.
Qed.
Theorem rkl_linear : forall I sc (G : (I -> R) -> I -> R) tau s, linear G -> forall a b f g,
  RKL sc G tau s (fun x => a * f x + b * g x) = (fun x => a * RKL sc G tau s f x + b * RKL sc G tau s g x).
Proof.
  intros I sc G tau s HG a b f g. destruct sc; cbn [RKL].
  - assert (H : forall n, RKL1 G tau s (fun x => a * f x + b * g x) n = (fun x => a * RKL1 G tau s f n x + b * RKL1 G tau s g n x)); [|apply H]. apply two_step; [reflexivity| |].
    + rewrite !RKL1_1. apply functional_extensionality; intro x. rewrite HG. ring.
    + intros n E0 E1. rewrite !RKL1_SS, E0, E1. apply functional_extensionality; intro x. rewrite HG. ring.
  - assert (H : forall n, RKL2 G tau s (fun x => a * f x + b * g x) n = (fun x => a * RKL2 G tau s f n x + b * RKL2 G tau s g n x)); [|apply H]. apply two_step; [reflexivity| |].
    + rewrite !RKL2_1. apply functional_extensionality; intro x. rewrite HG. ring.
    + intros n E0 E1. rewrite !RKL2_SS, E0, E1. apply functional_extensionality; intro x. rewrite !HG. ring.
Qed.
Lemma growth_bound : forall sc s z, (1 <= s)%nat -> -2 <= w1_of sc s * z <= 0 -> -1 <= growth sc s z s <= 1.
Proof.
  intros sc s z Hs Hz. destruct sc; cbn [growth].
  - apply legendre_bound. lra.
  - generalize (legendre_bound (1 + w1_of rkl2 s * z) s). set (P := legendre (1 + w1_of rkl2 s * z) s). clearbody P. intro B. specialize (B ltac:(lra)). generalize (b_pos s) (b_le1 s). set (b := b_of s). clearbody b. intros. nra.
Qed.
