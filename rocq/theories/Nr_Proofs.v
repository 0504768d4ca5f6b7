(** Frame transformations and moments. *)
From Coq Require Import Reals List Bool Lra Psatz.
From Verif Require Import Time_Model Nr_Model Nr_Spec.
Import ListNotations.
Local Open Scope R_scope.

Lemma sum_total : forall {A} (l : list A) f, sum l f = total l f.
Proof.
  intros A l f. unfold sum.
  assert (G : forall s, fold_left (fun s a => s + f a) l s = s + total l f).
  { induction l as [|a l IH]; intros s; cbn [fold_left total fold_right]; [lra|]. rewrite IH. unfold total. lra. }
  rewrite G. lra.
Qed.
Lemma total_ext : forall {A} (l : list A) f g, (forall x, In x l -> f x = g x) -> total l f = total l g.
Proof. induction l as [|a l IH]; intros f g H; cbn [total fold_right]; auto. rewrite (H a) by (left; auto). f_equal. apply IH. intros; apply H; right; auto. Qed.
Lemma total_plus : forall {A} (l : list A) f g, total l (fun x => f x + g x) = total l f + total l g.
Proof. induction l as [|a l IH]; intros f g; cbn [total fold_right]; [lra|]. unfold total in IH. rewrite IH. lra. Qed.
Lemma total_scal : forall {A} (l : list A) f c, total l (fun x => c * f x) = c * total l f.
Proof. induction l as [|a l IH]; intros f c; cbn [total fold_right]; [lra|]. unfold total in IH. rewrite IH. lra. Qed.
Lemma total_nonneg : forall {A} (l : list A) f, (forall x, In x l -> 0 <= f x) -> 0 <= total l f.
Proof. induction l as [|a l IH]; intros f H; cbn [total fold_right]; [lra|]. pose proof (H a (or_introl eq_refl)). pose proof (IH f (fun x h => H x (or_intror h))). unfold total in *. lra. Qed.
Lemma total_le : forall {A} (l : list A) f g, (forall x, In x l -> f x <= g x) -> total l f <= total l g.
Proof. induction l as [|a l IH]; intros f g H; cbn [total fold_right]; [lra|]. pose proof (H a (or_introl eq_refl)). pose proof (IH f g (fun x h => H x (or_intror h))). unfold total in *. lra. Qed.
Lemma total_map : forall {A B} (h : A -> B) (l : list A) f, total (map h l) f = total l (fun x => f (h x)).
Proof. induction l as [|a l IH]; intros f; cbn [map total fold_right]; auto. unfold total in IH. rewrite IH. auto. Qed.

(** Lorentz factor. *)
Lemma beta : forall c v, 0 < c -> norm2 v < c * c -> let '(x, y, z) := v in 0 <= (x * x + y * y + z * z) * (1 / c) * (1 / c) < 1.
Proof.
  intros c [[x y] z] Hc H. unfold norm2 in H. replace ((x * x + y * y + z * z) * (1 / c) * (1 / c)) with ((x * x + y * y + z * z) / (c * c)) by (field; lra).
  assert (0 < c * c) by nra. split; [apply Rle_mult_inv_pos; nra|]. apply (Rmult_lt_reg_r (c * c)); auto. unfold Rdiv. rewrite Rmult_assoc, Rinv_l by lra. lra.
Qed.
Lemma lorzsq_pos : forall c v, 0 < c -> norm2 v < c * c -> 1 <= lorzsq c v.
Proof.
  intros c v Hc H. pose proof (beta c v Hc H) as B. destruct v as [[x y] z]. unfold lorzsq. set (b := _ * (1 / c) * (1 / c)) in *.
  apply (Rmult_le_reg_r (1 - b)); [lra|]. unfold Rdiv. rewrite Rmult_assoc, Rinv_l by lra. lra.
Qed.
Lemma lorz_sq : forall c v, 0 < c -> norm2 v < c * c -> lorz c v * lorz c v = lorzsq c v /\ 1 <= lorz c v.
Proof.
  intros c v Hc H. pose proof (lorzsq_pos c v Hc H). unfold lorz. split; [apply sqrt_sqrt; lra|]. rewrite <- sqrt_1. apply sqrt_le_1; lra.
Qed.
(** Cauchy-Schwarz. *)
Lemma schwarz : forall a b, dot a b * dot a b <= norm2 a * norm2 b.
Proof.
  intros [[x y] z] [[x' y'] z']. unfold dot, norm2.
  pose proof (Rle_0_sqr (x * y' - y * x')). pose proof (Rle_0_sqr (x * z' - z * x')). pose proof (Rle_0_sqr (y * z' - z * y')). unfold Rsqr in *. nra.
Qed.
Lemma vnc_dot : forall c v n, vnc c v n = 1 - dot v n / c.
Proof. intros c [[x y] z] [[x' y'] z']. unfold vnc, dot. unfold Rdiv. ring. Qed.
Lemma vnc_pos : forall c v n, 0 < c -> norm2 v < c * c -> norm2 n = 1 -> 0 < vnc c v n.
Proof.
  intros c v n Hc H N. rewrite vnc_dot. pose proof (schwarz v n) as S. rewrite N in S. assert (dot v n < c) by nra.
  apply (Rmult_lt_reg_r c); auto. replace ((1 - dot v n / c) * c) with (c - dot v n) by (field; lra). lra.
Qed.
Lemma roundtrip : forall c v n x, 0 < c -> norm2 v < c * c -> norm2 n = 1 -> ComToLab c v n (LabToCom c v n x) = x /\ LabToCom c v n (ComToLab c v n x) = x.
Proof.
  intros c v n x Hc H N. pose proof (vnc_pos c v n Hc H N). pose proof (lorzsq_pos c v Hc H). unfold ComToLab, LabToCom. split; field; split; lra.
Qed.
Lemma lab_pos : forall c v n x, 0 < c -> norm2 v < c * c -> norm2 n = 1 -> 0 < x -> 0 < LabToCom c v n x.
Proof.
  intros c v n x Hc H N X. pose proof (vnc_pos c v n Hc H N). pose proof (lorzsq_pos c v Hc H). unfold LabToCom.
  repeat apply Rmult_lt_0_compat; lra.
Qed.
(** Aberration. *)
Lemma angle_all : forall c v n, 0 < c -> norm2 v < c * c -> norm2 n = 1 ->
  let n0 := ComAngle c v n in
  norm2 n0 = 1 /\ (lorz c v * vnc c v n) * (lorz c v * vnc c (neg v) n0) = 1 /\ ComAngle c (neg v) n0 = n.
Proof.
  intros c v n Hc H N. destruct (lorz_sq c v Hc H) as [L1 L2].
  assert (LN : lorz c (neg v) = lorz c v).
  { unfold lorz. f_equal. destruct v as [[x y] z]. unfold lorzsq, neg. f_equal. f_equal. f_equal. f_equal. ring. }
  assert (B : lorz c v * lorz c v * (c * c - norm2 v) = c * c).
  { rewrite L1. destruct v as [[x y] z]. unfold lorzsq, norm2 in *. field. split; [nra|lra]. }
  pose proof (vnc_pos c v n Hc H N) as V0. rewrite vnc_dot in V0.
  destruct v as [[x y] z], n as [[a b] d]. cbn [neg] in *. unfold ComAngle. rewrite LN. unfold vnc. set (g := lorz c (x, y, z)) in *. clearbody g. unfold norm2, dot in *.
  set (k := x * a + y * b + z * d) in *.
  assert (K : 0 < c - k). { replace (c - k) with (c * (1 - k / c)) by (field; lra). nra. }
  assert (NZ : 1 + g <> 0) by lra. assert (GC : g * (c - k) <> 0) by nra.
  set (A := g * (1 / c) * (1 - g * k * (1 / c) / (1 + g))). set (I := 1 / (g * (1 - k * (1 / c)))).
  assert (EA : A = g * (c * (1 + g) - g * k) / (c * c * (1 + g))) by (unfold A; field; lra).
  assert (EI : I = c / (g * (c - k))) by (unfold I; field; repeat split; lra).
  set (V := x * x + y * y + z * z) in *.
  assert (EV : V = c * c * (g * g - 1) / (g * g)) by (apply (Rmult_eq_reg_l (g * g)); [|nra]; replace (g * g * (c * c * (g * g - 1) / (g * g))) with (c * c * (g * g - 1)) by (field; lra); lra).
  assert (U : ((a - x * A) * I) * ((a - x * A) * I) + ((b - y * A) * I) * ((b - y * A) * I) + ((d - z * A) * I) * ((d - z * A) * I) = 1).
  { transitivity ((1 - 2 * A * k + A * A * V) * I * I). { unfold k, V. rewrite <- N. ring. } rewrite EV, EA, EI. field. repeat split; lra. }
  assert (D : x * ((a - x * A) * I) + y * ((b - y * A) * I) + z * ((d - z * A) * I) = (k - V * A) * I) by (unfold k, V; ring).
  assert (D2 : - x * ((a - x * A) * I) + - y * ((b - y * A) * I) + - z * ((d - z * A) * I) = - ((k - V * A) * I)) by (rewrite <- D; ring).
  split; [exact U|]. rewrite D2. set (k0 := (k - V * A) * I) in *.
  assert (R : g * (1 - k * (1 / c)) * (g * (1 - - k0 * (1 / c))) = 1).
  { unfold k0. rewrite EV, EA, EI. field. repeat split; lra. }
  split; [exact R|].
  set (A' := g * (1 / c) * (1 - g * - k0 * (1 / c) / (1 + g))).
  assert (I' : 1 / (g * (1 - - k0 * (1 / c))) = g * (1 - k * (1 / c))).
  { set (q := g * (1 - - k0 * (1 / c))) in *. assert (q <> 0) by (intros Q; rewrite Q in R; lra). apply (Rmult_eq_reg_r q); auto. rewrite R. field. auto. }
  rewrite I'.
  assert (J : I * (g * (1 - k * (1 / c))) = 1) by (unfold I; field; split; [nra|]; split; lra).
  assert (Z : A' * (g * (1 - k * (1 / c))) = A).
  { unfold A', k0. rewrite EV. rewrite !EA, EI. field. repeat split; lra. }
  assert (F : forall p q, ((p - q * A) * I - - q * A') * (g * (1 - k * (1 / c))) = p).
  { intros p q. transitivity ((p - q * A) * (I * (g * (1 - k * (1 / c)))) + q * (A' * (g * (1 - k * (1 / c))))); [ring|]. rewrite J, Z. ring. }
  rewrite !F. auto.
Qed.

(** Moments. *)
Lemma moment_total : forall rays groups f, moment rays groups f = total groups (fun irs => total (combine rays irs) (fun '((d, w), i) => w * i * f d)).
Proof. intros. unfold moment. rewrite sum_total. apply total_ext. intros. apply sum_total. Qed.
Lemma moment_add : forall rays groups f g a b h, (forall d, h d = a * f d + b * g d) -> moment rays groups h = a * moment rays groups f + b * moment rays groups g.
Proof.
  intros rays groups f g a b h H. rewrite !moment_total, <- !total_scal, <- total_plus. apply total_ext. intros irs _. rewrite <- !total_scal, <- total_plus.
  apply total_ext. intros [[d w] i] _. rewrite H. ring.
Qed.
Lemma moment_pos : forall rays groups f, (forall d w, In (d, w) rays -> 0 <= w /\ 0 <= f d) -> (forall irs i, In irs groups -> In i irs -> 0 <= i) -> 0 <= moment rays groups f.
Proof.
  intros rays groups f Hr Hg. rewrite moment_total. apply total_nonneg. intros irs Hi. apply total_nonneg. intros [[d w] i] Hin.
  destruct (Hr d w (in_combine_l _ _ _ _ Hin)). pose proof (Hg irs i Hi (in_combine_r _ _ _ _ Hin)). apply Rmult_le_pos; auto. nra.
Qed.
Lemma moment_ext : forall rays groups f g, (forall d w, In (d, w) rays -> f d = g d) -> moment rays groups f = moment rays groups g.
Proof.
  intros rays groups f g H. rewrite !moment_total. apply total_ext. intros irs _. apply total_ext. intros [[d w] i] Hin. rewrite (H d w (in_combine_l _ _ _ _ Hin)). auto.
Qed.
