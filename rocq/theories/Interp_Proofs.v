(** Proofs for the table lookup. *)
From Coq Require Import Reals ZArith Bool Lra Lia Psatz.
From Verif Require Import Time_Model Time_Proofs Time_Proofs2 Interp_Model Interp_Spec.
Local Open Scope R_scope.

Lemma trunc_bound : forall x, (x < 0 -> (trunc x <= 0)%Z) /\ (0 <= x -> (0 <= trunc x)%Z /\ IZR (trunc x) <= x < IZR (trunc x) + 1).
Proof.
  intros x. split; [|apply trunc_nonneg]. intros H. unfold trunc. replace (leR 0 x) with false by (symmetry; apply leR_false; exact H).
  destruct (base_Int_part (- x)) as [B1 B2]. assert (IZR (- 1) < IZR (Int_part (- x))) by (change (IZR (-1)) with (- (1)); lra). apply lt_IZR in H0. lia.
Qed.
Lemma cast_ok : forall x, - 2147483647 < x < 2147483647 -> cast x = Some (trunc x).
Proof.
  intros x H. unfold cast. cbv zeta. change (2 ^ 31)%Z with 2147483648%Z. destruct (trunc_bound x) as [T1 T2]. destruct (Rlt_le_dec x 0) as [L|L].
  - specialize (T1 L). assert (- 2147483648 <= trunc x)%Z.
    { unfold trunc. replace (leR 0 x) with false by (symmetry; apply leR_false; exact L). destruct (base_Int_part (- x)) as [B1 B2]. assert (IZR (Int_part (- x)) < 2147483647) by lra. apply lt_IZR in H0. lia. }
    rewrite (proj2 (Z.leb_le _ _)) by lia. rewrite (proj2 (Z.ltb_lt _ _)) by lia. reflexivity.
  - destruct (T2 L) as [P1 [P2 P3]]. assert (IZR (trunc x) < 2147483647) by lra. apply lt_IZR in H0. rewrite (proj2 (Z.leb_le _ _)) by lia. rewrite (proj2 (Z.ltb_lt _ _)) by lia. reflexivity.
Qed.
Lemma clamp_ok : forall i n, (2 <= n)%Z -> (0 <= clamp i n <= n - 2)%Z.
Proof. intros i n H. unfold clamp. destruct (Z.ltb_spec i 0); [lia|]. destruct (Z.leb_spec (n - 1) i); lia. Qed.
(** Inside the table the lower node is below and the next one above. *)
Lemma clamp_in : forall x n, (2 <= n)%Z -> 0 <= x <= IZR (n - 1) -> let i := clamp (trunc x) n in IZR i <= x <= IZR i + 1.
Proof.
  intros x n Hn [H1 H2] i. destruct (trunc_bound x) as [_ T]. destruct (T H1) as [P1 [P2 P3]]. unfold i, clamp. destruct (Z.ltb_spec (trunc x) 0); [lia|].
  destruct (Z.leb_spec (n - 1) (trunc x)) as [L|L]; [|lra]. apply IZR_le in L. rewrite minus_IZR in H2, L |- *. lra.
Qed.
Lemma at_ok : forall t i j, (0 <= i < nx2 t)%Z -> (0 <= j < nx1 t)%Z -> at_ t i j = Some (data t i j).
Proof. intros t i j Hi Hj. unfold at_. rewrite !(proj2 (Z.leb_le _ _)) by lia. rewrite !(proj2 (Z.ltb_lt _ _)) by lia. reflexivity. Qed.
Section T.
Variables (n2 n1 : Z) (d : Z -> Z -> R) (a2 b2 a1 b1 : R).
Hypothesis N2 : (2 <= n2)%Z. Hypothesis N1 : (2 <= n1)%Z.
Hypothesis A2 : a2 < b2. Hypothesis A1 : a1 < b1.
Let t := make n2 n1 d a2 b2 a1 b1.
Let X (x2 : R) := (x2 - a2) * (IZR (n2 - 1) / (b2 - a2)).
Let Y (x1 : R) := (x1 - a1) * (IZR (n1 - 1) / (b1 - a1)).
Lemma value : forall x2 x1, - 2147483647 < X x2 < 2147483647 -> - 2147483647 < Y x1 < 2147483647 ->
  exists i j, i = clamp (trunc (X x2)) n2 /\ j = clamp (trunc (Y x1)) n1 /\ (0 <= i <= n2 - 2)%Z /\ (0 <= j <= n1 - 2)%Z /\
  interpolate t x2 x1 = Some ((1 + IZR i - X x2) * (1 + IZR j - Y x1) * d i j + (1 + IZR i - X x2) * (1 - (1 + IZR j - Y x1)) * d i (j + 1)%Z
     + (1 - (1 + IZR i - X x2)) * (1 + IZR j - Y x1) * d (i + 1)%Z j + (1 - (1 + IZR i - X x2)) * (1 - (1 + IZR j - Y x1)) * d (i + 1)%Z (j + 1)%Z).
Proof.
  intros x2 x1 HX HY. pose proof (clamp_ok (trunc (X x2)) n2 N2) as C2. pose proof (clamp_ok (trunc (Y x1)) n1 N1) as C1.
  exists (clamp (trunc (X x2)) n2), (clamp (trunc (Y x1)) n1). split; [reflexivity|]. split; [reflexivity|]. split; [exact C2|]. split; [exact C1|].
  unfold interpolate. cbv zeta. change ((x2 - x2min t) * x2norm t) with (X x2). change ((x1 - x1min t) * x1norm t) with (Y x1).
  rewrite !cast_ok by assumption. change (nx2 t) with n2. change (nx1 t) with n1.
  rewrite !at_ok; change (nx2 t) with n2; change (nx1 t) with n1; try lia. reflexivity.
Qed.
Lemma inside_X : forall x2, a2 <= x2 <= b2 -> 0 <= X x2 <= IZR (n2 - 1).
Proof.
  intros x2 H. assert (P : 0 <= IZR (n2 - 1)) by (apply IZR_le; lia). unfold X. set (q := (x2 - a2) / (b2 - a2)). replace ((x2 - a2) * (IZR (n2 - 1) / (b2 - a2))) with (q * IZR (n2 - 1)) by (unfold q; field; lra).
  assert (0 <= q <= 1). { assert (0 < b2 - a2) by lra. split; [apply (proj1 (mul_div (x2 - a2) (b2 - a2) 0 H0)); lra|]. unfold q. apply (Rmult_le_reg_r (b2 - a2)); [exact H0|]. unfold Rdiv. rewrite Rmult_assoc, Rinv_l by lra. lra. }
  split; [apply Rmult_le_pos; lra|]. rewrite <- (Rmult_1_l (IZR (n2 - 1))) at 2. apply Rmult_le_compat_r; lra.
Qed.
Lemma inside_Y : forall x1, a1 <= x1 <= b1 -> 0 <= Y x1 <= IZR (n1 - 1).
Proof.
  intros x1 H. assert (P : 0 <= IZR (n1 - 1)) by (apply IZR_le; lia). unfold Y. set (q := (x1 - a1) / (b1 - a1)). replace ((x1 - a1) * (IZR (n1 - 1) / (b1 - a1))) with (q * IZR (n1 - 1)) by (unfold q; field; lra).
  assert (0 <= q <= 1). { assert (0 < b1 - a1) by lra. split; [apply (proj1 (mul_div (x1 - a1) (b1 - a1) 0 H0)); lra|]. unfold q. apply (Rmult_le_reg_r (b1 - a1)); [exact H0|]. unfold Rdiv. rewrite Rmult_assoc, Rinv_l by lra. lra. }
  split; [apply Rmult_le_pos; lra|]. rewrite <- (Rmult_1_l (IZR (n1 - 1))) at 2. apply Rmult_le_compat_r; lra.
Qed.
Lemma node_X : forall i, X (node a2 b2 n2 i) = IZR i. Proof. intros i. unfold X, node. assert (0 < IZR (n2 - 1)) by (apply IZR_lt; lia). field. lra. Qed.
Lemma node_Y : forall i, Y (node a1 b1 n1 i) = IZR i. Proof. intros i. unfold Y, node. assert (0 < IZR (n1 - 1)) by (apply IZR_lt; lia). field. lra. Qed.
Lemma X_node : forall x2 i, (IZR i <= X x2 <-> node a2 b2 n2 i <= x2) /\ (X x2 <= IZR i <-> x2 <= node a2 b2 n2 i).
Proof using N2 A2.
  clear Y A1.
  intros x2 i. assert (P : 0 < IZR (n2 - 1)) by (apply IZR_lt; lia). assert (Q : 0 < IZR (n2 - 1) / (b2 - a2)) by (apply Rdiv_lt_0_compat; lra).
  assert (M : forall u v, u <= v <-> X u <= X v). { intros u v. unfold X. split; intros H; [apply Rmult_le_compat_r; lra|]. apply Rmult_le_reg_r in H; lra. }
  rewrite <- (node_X i), <- !M. tauto.
Qed.
Lemma Y_node : forall x1 i, (IZR i <= Y x1 <-> node a1 b1 n1 i <= x1) /\ (Y x1 <= IZR i <-> x1 <= node a1 b1 n1 i).
Proof using N1 A1.
  clear X A2.
  intros x1 i. assert (P : 0 < IZR (n1 - 1)) by (apply IZR_lt; lia). assert (Q : 0 < IZR (n1 - 1) / (b1 - a1)) by (apply Rdiv_lt_0_compat; lra).
  assert (M : forall u v, u <= v <-> Y u <= Y v). { intros u v. unfold Y. split; intros H; [apply Rmult_le_compat_r; lra|]. apply Rmult_le_reg_r in H; lra. }
  rewrite <- (node_Y i), <- !M. tauto.
Qed.
End T.
Lemma convex : forall u v a b c e lo hi, 0 <= u <= 1 -> 0 <= v <= 1 -> lo <= a <= hi -> lo <= b <= hi -> lo <= c <= hi -> lo <= e <= hi ->
  lo <= u * v * a + u * (1 - v) * b + (1 - u) * v * c + (1 - u) * (1 - v) * e <= hi.
Proof.
  intros u v a b c e lo hi Hu Hv Ha Hb Hc He.
  assert (W1 : 0 <= u * v) by (apply Rmult_le_pos; lra). assert (W2 : 0 <= u * (1 - v)) by (apply Rmult_le_pos; lra). assert (W3 : 0 <= (1 - u) * v) by (apply Rmult_le_pos; lra). assert (W4 : 0 <= (1 - u) * (1 - v)) by (apply Rmult_le_pos; lra).
  assert (forall w x, 0 <= w -> lo <= x <= hi -> w * lo <= w * x <= w * hi) as K by (intros; split; apply Rmult_le_compat_l; lra).
  pose proof (K _ _ W1 Ha). pose proof (K _ _ W2 Hb). pose proof (K _ _ W3 Hc). pose proof (K _ _ W4 He).
  assert (forall z, z = u * v * z + u * (1 - v) * z + (1 - u) * v * z + (1 - u) * (1 - v) * z) as S by (intros; ring). rewrite (S lo), (S hi) at 1. lra.
Qed.
