(** Property C53: table lookup. *)
From Coq Require Import Reals ZArith Bool Lra Lia Psatz.
From Verif Require Import Time_Model Time_Proofs Time_Proofs2 Interp_Model Interp_Spec Interp_Proofs.
Local Open Scope R_scope.

(** For every point inside the table (node counts as for an int array) the lookup is defined and its value lies within any bounds of the four nodes around the point. *)
Theorem C53_bounded : forall n2 n1 d a2 b2 a1 b1 x2 x1, (2 <= n2 <= 2 ^ 31 - 1)%Z -> (2 <= n1 <= 2 ^ 31 - 1)%Z -> a2 < b2 -> a1 < b1 -> a2 <= x2 <= b2 -> a1 <= x1 <= b1 ->
  exists i j v, interpolate (make n2 n1 d a2 b2 a1 b1) x2 x1 = Some v /\ (0 <= i <= n2 - 2)%Z /\ (0 <= j <= n1 - 2)%Z /\
    node a2 b2 n2 i <= x2 <= node a2 b2 n2 (i + 1) /\ node a1 b1 n1 j <= x1 <= node a1 b1 n1 (j + 1) /\
    forall lo hi, (forall p q, (i <= p <= i + 1)%Z -> (j <= q <= j + 1)%Z -> lo <= d p q <= hi) -> lo <= v <= hi.
Proof.
  intros n2 n1 d a2 b2 a1 b1 x2 x1 N2 N1 A2 A1 H2 H1. change (2 ^ 31)%Z with 2147483648%Z in *.
  pose proof (inside_X n2 a2 b2 ltac:(lia) A2 x2 H2) as IX. pose proof (inside_Y n1 a1 b1 ltac:(lia) A1 x1 H1) as IY. cbv beta in IX, IY.
  assert (B2 : IZR (n2 - 1) < 2147483647) by (apply IZR_lt; lia). assert (B1 : IZR (n1 - 1) < 2147483647) by (apply IZR_lt; lia).
  destruct (value n2 n1 d a2 b2 a1 b1 ltac:(lia) ltac:(lia) x2 x1) as (i & j & Ei & Ej & Hi & Hj & V); [lra|lra|].
  pose proof (clamp_in _ n2 ltac:(lia) IX) as CX. pose proof (clamp_in _ n1 ltac:(lia) IY) as CY. cbv zeta in CX, CY. rewrite <- Ei in CX. rewrite <- Ej in CY.
  eexists i, j, _. split; [exact V|]. split; [exact Hi|]. split; [exact Hj|].
  split; [split; [apply (proj1 (X_node n2 a2 b2 ltac:(lia) A2 x2 i)); lra|apply (proj2 (X_node n2 a2 b2 ltac:(lia) A2 x2 (i + 1))); rewrite plus_IZR; lra]|].
  split; [split; [apply (proj1 (Y_node n1 a1 b1 ltac:(lia) A1 x1 j)); lra|apply (proj2 (Y_node n1 a1 b1 ltac:(lia) A1 x1 (j + 1))); rewrite plus_IZR; lra]|].
  intros lo hi Hb. apply convex; try lra; apply Hb; lia.
Qed.
(** At a node: the table value. *)
Theorem C53_nodes : forall n2 n1 d a2 b2 a1 b1 p q, (2 <= n2 <= 2 ^ 31 - 1)%Z -> (2 <= n1 <= 2 ^ 31 - 1)%Z -> a2 < b2 -> a1 < b1 -> (0 <= p < n2)%Z -> (0 <= q < n1)%Z ->
  interpolate (make n2 n1 d a2 b2 a1 b1) (node a2 b2 n2 p) (node a1 b1 n1 q) = Some (d p q).
Proof.
  intros n2 n1 d a2 b2 a1 b1 p q N2 N1 A2 A1 Hp Hq. change (2 ^ 31)%Z with 2147483648%Z in *.
  assert (EX := node_X n2 a2 b2 ltac:(lia) A2 p). assert (EY := node_Y n1 a1 b1 ltac:(lia) A1 q). cbv zeta in EX, EY.
  assert (Bp : 0 <= IZR p < 2147483647) by (split; [apply IZR_le; lia|apply IZR_lt; lia]). assert (Bq : 0 <= IZR q < 2147483647) by (split; [apply IZR_le; lia|apply IZR_lt; lia]).
  destruct (value n2 n1 d a2 b2 a1 b1 ltac:(lia) ltac:(lia) (node a2 b2 n2 p) (node a1 b1 n1 q)) as (i & j & Ei & Ej & Hi & Hj & V); [rewrite EX; lra|rewrite EY; lra|].
  rewrite EX in V, Ei. rewrite EY in V, Ej. rewrite (trunc_pos _ p) in Ei by (try lia; lra). rewrite (trunc_pos _ q) in Ej by (try lia; lra).
  assert (Ci : i = p \/ (i + 1 = p)%Z). { subst i. unfold clamp. destruct (Z.ltb_spec p 0); [lia|]. destruct (Z.leb_spec (n2 - 1) p); lia. }
  assert (Cj : j = q \/ (j + 1 = q)%Z). { subst j. unfold clamp. destruct (Z.ltb_spec q 0); [lia|]. destruct (Z.leb_spec (n1 - 1) q); lia. }
  rewrite V. f_equal. destruct Ci as [-> |Ci]; destruct Cj as [-> |Cj]; try rewrite <- Ci; try rewrite <- Cj; rewrite ?plus_IZR; ring.
Qed.
(** Data that are bilinear in the position are reproduced exactly everywhere, also outside the table (extrapolation), as long as the scaled position fits an int. *)
Theorem C53_bilinear : forall n2 n1 c0 c1 c2 c3 a2 b2 a1 b1 x2 x1, (2 <= n2)%Z -> (2 <= n1)%Z -> a2 < b2 -> a1 < b1 ->
  let f x y := c0 + c1 * x + c2 * y + c3 * x * y in
  - 2147483647 < (x2 - a2) * (IZR (n2 - 1) / (b2 - a2)) < 2147483647 -> - 2147483647 < (x1 - a1) * (IZR (n1 - 1) / (b1 - a1)) < 2147483647 ->
  interpolate (make n2 n1 (fun i j => f (node a2 b2 n2 i) (node a1 b1 n1 j)) a2 b2 a1 b1) x2 x1 = Some (f x2 x1).
Proof.
  intros n2 n1 c0 c1 c2 c3 a2 b2 a1 b1 x2 x1 N2 N1 A2 A1 f HX HY.
  destruct (value n2 n1 (fun i j => f (node a2 b2 n2 i) (node a1 b1 n1 j)) a2 b2 a1 b1 N2 N1 x2 x1 HX HY) as (i & j & _ & _ & _ & _ & V). rewrite V. f_equal. unfold f, node.
  assert (P2 : 0 < IZR (n2 - 1)) by (apply IZR_lt; lia). assert (P1 : 0 < IZR (n1 - 1)) by (apply IZR_lt; lia). rewrite !plus_IZR. field. lra.
Qed.
(** Finding: a table with a single node in a direction is read outside its bounds. *)
Theorem C53_single_node_refuted : forall n1 d a2 b2 a1 b1 x2 x1, interpolate (make 1 n1 d a2 b2 a1 b1) x2 x1 = None.
Proof.
  intros. unfold interpolate. cbv zeta. change (x2norm (make 1 n1 d a2 b2 a1 b1)) with (0 / (b2 - a2)). unfold Rdiv at 1. rewrite Rmult_0_l, Rmult_0_r.
  rewrite cast_ok by lra. destruct (cast _) as [yi|]; [|reflexivity]. rewrite (trunc_pos 0 0) by (try lia; lra).
  assert (forall j, at_ (make 1 n1 d a2 b2 a1 b1) (clamp 0 (nx2 (make 1 n1 d a2 b2 a1 b1))) j = None) as E by reflexivity. rewrite E. reflexivity.
Qed.
Example ex_hyp : (2 <= 3 <= 2 ^ 31 - 1)%Z /\ (0:R) < 2 /\ (0 <= 1 / 2 <= 2). Proof. split; [lia|]. split; lra. Qed.
Print Assumptions C53_bounded. Print Assumptions C53_bilinear.
