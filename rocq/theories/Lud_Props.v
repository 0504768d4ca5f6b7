(** C78: linear systems are solved, matrices inverted, vectors rotated. *)
From Coq Require Import Reals List Bool Arith Lra Lia.
From Verif Require Import Time_Model Time_Proofs Lud_Model Lud_Spec Lud_Proofs Lud_Proofs2.
Import ListNotations.
Local Open Scope R_scope.

(** Decomposition followed by substitution solves the system for every right-hand side, whatever indx held before. *)
Theorem C78_solves : forall n a indx0, invertible n a ->
  exists s, Ludcmp_nr n a indx0 = Some s /\ forall b i, (i < n)%nat -> apply_ n a (Lubksb_nr n (la s) (indx s) b) i = b i.
Proof. intros n a ix [b I]. destruct (decomposed n a b I ix) as [s [E V]]. exists s. split; auto. intros c i Hi. apply solved; auto. Qed.
Print Assumptions C78_solves.
(** InverseMatrix returns the inverse. *)
Theorem C78_inverse : forall n a b indx0, inverse n a b -> exists x, InverseMatrix n a indx0 = Some x /\ forall i j, (i < n)%nat -> (j < n)%nat -> x i j = b i j.
Proof.
  intros n a b ix I. destruct (decomposed n a b I ix) as [s [E V]]. unfold InverseMatrix. rewrite E. eexists. split; [reflexivity|]. intros i j Hi Hj.
  apply (left_from_right n a b (fun i j => Lubksb_nr n (la s) (indx s) (fun r => if (r =? j)%nat then 1 else 0) i) I); auto. clear i j Hi Hj.
  intros i j Hi Hj. unfold product. rewrite (solved n a s) by auto. unfold one. reflexivity.
Qed.
Print Assumptions C78_inverse.
(** A row of zeros ends the program. *)
Theorem C78_singular : forall n a indx0 i, (i < n)%nat -> (forall j, (j < n)%nat -> a i j = 0) -> Ludcmp_nr n a indx0 = None /\ InverseMatrix n a indx0 = None.
Proof.
  intros n a ix i Hi Z. assert (E : Ludcmp_nr n a ix = None); [|unfold InverseMatrix; rewrite E; auto].
  unfold Ludcmp_nr, scaling. replace (existsb (fun i => isZ (row_big n a i)) (seq 0 n)) with true; auto. symmetry. apply existsb_exists. exists i. split; [apply in_seq; lia|].
  assert (R : row_big n a i = 0). { unfold row_big. assert (G : forall l, (forall j, In j l -> (j < n)%nat) -> fold_left (fun big j => if ltR big (Rabs (a i j)) then Rabs (a i j) else big) l 0 = 0).
    { induction l; intros H; simpl; auto. rewrite Z by (apply H; left; auto). rewrite Rabs_R0. destruct (ltR 0 0); apply IHl; intros; apply H; right; auto. } apply G. intros j Hj. apply in_seq in Hj. lia. }
  rewrite R. unfold isZ. destruct (Req_EM_T 0 0); auto.
Qed.
Print Assumptions C78_singular.
Theorem C78_product : forall n a b i, MatrixMult n a b i = apply_ n a b i.
Proof. intros. unfold MatrixMult, apply_. apply (fold_plus (fun j => a i j * b j)). Qed.
Print Assumptions C78_product.
(** Rotations keep lengths and undo each other. *)
Theorem C78_rotation : forall theta phi v, let r := RotateVec (sin theta) (cos theta) (sin phi) (cos phi) in let q := InvRotateVec (sin theta) (cos theta) (sin phi) (cos phi) in
  q (r v) = v /\ r (q v) = v /\ square (r v) = square v.
Proof.
  intros t p [[x y] z]. cbv zeta. unfold RotateVec, InvRotateVec, square. pose proof (sin2_cos2 t) as T. pose proof (sin2_cos2 p) as P. unfold Rsqr in *. set (st := sin t) in *. set (ct := cos t) in *. set (sp := sin p) in *. set (cp := cos p) in *.
  assert (T' : ct * ct = 1 - st * st) by lra. assert (P' : cp * cp = 1 - sp * sp) by lra. split; [|split].
  - f_equal; [f_equal|].
    + transitivity (x * (cp * cp) * (st * st + ct * ct) + x * (sp * sp) + y * (cp * sp) * (st * st + ct * ct - 1)); [ring|]. rewrite T, P'. ring.
    + transitivity (x * (cp * sp) * (st * st + ct * ct - 1) + y * (sp * sp) * (st * st + ct * ct) + y * (cp * cp)); [ring|]. rewrite T, P'. ring.
    + transitivity (z * (st * st + ct * ct)); [ring|]. rewrite T. ring.
  - f_equal; [f_equal|].
    + transitivity ((sp * sp + cp * cp) * (x * (st * st) - z * (st * ct)) + x * (ct * ct) + z * (st * ct)); [ring|]. rewrite P, T'. ring.
    + transitivity (y * (sp * sp + cp * cp)); [ring|]. rewrite P. ring.
    + transitivity ((sp * sp + cp * cp) * (- x * (st * ct) + z * (ct * ct)) + x * (st * ct) + z * (st * st)); [ring|]. rewrite P, T'. ring.
  - transitivity ((st * st + ct * ct) * (cp * x + sp * y) * (cp * x + sp * y) + (st * st + ct * ct) * (z * z) + (cp * y - sp * x) * (cp * y - sp * x)); [ring|]. rewrite T.
    transitivity ((sp * sp + cp * cp) * (x * x + y * y) + z * z); [ring|]. rewrite P. ring.
Qed.
Print Assumptions C78_rotation.
(** A matrix whose decomposition needs an interchange. *)
Example C78_witness : inverse 2 (fun i j => if (i =? j)%nat then 0 else 2) (fun i j => if (i =? j)%nat then 0 else 1 / 2) /\ invertible 2 (fun i j => if (i =? j)%nat then 0 else 2).
Proof.
  assert (I : inverse 2 (fun i j => if (i =? j)%nat then 0 else 2) (fun i j => if (i =? j)%nat then 0 else 1 / 2)).
  { intros i j Hi Hj. destruct i as [|[|i]], j as [|[|j]]; try lia; unfold product, one; cbn [total Nat.eqb]; split; field. }
  split; auto. eexists. exact I.
Qed.
