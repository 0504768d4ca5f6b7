(** Sums over the cells of a periodic mesh of n1 x n2 x n3 cells. *)
From Coq Require Import Reals ZArith.
From Verif Require Import Fv_Model Lud_Spec.
Local Open Scope R_scope.
Definition row_sum (n : nat) (f : Z -> R) : R := total n (fun i => f (Z.of_nat i)).
Definition box_sum (n1 n2 n3 : nat) (f : arr) : R := row_sum n3 (fun k => row_sum n2 (fun j => row_sum n1 (fun i => f k j i))).
Definition periodic (n1 n2 n3 : nat) (f : arr) : Prop :=
  forall k j i, f k j (i + Z.of_nat n1)%Z = f k j i /\ f k (j + Z.of_nat n2)%Z i = f k j i /\ f (k + Z.of_nat n3)%Z j i = f k j i.
