(** Matrices: product, identity, inverse. *)
From Coq Require Import Reals List.
Local Open Scope R_scope.
(** f 0 + ... + f (n-1). *)
Fixpoint total (n : nat) (f : nat -> R) : R := match n with O => 0 | S m => total m f + f m end.
Definition apply_ (n : nat) (a : nat -> nat -> R) (x : nat -> R) (i : nat) : R := total n (fun j => a i j * x j).
Definition product (n : nat) (a b : nat -> nat -> R) (i j : nat) : R := total n (fun k => a i k * b k j).
Definition one (i j : nat) : R := if Nat.eqb i j then 1 else 0.
(** b is the inverse of the n by n matrix a. *)
Definition inverse (n : nat) (a b : nat -> nat -> R) : Prop :=
  forall i j, (i < n)%nat -> (j < n)%nat -> product n a b i j = one i j /\ product n b a i j = one i j.
Definition invertible (n : nat) (a : nat -> nat -> R) : Prop := exists b, inverse n a b.
(** Rotations keep lengths. *)
Definition square (v : R * R * R) : R := let '(x, y, z) := v in x * x + y * y + z * z.
