(** Small specification for C82. *)
From Coq Require Import Reals ZArith.
From Verif Require Import Fv_Model Tor_Spec.
Local Open Scope R_scope.
(** A mesh of n1 x n2 x n3 cells in one block. *)
Definition whole (n1 n2 n3 : nat) : dims := mkD 0 (Z.of_nat n1 - 1) 0 (Z.of_nat n2 - 1) 0 (Z.of_nat n3 - 1) false false.
Definition periodic_field (n1 n2 n3 : nat) (b : vec) : Prop := periodic n1 n2 n3 (x1 b) /\ periodic n1 n2 n3 (x2 b) /\ periodic n1 n2 n3 (x3 b).
(** Twice the magnetic energy of the mesh in units of a cell volume: the squares of the fields of all faces, each face once. *)
Definition magnetic_energy (n1 n2 n3 : nat) (b : vec) : R := box_sum n1 n2 n3 (fun k j i => x1 b k j i ^ 2 + x2 b k j i ^ 2 + x3 b k j i ^ 2).
(** b' is b after the exchange of boundaries: periodic, the same on the faces of the mesh. *)
Definition exchanged (n1 n2 n3 : nat) (b b' : vec) : Prop := periodic_field n1 n2 n3 b' /\
  forall k j i, (0 <= k < Z.of_nat n3)%Z -> (0 <= j < Z.of_nat n2)%Z -> (0 <= i < Z.of_nat n1)%Z -> x1 b' k j i = x1 b k j i /\ x2 b' k j i = x2 b k j i /\ x3 b' k j i = x3 b k j i.
(** A magnetic field that is linear in the coordinates and its curl. *)
Definition linear_field (dx dy dz : R) (b : nat -> R) (G : nat -> nat -> R) : vec :=
  let f c := fun k j i => b c + G c 1%nat * (IZR i * dx) + G c 2%nat * (IZR j * dy) + G c 3%nat * (IZR k * dz) in mkV (f 1%nat) (f 2%nat) (f 3%nat).
Definition curl (G : nat -> nat -> R) (c : nat) : R :=
  match c with 1%nat => G 3%nat 2%nat - G 2%nat 3%nat | 2%nat => G 1%nat 3%nat - G 3%nat 1%nat | _ => G 2%nat 1%nat - G 1%nat 2%nat end.
