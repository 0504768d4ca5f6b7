(** Small specification for C81. *)
From Coq Require Import Reals ZArith.
From Verif Require Import Fv_Model Tor_Spec.
Local Open Scope R_scope.
(** A velocity that is linear in the coordinates: component c is b c + sum over n of G c n * (coordinate n), with cell centres at (i dx, j dy, k dz).  Directions are 1, 2, 3. *)
Definition linear (dx dy dz : R) (b : nat -> R) (G : nat -> nat -> R) (c : nat) : arr :=
  fun k j i => b c + G c 1%nat * (IZR i * dx) + G c 2%nat * (IZR j * dy) + G c 3%nat * (IZR k * dz).
(** The viscous momentum flux of a Newtonian fluid without bulk viscosity: component c of the momentum through a face of direction n. *)
Definition newtonian (mu : R) (G : nat -> nat -> R) (n c : nat) : R :=
  - mu * (G c n + G n c - (if Nat.eqb n c then 2 / 3 * (G 1%nat 1%nat + G 2%nat 2%nat + G 3%nat 3%nat) else 0)).
(** Rate of change of momentum by a flux through the faces of a uniform mesh. *)
Definition rate (dx dy dz : R) (F1 F2 F3 : arr) : arr :=
  fun k j i => - ((F1 k j (i + 1)%Z - F1 k j i) / dx + (F2 k (j + 1)%Z i - F2 k j i) / dy + (F3 (k + 1)%Z j i - F3 k j i) / dz).
(** The work per time: velocity times rate of change of momentum, summed over a periodic mesh. *)
Definition power (n1 n2 n3 : nat) (v1 v2 v3 r1 r2 r3 : arr) : R := box_sum n1 n2 n3 (fun k j i => v1 k j i * r1 k j i + v2 k j i * r2 k j i + v3 k j i * r3 k j i).
(** The heat a gradient of the velocity makes of a momentum flux f at the face between two cells with velocities below and above: the flux times the drop of the velocity per length. *)
Definition friction (dx f1 f2 f3 a1 a2 a3 b1 b2 b3 : R) : R := (f1 * (a1 - b1) + f2 * (a2 - b2) + f3 * (a3 - b3)) / dx.
