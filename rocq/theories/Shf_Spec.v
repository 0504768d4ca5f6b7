(** Small specification for C93; along, cell, accepted, boundary_total: Shb_Spec; displaced, reconstructed: Orb_Spec. *)
From Coq Require Import Reals ZArith.
From Verif Require Import Shb_Model Shb_Spec.
Local Open Scope R_scope.

(** The last face of a block is the first face of the next block along the boundary. *)
Definition shared (m : box) (u : Z -> Z -> R) : Prop := forall s, (0 <= s < nblx2 m)%Z -> u s (js m + nx2 m)%Z = u ((s + 1) mod nblx2 m)%Z (js m).
(** The divergence of the magnetic field in a cell from the fields on its six faces. *)
Definition divergence (dx1 dx2 dx3 left1 right1 left2 right2 left3 right3 : R) : R := (right1 - left1) / dx1 + (right2 - left2) / dx2 + (right3 - left3) / dx3.
