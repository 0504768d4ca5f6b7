(** A relativistic ideal gas. *)
From Coq Require Import Reals.
Local Open Scope R_scope.
(** Square of the spatial part of the four-velocity, Lorentz factor. *)
Definition usq (x y z : R) : R := x ^ 2 + y ^ 2 + z ^ 2.
Definition lfac (x y z : R) : R := sqrt (1 + usq x y z).
(** Enthalpy density. *)
Definition enthalpy (gamma r p : R) : R := r + gamma / (gamma - 1) * p.
(** (d, e, m1, m2, m3) are the densities of rest mass, energy and momentum of gas with density r, pressure p and four-velocity (x, y, z). *)
Definition describes (gamma d e m1 m2 m3 r p x y z : R) : Prop :=
  let l := lfac x y z in let w := enthalpy gamma r p in
  d = r * l /\ e = w * l ^ 2 - p /\ m1 = w * l * x /\ m2 = w * l * y /\ m3 = w * l * z.
(** Sum of two parallel velocities. *)
Definition add_velocities (v w : R) : R := (v + w) / (1 + v * w).
