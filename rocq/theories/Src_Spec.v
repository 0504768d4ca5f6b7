(** Small specification for C83. *)
From Coq Require Import Reals ZArith.
From Verif Require Import Fv_Model Met_Model Src_Model Tor_Spec.
Local Open Scope R_scope.
(** The work done on the gas of a cell: its velocity times the momentum it received. *)
Definition work (w : prims) (k j i : Z) (u u' : cell) : R := v1 w k j i * (c_1 u' - c_1 u) + v2 w k j i * (c_2 u' - c_2 u) + v3 w k j i * (c_3 u' - c_3 u).
Definition gain (u u' : cell) : R := c_e u' - c_e u.
(** The mass fluxes through the six faces of a cell are those of its own gas. *)
Definition flows_with (w : prims) (F : vec) (k j i : Z) : Prop :=
  (x1 F k j i = rho w k j i * v1 w k j i /\ x1 F k j (i + 1)%Z = rho w k j i * v1 w k j i) /\
  (x2 F k j i = rho w k j i * v2 w k j i /\ x2 F k (j + 1)%Z i = rho w k j i * v2 w k j i) /\
  (x3 F k j i = rho w k j i * v3 w k j i /\ x3 F (k + 1)%Z j i = rho w k j i * v3 w k j i).
(** Half the width of a cell relative to its radius. *)
Definition slimness (g : grid) (i : Z) : R := (x1f g (i + 1)%Z - x1f g i) / (x1f g (i + 1)%Z + x1f g i).
(** A radial cell: positive faces in order, with the width of the code. *)
Definition radial_cell (g : grid) (i : Z) : Prop := 0 < x1f g i /\ x1f g i < x1f g (i + 1)%Z /\ dx1f g i = x1f g (i + 1)%Z - x1f g i.
(** The gas seen from a frame in which it moves around the axis faster by vc: component 2 (cylindrical) or 3 (spherical polar). *)
Definition seen_faster (s : system) (w : prims) (vc : arr) : prims :=
  mkPr (rho w) (v1 w) (match s with cylindrical => fun k j i => v2 w k j i + vc k j i | _ => v2 w end) (match s with spherical_polar => fun k j i => v3 w k j i + vc k j i | _ => v3 w end) (prs w) (b1 w) (b2 w) (b3 w).
(** Local conservation: a density changes by nothing but fluxes through the faces of the cells. *)
Definition by_fluxes (d : dims) (dx dy dz dt : R) (G : vec) (k j i : Z) : R :=
  - dt * ((x1 G k j (i + 1)%Z - x1 G k j i) / dx + (if Z.ltb 1 (nx2 d) then (x2 G k (j + 1)%Z i - x2 G k j i) / dy else 0) + (if Z.ltb 1 (nx3 d) then (x3 G (k + 1)%Z j i - x3 G k j i) / dz else 0)).
(** Poisson's equation on a uniform mesh, differences along the directions in use: the Laplacian of the potential is fourpiG times the density above a mean. *)
Definition poisson (d : dims) (dx dy dz fourpiG mean : R) (rho phi : arr) : Prop := forall k j i,
  (phi k j (i + 1)%Z - 2 * phi k j i + phi k j (i - 1)%Z) / (dx * dx) + (if Z.ltb 1 (nx2 d) then (phi k (j + 1)%Z i - 2 * phi k j i + phi k (j - 1)%Z i) / (dy * dy) else 0)
  + (if Z.ltb 1 (nx3 d) then (phi (k + 1)%Z j i - 2 * phi k j i + phi (k - 1)%Z j i) / (dz * dz) else 0) = fourpiG * (rho k j i - mean).
