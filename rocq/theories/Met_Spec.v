(** Small specification for C50, C66, C67: the geometry is that of the orthogonal coordinates. *)
From Coq Require Import Reals ZArith List Bool.
From Verif Require Import Fv_Model Fv_Spec Ref_Model Ref_Spec Met_Model.
Import ListNotations.
Local Open Scope R_scope.

(** Scale factors: a step dx in coordinate n covers the length h_n dx. *)
Definition h1 (s : system) (x1 x2 x3 : R) : R := 1.
Definition h2 (s : system) (x1 x2 x3 : R) : R := match s with cartesian => 1 | _ => x1 end.
Definition h3 (s : system) (x1 x2 x3 : R) : R := match s with spherical_polar => x1 * sin x2 | _ => 1 end.

(** v is the integral of f over [a,b] (f has a primitive there); double and triple integrals one after the other. *)
Definition integral (f : R -> R) (a b v : R) : Prop := a <= b /\ exists F, (forall x, a <= x <= b -> derivable_pt_lim F x (f x)) /\ v = F b - F a.
Definition integral2 (f : R -> R -> R) (a b c d v : R) : Prop :=
  exists g, (forall x, a <= x <= b -> integral (f x) c d (g x)) /\ integral g a b v.
Definition integral3 (f : R -> R -> R -> R) (a b c d p q v : R) : Prop :=
  exists g, (forall x, a <= x <= b -> integral2 (f x) c d p q (g x)) /\ integral g a b v.
Definition volume_element (s : system) (x1 x2 x3 : R) : R := h1 s x1 x2 x3 * h2 s x1 x2 x3 * h3 s x1 x2 x3.

(** Widths are differences of the faces (C49_widths). *)
Definition aligned (g : grid) : Prop := forall n, dx1f g n = x1f g (n + 1)%Z - x1f g n /\ dx2f g n = x2f g (n + 1)%Z - x2f g n /\ dx3f g n = x3f g (n + 1)%Z - x3f g n.
(** A cell of positive extent in the range of the coordinates. *)
Definition radius_ok (s : system) (r : R) : Prop := match s with cartesian => True | _ => 0 <= r end.
Definition angle_ok (s : system) (a b : R) : Prop := match s with spherical_polar => 0 <= a /\ b <= PI | _ => True end.
Definition proper (s : system) (g : grid) (k j i : Z) : Prop :=
  x1f g i < x1f g (i + 1)%Z /\ x2f g j < x2f g (j + 1)%Z /\ x3f g k < x3f g (k + 1)%Z /\ radius_ok s (x1f g i) /\ angle_ok s (x2f g j) (x2f g (j + 1)%Z).
(** A block all of whose cells are proper; without a second dimension the two faces in x2 lie symmetrically about the equator (checked by the code). *)
Definition proper_block (s : system) (d : dims) (g : grid) : Prop :=
  aligned g /\ (forall k j i, is_active d k j i -> proper s g k j i) /\ (nx2 d = 1%Z -> s = spherical_polar -> x2f g (js d + 1)%Z = PI - x2f g (js d)).
(** Where the axis is: faces of zero area. *)
Definition off_axis (s : system) (r : R) : Prop := match s with cartesian => True | _ => 0 < r end.
Definition off_pole (s : system) (t : R) : Prop := match s with spherical_polar => 0 < t < PI | _ => True end.

(** A fine grid refines a coarse one in the directions the block has. *)
Definition finer (n s cs : Z) (f x : Z -> R) (a : Z) : Prop :=
  let m := (s + 2 * (a - cs))%Z in
  if Z.ltb 1 n then f m = x a /\ f (m + 2)%Z = x (a + 1)%Z else f s = x a /\ f (s + 1)%Z = x (a + 1)%Z.
Definition refines (d : dims) (c : coff) (gf gc : grid) (q : pt) : Prop := let '(k, j, i) := q in
  let m := (is_ d + 2 * (i - cis c))%Z in (x1f gf m = x1f gc i /\ x1f gf (m + 2)%Z = x1f gc (i + 1)%Z) /\
  finer (nx2 d) (js d) (cjs c) (x2f gf) (x2f gc) j /\ finer (nx3 d) (ks d) (cks c) (x3f gf) (x3f gc) k.

(** A coarse cell and the fine cells in it. *)
Definition nested_cells (s : system) (d : dims) (c : coff) (gf gc : grid) (q : pt) : Prop :=
  aligned gf /\ aligned gc /\ refines d c gf gc q /\ (let '(k, j, i) := q in proper s gc k j i) /\ (forall k j i, In (k, j, i) (cells d c q) -> proper s gf k j i) /\
  (nx2 d = 1%Z -> s = spherical_polar -> x2f gf (js d + 1)%Z = PI - x2f gf (js d)).
(** Cell centres, and the centres used on the faces of each direction. *)
Definition centres (s : system) (d : dims) (g : grid) : pos := mkP (x1v s g) (x2v s g (nx2 d)) (x3v s g).
Definition centres1 (s : system) (d : dims) (g : grid) : pos := mkP (x1f g) (x2s1 s g (nx2 d)) (x3s1 s g).
Definition centres2 (s : system) (d : dims) (g : grid) : pos := mkP (x1s2 s g) (x2f g) (x3s2 s g).
Definition centres3 (s : system) (d : dims) (g : grid) : pos := mkP (x1s3 s g) (x2s3 s g (nx2 d)) (x3f g).

(** The lever arm of a cell about the axis and the flow of angular momentum through its faces. *)
Definition mid (f : Z -> R) (n : Z) : R := (f n + f (n + 1)%Z) / 2.
Definition arm (s : system) (g : grid) (j i : Z) : R :=
  match s with cartesian => 1 | cylindrical => mid (x1f g) i | spherical_polar => mid (x1f g) i * mid (fun n => sin (x2f g n)) j end.
Definition torque (s : system) (g : grid) (f : vec) : vec :=
  match s with
  | cartesian => f
  | cylindrical => mkV (fun k j i => x1f g i * x1 f k j i) (fun k j i => mid (x1f g) i * x2 f k j i) (fun k j i => mid (x1f g) i * x3 f k j i)
  | spherical_polar => mkV (fun k j i => x1f g i * mid (fun n => sin (x2f g n)) j * x1 f k j i) (fun k j i => mid (x1f g) i * sin (x2f g j) * x2 f k j i)
                           (fun k j i => mid (x1f g) i * mid (fun n => sin (x2f g n)) j * x3 f k j i)
  end.
(** The azimuthal momentum: the second component in cylindrical, the third in spherical-polar coordinates. *)
Definition azimuthal (s : system) (u : momenta) : arr := match s with spherical_polar => M3 u | _ => M2 u end.
Definition azimuthal_flux (s : system) (f : mflux) : vec := match s with spherical_polar => FM3 f | _ => FM2 f end.

(** A fluid at rest with pressure P: the only momentum flux is the pressure on each face. *)
Definition at_rest (P : R) (w : prims) : Prop := forall k j i, v2 w k j i = 0 /\ v3 w k j i = 0 /\ prs w k j i = P /\ b1 w k j i = 0 /\ b2 w k j i = 0 /\ b3 w k j i = 0.
Definition pressure_flux (P : R) (f : mflux) : Prop := forall k j i,
  x1 (FM1 f) k j i = P /\ x2 (FM1 f) k j i = 0 /\ x3 (FM1 f) k j i = 0 /\ x1 (FM2 f) k j i = 0 /\ x2 (FM2 f) k j i = P /\ x3 (FM2 f) k j i = 0 /\ x1 (FM3 f) k j i = 0 /\ x2 (FM3 f) k j i = 0 /\ x3 (FM3 f) k j i = P.
