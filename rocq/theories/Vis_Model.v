(** Isotropic viscosity, exact arithmetic: src/hydro/hydro_diffusion/viscosity.cpp.  The loops visit every face of the block; arrays are functions of (k,j,i) here and the loop ranges are left out. *)
From Coq Require Import Reals ZArith Bool.
From Verif Require Import Fv_Model.
Local Open Scope R_scope.

(** coordinates.hpp: distances of cell centres, scale factors at cell centres (v) and faces (f), their derivatives, IsPole. *)
Record vmetric := mkVM { dx1v : Z -> R; dx2v : Z -> R; dx3v : Z -> R; h2v : Z -> R; h2f : Z -> R; h31v : Z -> R; h31f : Z -> R; h32v : Z -> R; h32f : Z -> R;
  dh2vd1 : Z -> R; dh31vd1 : Z -> R; dh32vd2 : Z -> R; IsPole : Z -> bool }.
(** Density and velocity (IDN, IM1, IM2, IM3 of the primitive variables). *)
Record flow := mkF { den : arr; v1 : arr; v2 : arr; v3 : arr }.

(** DivVelocity, 218-282. *)
Definition DivVelocity (f2 f3 : bool) (g : geom) (p : flow) (k j i : Z) : R :=
  let d := A1 g k j (i + 1)%Z * (/ 2 * (v1 p k j (i + 1)%Z + v1 p k j i)) - A1 g k j i * (/ 2 * (v1 p k j i + v1 p k j (i - 1)%Z)) in
  let d := if f2 then d + (A2 g k (j + 1)%Z i * (/ 2 * (v2 p k (j + 1)%Z i + v2 p k j i)) - A2 g k j i * (/ 2 * (v2 p k j i + v2 p k (j - 1)%Z i))) else d in
  let d := if f3 then d + (A3 g (k + 1)%Z j i * (/ 2 * (v3 p (k + 1)%Z j i + v3 p k j i)) - A3 g k j i * (/ 2 * (v3 p k j i + v3 p (k - 1)%Z j i))) else d in
  d / V g k j i.

(** 284-292 *)
Definition FaceXdx (m : vmetric) (p : flow) (k j i : Z) : R := 2 * (v1 p k j i - v1 p k j (i - 1)%Z) / dx1v m (i - 1)%Z.
(** 294-318 *)
Definition FaceXdy (f2 : bool) (m : vmetric) (p : flow) (k j i : Z) : R :=
  let a := h2f m i * (v2 p k j i / h2v m i - v2 p k j (i - 1)%Z / h2v m (i - 1)%Z) / dx1v m (i - 1)%Z in
  if f2 then a + / 2 * ((v1 p k (j + 1)%Z i + v1 p k (j + 1)%Z (i - 1)%Z) - (v1 p k (j - 1)%Z i + v1 p k (j - 1)%Z (i - 1)%Z)) / h2f m i / (dx2v m (j - 1)%Z + dx2v m j) else a.
(** 320-343 *)
Definition FaceXdz (f3 : bool) (m : vmetric) (p : flow) (k j i : Z) : R :=
  let a := h31f m i * (v3 p k j i / h31v m i - v3 p k j (i - 1)%Z / h31v m (i - 1)%Z) / dx1v m (i - 1)%Z in
  if f3 then a + / 2 * ((v1 p (k + 1)%Z j i + v1 p (k + 1)%Z j (i - 1)%Z) - (v1 p (k - 1)%Z j i + v1 p (k - 1)%Z j (i - 1)%Z)) / h31f m i / h32v m j / (dx3v m (k - 1)%Z + dx3v m k) else a.
(** 345-366 *)
Definition FaceYdx (f2 : bool) (m : vmetric) (p : flow) (k j i : Z) : R :=
  if f2 then (v1 p k j i - v1 p k (j - 1)%Z i) / h2v m i / dx2v m (j - 1)%Z
    + h2v m i * / 2 * ((v2 p k j (i + 1)%Z + v2 p k (j - 1)%Z (i + 1)%Z) / h2v m (i + 1)%Z - (v2 p k j (i - 1)%Z + v2 p k (j - 1)%Z (i - 1)%Z) / h2v m (i - 1)%Z) / (dx1v m (i - 1)%Z + dx1v m i)
  else h2v m i * (v2 p k j (i + 1)%Z / h2v m (i + 1)%Z - v2 p k j (i - 1)%Z / h2v m (i - 1)%Z) / (dx1v m (i - 1)%Z + dx1v m i).
(** 368-383 *)
Definition FaceYdy (f2 : bool) (m : vmetric) (p : flow) (k j i : Z) : R :=
  if f2 then 2 * (v2 p k j i - v2 p k (j - 1)%Z i) / h2v m i / dx2v m (j - 1)%Z + (v1 p k j i + v1 p k (j - 1)%Z i) / h2v m i * dh2vd1 m i
  else 2 * v1 p k j i / h2v m i * dh2vd1 m i.
(** 385-415 *)
Definition FaceYdz (f2 f3 : bool) (m : vmetric) (p : flow) (k j i : Z) : R :=
  let a := h32f m j * (v3 p k j i / h32v m j - v3 p k (j - 1)%Z i / h32v m (j - 1)%Z) / h2v m i / dx2v m (j - 1)%Z in
  if f3 then a + / 2 * ((v2 p (k + 1)%Z j i + v2 p (k + 1)%Z (j - 1)%Z i) - (v2 p (k - 1)%Z j i + v2 p (k - 1)%Z (j - 1)%Z i)) / h31v m i / (dx3v m (k - 1)%Z + dx3v m k) / (if IsPole m j then 1 else h32f m j)
  else if f2 then a else 0.
(** 417-438: the first term is not divided by the scale factors. *)
Definition FaceZdx (f3 : bool) (m : vmetric) (p : flow) (k j i : Z) : R :=
  if f3 then (v1 p k j i - v1 p (k - 1)%Z j i) / dx3v m (k - 1)%Z
    + / 2 * h31v m i * ((v3 p k j (i + 1)%Z + v3 p (k - 1)%Z j (i + 1)%Z) / h31v m (i + 1)%Z - (v3 p k j (i - 1)%Z + v3 p (k - 1)%Z j (i - 1)%Z) / h31v m (i - 1)%Z) / (dx1v m (i - 1)%Z + dx1v m i)
  else h31v m i * (v3 p k j (i + 1)%Z / h31v m (i + 1)%Z - v3 p k j (i - 1)%Z / h31v m (i - 1)%Z) / (dx1v m (i - 1)%Z + dx1v m i).
(** 440-466 *)
Definition FaceZdy (f2 f3 : bool) (m : vmetric) (p : flow) (k j i : Z) : R :=
  if f3 then (v2 p k j i - v2 p (k - 1)%Z j i) / h31v m i / h32v m j / dx3v m (k - 1)%Z
    + / 2 * h32v m j * ((v3 p k (j + 1)%Z i + v3 p (k - 1)%Z (j + 1)%Z i) / h32v m (j + 1)%Z - (v3 p k (j - 1)%Z i + v3 p (k - 1)%Z (j - 1)%Z i) / h32v m (j - 1)%Z) / h2v m i / (dx2v m (j - 1)%Z + dx2v m j)
  else if f2 then h32v m j * (v3 p k (j + 1)%Z i / h32v m (j + 1)%Z - v3 p k (j - 1)%Z i / h32v m (j - 1)%Z) / h2v m i / (dx2v m (j - 1)%Z + dx2v m j)
  else 0.
(** 468-489 *)
Definition FaceZdz (f3 : bool) (m : vmetric) (p : flow) (k j i : Z) : R :=
  if f3 then 2 * (v3 p k j i - v3 p (k - 1)%Z j i) / dx3v m (k - 1)%Z / h31v m i / h32v m j
    + (v1 p k j i + v1 p (k - 1)%Z j i) * dh31vd1 m i / h31v m i
    + (v2 p k j i + v2 p (k - 1)%Z j i) * dh32vd2 m j / h32v m j / h2v m i
  else 2 * v1 p k j i * dh31vd1 m i / h31v m i + 2 * v2 p k j i * dh32vd2 m j / h32v m j / h2v m i.

(** The flux of momentum and energy through one face. *)
Record stress := mkS { s1 : R; s2 : R; s3 : R; se : R }.
(** ViscousFluxIso, 26-202.  p: the velocities in the energy flux, q: those whose gradients are taken (the same unless orbital advection subtracts the background); nu: the array of the viscosity; nonbaro: NON_BAROTROPIC_EOS. *)
Definition nuiso2 : R := - (2 / 3).
Definition x1visc (nonbaro f2 f3 : bool) (m : vmetric) (g : geom) (nu : arr) (p q : flow) (k j i : Z) : stress :=
  let nu1 := / 2 * (nu k j i + nu k j (i - 1)%Z) in
  let denf := / 2 * (den q k j i + den q k j (i - 1)%Z) in
  let flx1 := - denf * nu1 * (FaceXdx m q k j i + nuiso2 * / 2 * (DivVelocity f2 f3 g q k j i + DivVelocity f2 f3 g q k j (i - 1)%Z)) in
  let flx2 := - denf * nu1 * FaceXdy f2 m q k j i in
  let flx3 := - denf * nu1 * FaceXdz f3 m q k j i in
  mkS flx1 flx2 flx3 (if nonbaro then / 2 * ((v1 p k j (i - 1)%Z + v1 p k j i) * flx1 + (v2 p k j (i - 1)%Z + v2 p k j i) * flx2 + (v3 p k j (i - 1)%Z + v3 p k j i) * flx3) else 0).
Definition x2visc (nonbaro f2 f3 : bool) (m : vmetric) (g : geom) (nu : arr) (p q : flow) (k j i : Z) : stress :=
  if f2 then
    let nu1 := / 2 * (nu k j i + nu k (j - 1)%Z i) in
    let denf := / 2 * (den q k (j - 1)%Z i + den q k j i) in
    let flx1 := - denf * nu1 * FaceYdx f2 m q k j i in
    let flx2 := - denf * nu1 * (FaceYdy f2 m q k j i + nuiso2 * / 2 * (DivVelocity f2 f3 g q k (j - 1)%Z i + DivVelocity f2 f3 g q k j i)) in
    let flx3 := - denf * nu1 * FaceYdz f2 f3 m q k j i in
    mkS flx1 flx2 flx3 (if nonbaro then / 2 * ((v1 p k j i + v1 p k (j - 1)%Z i) * flx1 + (v2 p k j i + v2 p k (j - 1)%Z i) * flx2 + (v3 p k j i + v3 p k (j - 1)%Z i) * flx3) else 0)
  else
    let flx1 := - den q k j i * nu k j i * FaceYdx f2 m q k j i in
    let flx2 := - den q k j i * nu k j i * (FaceYdy f2 m q k j i + nuiso2 * DivVelocity f2 f3 g q k j i) in
    let flx3 := - den q k j i * nu k j i * FaceYdz f2 f3 m q k j i in
    mkS flx1 flx2 flx3 (if nonbaro then v1 p k j i * flx1 + v2 p k j i * flx2 + v3 p k j i * flx3 else 0).
Definition x3visc (nonbaro f2 f3 : bool) (m : vmetric) (g : geom) (nu : arr) (p q : flow) (k j i : Z) : stress :=
  if f3 then
    let nu1 := / 2 * (nu k j i + nu (k - 1)%Z j i) in
    let denf := / 2 * (den q (k - 1)%Z j i + den q k j i) in
    let flx1 := - denf * nu1 * FaceZdx f3 m q k j i in
    let flx2 := - denf * nu1 * FaceZdy f2 f3 m q k j i in
    let flx3 := - denf * nu1 * (FaceZdz f3 m q k j i + nuiso2 * / 2 * (DivVelocity f2 f3 g q (k - 1)%Z j i + DivVelocity f2 f3 g q k j i)) in
    mkS flx1 flx2 flx3 (if nonbaro then / 2 * ((v1 p k j i + v1 p (k - 1)%Z j i) * flx1 + (v2 p k j i + v2 p (k - 1)%Z j i) * flx2 + (v3 p k j i + v3 p (k - 1)%Z j i) * flx3) else 0)
  else
    let flx1 := - den q k j i * nu k j i * FaceZdx f3 m q k j i in
    let flx2 := - den q k j i * nu k j i * FaceZdy f2 f3 m q k j i in
    let flx3 := - den q k j i * nu k j i * (FaceZdz f3 m q k j i + nuiso2 * DivVelocity f2 f3 g q k j i) in
    mkS flx1 flx2 flx3 (if nonbaro then v1 p k j i * flx1 + v2 p k j i * flx2 + v3 p k j i * flx3 else 0).

(** cartesian.cpp 76-98: uniform spacing, all scale factors one. *)
Definition flat_metric (dx dy dz : R) : vmetric :=
  mkVM (fun _ => dx) (fun _ => dy) (fun _ => dz) (fun _ => 1) (fun _ => 1) (fun _ => 1) (fun _ => 1) (fun _ => 1) (fun _ => 1) (fun _ => 0) (fun _ => 0) (fun _ => 0) (fun _ => false).
(** cylindrical.cpp 70-92: h2 is the radius, the others are one.  spherical_polar.cpp 114-136: h2 and h31 are the radius, h32 is the sine of the angle; dh32vd2 its derivative. *)
Definition cyl_metric (dr dphi dz : Z -> R) (rv rf : Z -> R) : vmetric :=
  mkVM dr dphi dz rv rf (fun _ => 1) (fun _ => 1) (fun _ => 1) (fun _ => 1) (fun _ => 1) (fun _ => 0) (fun _ => 0) (fun _ => false).
Definition sph_metric (dr dth dphi : Z -> R) (rv rf sv sf cv : Z -> R) (pole : Z -> bool) : vmetric :=
  mkVM dr dth dphi rv rf rv rf sv sf (fun _ => 1) (fun _ => 1) cv pole.
