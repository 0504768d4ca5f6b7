(** Explicit diffusion of passive scalars and heat, exact arithmetic: src/scalars/scalar_diffusion.cpp, src/hydro/hydro_diffusion/conduction.cpp, the time step limits of scalar_diffusion.cpp and hydro_diffusion.cpp.
    Flux arrays of one variable; the extra rows of fluxes computed with magnetic fields, which no cell of the block uses, are left out.  The mesh flags f2, f3 are "more than one cell along x2, x3" of the block. *)
From Coq Require Import Reals ZArith List Bool.
From Verif Require Import Fv_Model Pos_Model.
Import ListNotations.
Local Open Scope R_scope.

(** coordinates.hpp: distances between cell centres and scale factors at cell centres. *)
Record metric := mkMet { dx1v : Z -> R; dx2v : Z -> R; dx3v : Z -> R; h2v : Z -> R; h31v : Z -> R; h32v : Z -> R }.
(** coordinates/cartesian.cpp 48-110 on a uniform grid. *)
Definition flat_metric (dx dy dz : R) : metric := mkMet (fun _ => dx) (fun _ => dy) (fun _ => dz) (fun _ => 1) (fun _ => 1) (fun _ => 1).
Definition f2 (d : dims) : bool := Z.ltb 1 (nx2 d).
Definition f3 (d : dims) : bool := Z.ltb 1 (nx3 d).
(** athena.hpp: TINY_NUMBER. *)
Definition TINY_NUMBER : R := / 10 ^ 20.

(** PassiveScalars::DiffusiveFluxIso, scalar_diffusion.cpp 67-158: the fluxes [out] are lowered by the diffusive part.  r: concentration, w: density. *)
Definition DiffusiveFluxIso (d : dims) (m : metric) (nu_scalar_iso : R) (r w : arr) (out : vec) : vec :=
  mkV
  (fun k j i => if within (ks d) (ke d) k && within (js d) (je d) j && within (is_ d) (ie d + 1) i then
      let rho_face := / 2 * (w k j i + w k j (i - 1)%Z) in
      let dr := (r k j i - r k j (i - 1)%Z) / dx1v m (i - 1)%Z in
      x1 out k j i - nu_scalar_iso * rho_face * dr
    else x1 out k j i)
  (fun k j i => if f2 d && within (ks d) (ke d) k && within (js d) (je d + 1) j && within (is_ d) (ie d) i then
      let rho_face := / 2 * (w k j i + w k (j - 1)%Z i) in
      let dr := (r k j i - r k (j - 1)%Z i) / h2v m i / dx2v m (j - 1)%Z in
      x2 out k j i - nu_scalar_iso * rho_face * dr
    else x2 out k j i)
  (fun k j i => if f3 d && within (ks d) (ke d + 1) k && within (js d) (je d) j && within (is_ d) (ie d) i then
      let rho_face := / 2 * (w k j i + w (k - 1)%Z j i) in
      let dr := (r k j i - r (k - 1)%Z j i) / dx3v m (k - 1)%Z / h31v m i / h32v m j in
      x3 out k j i - nu_scalar_iso * rho_face * dr
    else x3 out k j i).

(** HydroDiffusion::ThermalFluxIso, conduction.cpp 25-106: kappa is an array (constant with ConstConduction 121-144, or set by a user's function); den: density, prs: pressure. *)
Definition ThermalFluxIso (d : dims) (m : metric) (kappa den prs : arr) (out : vec) : vec :=
  mkV
  (fun k j i => if within (ks d) (ke d) k && within (js d) (je d) j && within (is_ d) (ie d + 1) i then
      let kappaf := / 2 * (kappa k j i + kappa k j (i - 1)%Z) in
      let denf := / 2 * (den k j i + den k j (i - 1)%Z) in
      let dT := (prs k j i / den k j i - prs k j (i - 1)%Z / den k j (i - 1)%Z) / dx1v m (i - 1)%Z in
      x1 out k j i - kappaf * denf * dT
    else x1 out k j i)
  (fun k j i => if f2 d && within (ks d) (ke d) k && within (js d) (je d + 1) j && within (is_ d) (ie d) i then
      let kappaf := / 2 * (kappa k j i + kappa k (j - 1)%Z i) in
      let denf := / 2 * (den k j i + den k (j - 1)%Z i) in
      let dT := (prs k j i / den k j i - prs k (j - 1)%Z i / den k (j - 1)%Z i) / h2v m i / dx2v m (j - 1)%Z in
      x2 out k j i - kappaf * denf * dT
    else x2 out k j i)
  (fun k j i => if f3 d && within (ks d) (ke d + 1) k && within (js d) (je d) j && within (is_ d) (ie d) i then
      let kappaf := / 2 * (kappa k j i + kappa (k - 1)%Z j i) in
      let denf := / 2 * (den k j i + den (k - 1)%Z j i) in
      let dT := (prs k j i / den k j i - prs (k - 1)%Z j i / den (k - 1)%Z j i) / dx3v m (k - 1)%Z / h31v m i / h32v m j in
      x3 out k j i - kappaf * denf * dT
    else x3 out k j i).

(** The time step limit: hydro_diffusion.cpp 232-303 (dt_vis and dt_cnd, with the array of the coefficient) and scalar_diffusion.cpp 164-222 (a constant coefficient).
    len1, len2, len3: the widths CenterWidth1, 2, 3 of the cells; real_max: the largest number; ng: NGHOST.  The rows of ghost cells are visited along x1 only. *)
Definition fac (d : dims) : R := if f3 d then 1 / 6 else if f2 d then / 4 else / 2.
Definition len (d : dims) (len1 len2 len3 : arr) (k j i : Z) : R :=
  let l := len1 k j i in
  let l := if f2 d then Rmin l (len2 k j i) else l in
  if f3 d then Rmin l (len3 k j i) else l.
Definition NewDiffusionDt (d : dims) (ng : Z) (real_max : R) (len1 len2 len3 : arr) (coef : arr) : R :=
  fold_left (fun dt k => fold_left (fun dt j => fold_left (fun dt i =>
    Rmin dt (len d len1 len2 len3 k j i * len d len1 len2 len3 k j i * fac d / (coef k j i + TINY_NUMBER)))
    (upto (is_ d - ng) (ie d + ng)) dt) (upto (js d) (je d)) dt) (upto (ks d) (ke d)) real_max.
Definition no_flux : vec := mkV (fun _ _ _ => 0) (fun _ _ _ => 0) (fun _ _ _ => 0).
(** One explicit stage of weight dt for a fluid at rest on a uniform Cartesian block: the scalar density s = r * density (scalars/add_flux_divergence, the same loops as for the fluid), and the energy p / (gamma - 1).
    CalcDiffusionFlux (hydro_diffusion.cpp 101-118) clears the fluxes first. *)
Definition scalar_stage (d : dims) (dx dy dz nu dt : R) (r w : arr) : arr :=
  AddFluxDivergence d (cart dx dy dz) (DiffusiveFluxIso d (flat_metric dx dy dz) nu r w no_flux) dt (fun k j i => r k j i * w k j i).
Definition energy_stage (d : dims) (dx dy dz gamma dt : R) (kappa den prs : arr) : arr :=
  AddFluxDivergence d (cart dx dy dz) (ThermalFluxIso d (flat_metric dx dy dz) kappa den prs no_flux) dt (fun k j i => prs k j i / (gamma - 1)).
