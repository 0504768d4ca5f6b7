(** Cell geometry and geometric source terms in Cartesian, cylindrical and spherical-polar coordinates, exact arithmetic: src/coordinates/coordinates.cpp, cartesian.cpp, cylindrical.cpp, spherical_polar.cpp.
    Arrays of face positions and widths are functions of the index; std::pow(x,n) is the power.  The arrays for non-ideal MHD (coord_area*vc), the metric coefficients h2v... and the radiation and cosmic-ray terms are
    not modelled; viscous fluxes in the source terms are zero here (do_hydro_diffusion false). *)
From Coq Require Import Reals ZArith List Bool.
From Verif Require Import Fv_Model.
Local Open Scope R_scope.

Inductive system := cartesian | cylindrical | spherical_polar.
(** Face positions and widths filled by the constructor (see Geo_Model for how): coordinates.hpp 50-60 *)
Record grid := mkGrid { x1f : Z -> R; x2f : Z -> R; x3f : Z -> R; dx1f : Z -> R; dx2f : Z -> R; dx3f : Z -> R }.

(** Coefficient arrays: cylindrical.cpp 132-150 (coord_area3_i_, coord_vol_i_, coord_src1_i_, coord_src2_i_); spherical_polar.cpp 222-243 (index i), 252-270 and 284-297 (index j). *)
Definition coord_area1_i (g : grid) (i : Z) : R := x1f g i * x1f g i.
Definition coord_area2_i (g : grid) (i : Z) : R := 1 / 2 * (x1f g (i + 1)%Z * x1f g (i + 1)%Z - x1f g i * x1f g i).
Definition coord_area3_i (g : grid) (i : Z) : R := coord_area2_i g i.
Definition coord_vol_i (s : system) (g : grid) (i : Z) : R :=
  match s with
  | spherical_polar => 1 / 3 * (x1f g (i + 1)%Z * x1f g (i + 1)%Z * x1f g (i + 1)%Z - x1f g i * x1f g i * x1f g i)
  | _ => coord_area3_i g i
  end.
Definition coord_src1_i (s : system) (g : grid) (i : Z) : R :=
  match s with spherical_polar => coord_area2_i g i / coord_vol_i s g i | _ => dx1f g i / coord_vol_i s g i end.
Definition coord_src2_i (s : system) (g : grid) (i : Z) : R := dx1f g i / ((x1f g i + x1f g (i + 1)%Z) * coord_vol_i s g i).
Definition coord_area1_j (g : grid) (j : Z) : R := Rabs (cos (x2f g j) - cos (x2f g (j + 1)%Z)).
Definition coord_area2_j (g : grid) (j : Z) : R := Rabs (sin (x2f g j)).
Definition coord_vol_j (g : grid) (j : Z) : R := coord_area1_j g j.
Definition coord_src1_j (g : grid) (j : Z) : R := (coord_area2_j g (j + 1)%Z - coord_area2_j g j) / coord_vol_j g j.
Definition coord_src2_j (g : grid) (j : Z) : R := (coord_area2_j g (j + 1)%Z - coord_area2_j g j) / ((coord_area2_j g j + coord_area2_j g (j + 1)%Z) * coord_vol_j g j).
Definition coord_src3_j (g : grid) (j : Z) : R := (coord_area2_j g (j + 1)%Z - coord_area2_j g j) / coord_vol_j g j.

(** GetEdge1Length, GetEdge2Length, GetEdge3Length: coordinates.cpp (base), cylindrical.cpp 180-182, spherical_polar.cpp 340-347 *)
Definition GetEdge1Length (s : system) (g : grid) (k j i : Z) : R := dx1f g i.
Definition GetEdge2Length (s : system) (g : grid) (k j i : Z) : R := match s with cartesian => dx2f g j | _ => x1f g i * dx2f g j end.
Definition GetEdge3Length (s : system) (g : grid) (k j i : Z) : R := match s with spherical_polar => x1f g i * coord_area2_j g j * dx3f g k | _ => dx3f g k end.
(** GetFace1Area, GetFace2Area, GetFace3Area: coordinates.cpp, cylindrical.cpp 238-246, spherical_polar.cpp 429-440 *)
Definition GetFace1Area (s : system) (g : grid) (k j i : Z) : R :=
  match s with
  | cartesian => dx2f g j * dx3f g k
  | cylindrical => x1f g i * dx2f g j * dx3f g k
  | spherical_polar => coord_area1_i g i * coord_area1_j g j * dx3f g k
  end.
Definition GetFace2Area (s : system) (g : grid) (k j i : Z) : R :=
  match s with spherical_polar => coord_area2_i g i * coord_area2_j g j * dx3f g k | _ => dx1f g i * dx3f g k end.
Definition GetFace3Area (s : system) (g : grid) (k j i : Z) : R :=
  match s with cartesian => dx1f g i * dx2f g j | _ => coord_area3_i g i * dx2f g j end.
(** GetCellVolume: coordinates.cpp, cylindrical.cpp 288-290, spherical_polar.cpp 494-496 *)
Definition GetCellVolume (s : system) (g : grid) (k j i : Z) : R :=
  match s with
  | cartesian => dx1f g i * dx2f g j * dx3f g k
  | cylindrical => coord_vol_i s g i * dx2f g j * dx3f g k
  | spherical_polar => coord_vol_i s g i * coord_vol_j g j * dx3f g k
  end.
Definition geometry (s : system) (g : grid) : geom :=
  mkG (GetFace1Area s g) (GetFace2Area s g) (GetFace3Area s g) (GetEdge1Length s g) (GetEdge2Length s g) (GetEdge3Length s g) (GetCellVolume s g).

(** Cell centres: cartesian.cpp 30-60, cylindrical.cpp 29-66, spherical_polar.cpp 73-110.  [nx2]: block_size.nx2. *)
Definition x1v (s : system) (g : grid) (i : Z) : R :=
  match s with
  | cartesian => 1 / 2 * (x1f g (i + 1)%Z + x1f g i)
  | cylindrical => 2 / 3 * (x1f g (i + 1)%Z ^ 3 - x1f g i ^ 3) / (x1f g (i + 1)%Z ^ 2 - x1f g i ^ 2)
  | spherical_polar => 3 / 4 * (x1f g (i + 1)%Z ^ 4 - x1f g i ^ 4) / (x1f g (i + 1)%Z ^ 3 - x1f g i ^ 3)
  end.
Definition x2v (s : system) (g : grid) (nx2 : Z) (j : Z) : R :=
  match s with
  | spherical_polar =>
      if Z.eqb nx2 1 then 1 / 2 * (x2f g (j + 1)%Z + x2f g j)
      else ((sin (x2f g (j + 1)%Z) - x2f g (j + 1)%Z * cos (x2f g (j + 1)%Z)) - (sin (x2f g j) - x2f g j * cos (x2f g j))) / (cos (x2f g j) - cos (x2f g (j + 1)%Z))
  | _ => 1 / 2 * (x2f g (j + 1)%Z + x2f g j)
  end.
Definition x3v (s : system) (g : grid) (k : Z) : R := 1 / 2 * (x3f g (k + 1)%Z + x3f g k).
(** Face centres used to prolong magnetic fields: cartesian.cpp 80-105, cylindrical.cpp 96-119, spherical_polar.cpp 139-166. *)
Definition x1s2 (s : system) (g : grid) (i : Z) : R :=
  match s with
  | spherical_polar => 2 / 3 * (x1f g (i + 1)%Z ^ 3 - x1f g i ^ 3) / (x1f g (i + 1)%Z * x1f g (i + 1)%Z - x1f g i * x1f g i)
  | _ => 1 / 2 * (x1f g (i + 1)%Z + x1f g i)
  end.
Definition x1s3 (s : system) (g : grid) (i : Z) : R :=
  match s with
  | cartesian => 1 / 2 * (x1f g (i + 1)%Z + x1f g i)
  | _ => 2 / 3 * (x1f g (i + 1)%Z ^ 3 - x1f g i ^ 3) / (x1f g (i + 1)%Z * x1f g (i + 1)%Z - x1f g i * x1f g i)
  end.
Definition x2s1 (s : system) (g : grid) (nx2 : Z) (j : Z) : R :=
  match s with
  | spherical_polar =>
      if Z.eqb nx2 1 then x2v s g nx2 j
      else (sin (x2f g (j + 1)%Z) - x2f g (j + 1)%Z * cos (x2f g (j + 1)%Z) - sin (x2f g j) + x2f g j * cos (x2f g j)) / (cos (x2f g j) - cos (x2f g (j + 1)%Z))
  | _ => 1 / 2 * (x2f g (j + 1)%Z + x2f g j)
  end.
Definition x2s3 (s : system) (g : grid) (nx2 : Z) (j : Z) : R := 1 / 2 * (x2f g (j + 1)%Z + x2f g j).
Definition x3s1 (s : system) (g : grid) (k : Z) : R := 1 / 2 * (x3f g (k + 1)%Z + x3f g k).
Definition x3s2 (s : system) (g : grid) (k : Z) : R := 1 / 2 * (x3f g (k + 1)%Z + x3f g k).

(** Primitive state of a cell: density, velocity, pressure (prim(IEN), or iso_cs^2 rho without an energy equation) and cell-centred field (zero without MHD). *)
Record prims := mkPr { rho : arr; v1 : arr; v2 : arr; v3 : arr; prs : arr; b1 : arr; b2 : arr; b3 : arr }.
(** Momenta of the block and their fluxes: M1 M2 M3, flux[X1DIR](IMn), ... *)
Record momenta := mkM { M1 : arr; M2 : arr; M3 : arr }.
Record mflux := mkMF { FM1 : vec; FM2 : vec; FM3 : vec }.
Definition SQR (x : R) : R := x * x.

(** AddCoordTermsDivergence: cartesian.cpp (empty), cylindrical.cpp 296-331, spherical_polar.cpp 501-578. *)
Definition AddCoordTermsDivergence (s : system) (d : dims) (g : grid) (dt : R) (f : mflux) (w : prims) (u : momenta) : momenta :=
  let src1_cyl k j i :=
    let m_pp := rho w k j i * v2 w k j i * v2 w k j i + prs w k j i + 1 / 2 * (SQR (b1 w k j i) - SQR (b2 w k j i) + SQR (b3 w k j i)) in dt * coord_src1_i s g i * m_pp in
  let src2_cyl k j i := dt * coord_src2_i s g i * (x1f g i * x1 (FM2 f) k j i + x1f g (i + 1)%Z * x1 (FM2 f) k j (i + 1)%Z) in
  let m_ii k j i := rho w k j i * (SQR (v2 w k j i) + SQR (v3 w k j i)) + 2 * prs w k j i + SQR (b1 w k j i) in
  let m_pp k j i := rho w k j i * SQR (v3 w k j i) + prs w k j i + 1 / 2 * (SQR (b1 w k j i) + SQR (b2 w k j i) - SQR (b3 w k j i)) in
  let m_ph k j i := rho w k j i * v3 w k j i * v2 w k j i - b3 w k j i * b2 w k j i in
  let radial (F : vec) k j i := dt * coord_src2_i s g i * (coord_area1_i g i * x1 F k j i + coord_area1_i g (i + 1)%Z * x1 F k j (i + 1)%Z) in
  let polar_ k j i :=
    if Z.ltb 1 (nx2 d) then dt * coord_src1_i s g i * coord_src2_j g j * (coord_area2_j g j * x2 (FM3 f) k j i + coord_area2_j g (j + 1)%Z * x2 (FM3 f) k (j + 1)%Z i)
    else dt * coord_src1_i s g i * coord_src3_j g j * m_ph k j i in
  match s with
  | cartesian => u
  | cylindrical =>
      mkM (fun k j i => if active d k j i then M1 u k j i + src1_cyl k j i else M1 u k j i)
          (fun k j i => if active d k j i then M2 u k j i - src2_cyl k j i else M2 u k j i)
          (M3 u)
  | spherical_polar =>
      mkM (fun k j i => if active d k j i then M1 u k j i + dt * coord_src1_i s g i * m_ii k j i else M1 u k j i)
          (fun k j i => if active d k j i then M2 u k j i - radial (FM2 f) k j i + dt * coord_src1_i s g i * coord_src1_j g j * m_pp k j i else M2 u k j i)
          (fun k j i => if active d k j i then M3 u k j i - radial (FM3 f) k j i - polar_ k j i else M3 u k j i)
  end.
(** One stage: flux divergence (add_flux_divergence.cpp, Fv_Model) of the three momenta followed by the source terms, both with the same weighted time step (time_integrator.cpp: IntegrateHydro). *)
Definition advance_momenta (s : system) (d : dims) (g : grid) (dt : R) (f : mflux) (w : prims) (u : momenta) : momenta :=
  let G := geometry s g in
  AddCoordTermsDivergence s d g dt f w (mkM (AddFluxDivergence d G (FM1 f) dt (M1 u)) (AddFluxDivergence d G (FM2 f) dt (M2 u)) (AddFluxDivergence d G (FM3 f) dt (M3 u))).
