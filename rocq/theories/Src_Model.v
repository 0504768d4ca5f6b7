(** Source terms of the hydrodynamic equations, exact arithmetic: src/hydro/srcterms/*.cpp and src/orbital_advection/default_orbital_velocity.cpp.  Every function reads primitive variables, mass fluxes and fields and
    changes the conserved variables of each active cell once.  Users' own source terms (UserSourceTerm) are left out. *)
From Coq Require Import Reals ZArith List Bool.
From Verif Require Import Fv_Model Met_Model.
Local Open Scope R_scope.

(** cons(IDN..IEN,k,j,i).  IEN is there in every configuration and not touched without an energy equation. *)
Record cell := mkCell { c_d : R; c_1 : R; c_2 : R; c_3 : R; c_e : R }.
Definition state := Z -> Z -> Z -> cell.
Definition each (d : dims) (f : Z -> Z -> Z -> cell -> cell) (u : state) : state := fun k j i => if active d k j i then f k j i (u k j i) else u k j i.
(** cons(IMn) += ..., if (NON_BAROTROPIC_EOS) cons(IEN) += ... *)
Definition bump (nb : bool) (u : cell) (m1 m2 m3 e : R) : cell := mkCell (c_d u) (c_1 u + m1) (c_2 u + m2) (c_3 u + m3) (if nb then c_e u + e else c_e u).
Definition nonzero (x : R) : bool := if Req_EM_T x 0 then false else true.

(** Members of HydroSourceTerms (hydro_srcterms.hpp 50-62) and the two switches of the configuration, NON_BAROTROPIC_EOS and MAGNETIC_FIELDS_ENABLED. *)
Record sources := mkSrc { gm_ : R; g1_ : R; g2_ : R; g3_ : R; Omega_0_ : R; qshear_ : R; ShBoxCoord_ : Z; flag_point_mass_ : bool; flag_shearing_source_ : Z; nonbaro : bool; mhd : bool; self_gravity : bool }.
(** The constructor, hydro_srcterms.cpp 32-111: None is a fatal error. *)
Definition HydroSourceTerms (s : system) (nx3 : Z) (nb mh sg : bool) (gm : R) (OAorder : Z) (g1 g2 g3 Omega0 q : R) (shbox : Z) : option sources :=
  let oa := negb (Z.eqb OAorder 0) in
  let point := if nonzero gm then match s with cartesian => None | _ => if oa then Some false else match s with cylindrical => if Z.ltb 1 nx3 then None else Some true | _ => Some true end end else Some false in
  let shear := if oa then if Z.eqb shbox 1 then Some 1%Z else None
               else match s with cartesian => if nonzero Omega0 && nonzero q then Some 2%Z else Some 0%Z | _ => if nonzero Omega0 then Some 3%Z else Some 0%Z end in
  match point, shear with Some p, Some f => Some (mkSrc gm g1 g2 g3 Omega0 q shbox p f nb mh sg) | _, _ => None end.

(** constant_acc.cpp 25-73. *)
Definition ConstantAcceleration (p : sources) (d : dims) (dt : R) (w : prims) : state -> state := each d (fun k j i u =>
  let u := if nonzero (g1_ p) then let src := dt * rho w k j i * g1_ p in bump (nonbaro p) u src 0 0 (src * v1 w k j i) else u in
  let u := if nonzero (g2_ p) then let src := dt * rho w k j i * g2_ p in bump (nonbaro p) u 0 src 0 (src * v2 w k j i) else u in
  if nonzero (g3_ p) then let src := dt * rho w k j i * g3_ p in bump (nonbaro p) u 0 0 src (src * v3 w k j i) else u).

(** phy_src1_i_, phy_src2_i_: cylindrical.cpp 155, 160; spherical_polar.cpp 246, 248.  There are none in Cartesian coordinates, where the function is not called (0 here). *)
Definition phy_src1_i (s : system) (g : grid) (i : Z) : R := match s with cartesian => 0 | cylindrical => 1 / (x1v s g i * x1f g i) | spherical_polar => 1 / SQR (x1v s g i) end.
Definition phy_src2_i (s : system) (g : grid) (i : Z) : R := match s with cartesian => 0 | cylindrical => 1 / (x1v s g i * x1f g (i + 1)%Z) | spherical_polar => phy_src1_i s g i end.
(** pointmass.cpp 25-45.  [F]: mass fluxes flux[..](IDN). *)
Definition PointMass (p : sources) (s : system) (g : grid) (d : dims) (dt : R) (F : vec) (w : prims) : state -> state := each d (fun k j i u =>
  let src := dt * rho w k j i * coord_src1_i s g i * gm_ p / x1v s g i in
  bump (nonbaro p) u (- src) 0 0 (- (dt * (1 / 2) * (phy_src1_i s g i * x1 F k j i * gm_ p + phy_src2_i s g i * x1 F k j (i + 1)%Z * gm_ p)))).

(** self_gravity.cpp 32-94.  dx1v, dx2v, dx3v: distances between cell centres. *)
Record spacing := mkSp { dx1v : Z -> R; dx2v : Z -> R; dx3v : Z -> R }.
Definition SelfGravity (p : sources) (c : spacing) (d : dims) (dt : R) (F : vec) (w : prims) (phi : arr) : state -> state := each d (fun k j i u =>
  let u := let hdtodx1 := 1 / 2 * dt / dx1v c i in
    let dpl := - (phi k j i - phi k j (i - 1)%Z) in let dpr := - (phi k j (i + 1)%Z - phi k j i) in
    bump (nonbaro p) u (hdtodx1 * rho w k j i * (dpl + dpr)) 0 0 (hdtodx1 * (x1 F k j i * dpl + x1 F k j (i + 1)%Z * dpr)) in
  let u := if Z.ltb 1 (nx2 d) then let hdtodx2 := 1 / 2 * dt / dx2v c j in
    let dpl := - (phi k j i - phi k (j - 1)%Z i) in let dpr := - (phi k (j + 1)%Z i - phi k j i) in
    bump (nonbaro p) u 0 (hdtodx2 * rho w k j i * (dpl + dpr)) 0 (hdtodx2 * (x2 F k j i * dpl + x2 F k (j + 1)%Z i * dpr)) else u in
  if Z.ltb 1 (nx3 d) then let hdtodx3 := 1 / 2 * dt / dx3v c k in
    let dpl := - (phi k j i - phi (k - 1)%Z j i) in let dpr := - (phi (k + 1)%Z j i - phi k j i) in
    bump (nonbaro p) u 0 0 (hdtodx3 * rho w k j i * (dpl + dpr)) (hdtodx3 * (x3 F k j i * dpl + x3 F (k + 1)%Z j i * dpr)) else u).

(** shearing_box.cpp 33-90; the second half visits the plane k = ks. *)
Definition ShearingBoxSourceTerms (p : sources) (g : grid) (d : dims) (dt : R) (F : vec) (w : prims) : state -> state := each d (fun k j i u =>
  let den := rho w k j i in
  let qO2 := qshear_ p * SQR (Omega_0_ p) in
  let mom1 := den * v1 w k j i in
  let xc := x1v cartesian g i in
  let phic := qO2 * SQR xc in let phil := qO2 * SQR (x1f g i) in let phir := qO2 * SQR (x1f g (i + 1)%Z) in
  let e := dt * (x1 F k j i * (phic - phil) + x1 F k j (i + 1)%Z * (phir - phic)) / dx1f g i in
  if Z.eqb (ShBoxCoord_ p) 1 then
    bump (nonbaro p) u (2 * dt * (Omega_0_ p * (den * v2 w k j i) + qO2 * den * xc)) (- (2 * dt * Omega_0_ p * mom1)) 0 e
  else if Z.eqb k (ks d) then
    bump (nonbaro p) u (2 * dt * (Omega_0_ p * (den * v3 w k j i) + qO2 * den * xc)) 0 (- (2 * dt * Omega_0_ p * mom1)) e
  else u).

(** rotating_system_srcterms.cpp 29-103.  Spherical polar coordinates in one dimension are a fatal error (not modelled). *)
Definition RotatingSystemSourceTerms (p : sources) (s : system) (g : grid) (d : dims) (dt : R) (F : vec) (w : prims) : state -> state :=
  match s with
  | cartesian => fun u => u
  | cylindrical => each d (fun k j i u =>
      let den := rho w k j i in let mom1 := den * v1 w k j i in
      let ri := coord_src1_i s g i in let rv := x1v s g i in
      let vc := rv * Omega_0_ p in let src := SQR vc in
      let flux_c := 1 / 2 * (x1 F k j i + x1 F k j (i + 1)%Z) in
      bump (nonbaro p) u (dt * ri * (2 * vc * (den * v2 w k j i) + den * src)) (- (dt * ri * vc * (mom1 + flux_c))) 0 (dt * ri * src * flux_c))
  | spherical_polar => each d (fun k j i u =>
      let cv1 := coord_src1_j g j in let cv3 := coord_src3_j g j in let sv := sin (x2v s g (nx2 d) j) in
      let den := rho w k j i in let rv := x1v s g i in let ri := coord_src1_i s g i in
      let vc := rv * sv * Omega_0_ p in let src := SQR vc in
      let force := den * ri * (2 * vc * v3 w k j i + src) in
      let flux_xc := 1 / 2 * (x1 F k j (i + 1)%Z + x1 F k j i) in let flux_yc := 1 / 2 * (x2 F k (j + 1)%Z i + x2 F k j i) in
      bump (nonbaro p) u (dt * force) (dt * force * cv1) (- (dt * ri * vc * (den * v1 w k j i + flux_xc + cv3 * (den * v2 w k j i + flux_yc)))) (dt * src * (flux_xc + cv1 * flux_yc) / rv))
  end.

(** What OrbitalAdvection holds: whether the user gave the velocity, and the arrays vKc, vKf[0], dvKc1, dvKc2. *)
Record orbit := mkOrb { user_velocity : bool; vKc : Z -> Z -> R; vKf1 : Z -> Z -> R; dvKc1 : Z -> Z -> R; dvKc2 : Z -> Z -> R }.
(** orbital_advection_srcterms.cpp 27-288. *)
Definition OrbitalAdvectionSourceTerms (p : sources) (o : orbit) (s : system) (g : grid) (d : dims) (dt : R) (F : vec) (w : prims) : state -> state :=
  let nb := nonbaro p in
  match s with
  | cartesian =>
    if negb (user_velocity o) then each d (fun k j i u => (* 38-63 *)
      let den := rho w k j i in let mom1 := den * v1 w k j i in let vy := v2 w k j i in
      let rho_v1 := 1 / 4 * (x1 F k j i + x1 F k j (i + 1)%Z) + 1 / 2 * mom1 in
      let temp := - rho_v1 * vy in
      let temp := if mhd p then temp + b1 w k j i * b2 w k j i else temp in
      bump nb u (dt * Omega_0_ p * 2 * (den * vy)) (- (dt * Omega_0_ p * (2 - qshear_ p) * mom1)) 0 (- dt * temp * qshear_ p * Omega_0_ p))
    else each d (fun k j i u => (* 64-116 *)
      let den := rho w k j i in let dvk_i := dvKc1 o k i in let mom1 := den * v1 w k j i in let vy := v2 w k j i in
      let vc := vKc o k i + qshear_ p * Omega_0_ p * x1v s g i in
      let vm := vKf1 o k i + qshear_ p * Omega_0_ p * x1f g i in
      let vp := vKf1 o k (i + 1)%Z + qshear_ p * Omega_0_ p * x1f g (i + 1)%Z in
      let flux_m := x1 F k j i in let flux_p := x1 F k j (i + 1)%Z in
      let rho_v1 := 1 / 4 * (flux_m + flux_p) + 1 / 2 * mom1 in
      let temp := - rho_v1 * vy in
      let temp := if mhd p then temp + b1 w k j i * b2 w k j i else temp in
      let u := bump nb u (dt * 2 * Omega_0_ p * (den * (vy + vc))) (- (dt * (2 * Omega_0_ p + dvk_i) * mom1)) 0
                 (dt * (temp * dvk_i + 1 / 2 * Omega_0_ p * ((vm + vc) * flux_m + (vc + vp) * flux_p))) in
      if Z.ltb 1 (nx3 d) then
        let dvk_k := dvKc2 o k i in
        if nonzero dvk_k then
          let mom3 := den * v3 w k j i in
          let rho_v3 := 1 / 4 * (x3 F (k + 1)%Z j i + x3 F k j i) + 1 / 2 * mom3 in
          let temp := - rho_v3 * vy in
          let u := bump nb u 0 (- (dt * dvk_k * mom3)) 0 0 in
          let u := if mhd p then bump nb u 0 0 0 (b2 w k j i * b3 w k j i) else u in
          bump nb u 0 0 0 (dt * temp * dvk_k)
        else u
      else u)
  | cylindrical =>
    if negb (user_velocity o) then
      if Z.ltb 1 (nx3 d) then each d (fun k j i u => (* 119-160 *)
        let den := rho w k j i in let rv := x1v s g i in let ri := coord_src1_i s g i in let zv := x3v s g k in
        let dv := sqrt (SQR rv + SQR zv) in
        let vc := sqrt (gm_ p / dv) * rv / dv in
        let rdok_i := - (3 / 2) * vc * rv / SQR dv in
        let dvk_k := - (3 / 2) * vc * zv / SQR dv in
        let mom1 := den * v1 w k j i in let vp := v2 w k j i in let mom3 := den * v3 w k j i in
        let flux_xc := 1 / 2 * (x1 F k j (i + 1)%Z + x1 F k j i) in let flux_zc := 1 / 2 * (x3 F (k + 1)%Z j i + x3 F k j i) in
        let src_k := - gm_ p * zv / (dv * dv * dv) in
        let u := bump nb u (2 * dt * vc * ri * (den * vp)) (- (1 / 2 * dt * ((2 * vc * ri + rdok_i) * (mom1 + flux_xc) + dvk_k * (mom3 + flux_zc)))) (dt * src_k * den) (dt * src_k * flux_zc) in
        let temp1 := - (1 / 2) * (flux_xc + mom1) * vp in let temp2 := - (1 / 2) * (flux_zc + mom3) * vp in
        let temp1 := if mhd p then temp1 + b1 w k j i * b2 w k j i else temp1 in
        let temp2 := if mhd p then temp2 + b2 w k j i * b3 w k j i else temp2 in
        bump nb u 0 0 0 (dt * (temp1 * rdok_i + temp2 * dvk_k + src_k * flux_zc)))
      else each d (fun k j i u => (* 161-189; one plane *)
        let den := rho w k j i in let rv := x1v s g i in let ri := coord_src1_i s g i in
        let vc := sqrt (gm_ p / rv) in let rdok_i := - (3 / 2) * vc / rv in
        let mom1 := den * v1 w k j i in let vp := v2 w k j i in
        let flux_c := 1 / 2 * (x1 F k j (i + 1)%Z + x1 F k j i) in
        let temp := - (1 / 2) * (flux_c + mom1) * vp in
        let temp := if mhd p then temp + b1 w k j i * b2 w k j i else temp in
        bump nb u (2 * dt * vc * ri * (den * vp)) (- (dt * (vc * ri + 1 / 2 * rdok_i) * (mom1 + flux_c))) 0 (dt * temp * rdok_i))
    else
      if Z.eqb (nx3 d) 1 then each d (fun k j i u => (* 191-223 *)
        let den := rho w k j i in let rv := x1v s g i in let ri := coord_src1_i s g i in
        let vk := vKc o k i in let vc := vk + Omega_0_ p * rv in let rdok_i := dvKc1 o k i - vk * ri in
        let mom1 := den * v1 w k j i in let vp := v2 w k j i in
        let src := SQR vc - gm_ p / rv in
        let flux_c := 1 / 2 * (x1 F k j (i + 1)%Z + x1 F k j i) in
        let temp := - (1 / 2) * (flux_c + mom1) * vp in
        let temp := if mhd p then temp + b1 w k j i * b2 w k j i else temp in
        bump nb u (dt * ri * (2 * vc * (den * vp) + src * den)) (- (dt * (vc * ri + 1 / 2 * rdok_i) * (mom1 + flux_c))) 0 (dt * (temp * rdok_i + ri * src * flux_c)))
      else fun u => u (* 224-228: a message and no source *)
  | spherical_polar => each d (fun k j i u => (* 230-285 *)
      let cv1 := coord_src1_j g j in let cv3 := coord_src3_j g j in let sv := sin (x2v s g (nx2 d) j) in
      let den := rho w k j i in let rv := x1v s g i in let ri := coord_src1_i s g i in
      let vk := vKc o j i in let vc := vk + Omega_0_ p * rv * sv in
      let dvk1 := dvKc1 o j i in let dvk2 := dvKc2 o j i in
      let rdok_i := dvk1 - vk * ri in let sdvk_j := (dvk2 - cv3 * vk) * ri in
      let mom1 := den * v1 w k j i in let mom2 := den * v2 w k j i in let vp := v3 w k j i in
      let src := SQR vc in let grav := gm_ p / rv in
      let flux_xc := 1 / 2 * (x1 F k j (i + 1)%Z + x1 F k j i) in let flux_yc := 1 / 2 * (x2 F k (j + 1)%Z i + x2 F k j i) in
      let temp1 := - (1 / 2) * (flux_xc + mom1) * vp in let temp2 := - (1 / 2) * (flux_yc + mom2) * vp in
      let temp1 := if mhd p then temp1 + b1 w k j i * b3 w k j i else temp1 in
      let temp2 := if mhd p then temp2 + b2 w k j i * b3 w k j i else temp2 in
      bump nb u (dt * ri * den * (2 * vc * vp + (src - grav))) (dt * ri * den * cv1 * (2 * vc * vp + src))
        (- (1 / 2 * dt * (((vc + Omega_0_ p * rv * sv) * ri + dvk1) * (mom1 + flux_xc) + ((vc + Omega_0_ p * rv * sv) * cv3 + dvk2) * (mom2 + flux_yc) * ri)))
        (dt * (temp1 * rdok_i + temp2 * sdvk_j + ((src - grav) * flux_xc + src * cv1 * flux_yc) / rv)))
  end.

(** AddSourceTerms, hydro_srcterms.cpp 124-161. *)
Definition AddSourceTerms (p : sources) (o : orbit) (s : system) (g : grid) (c : spacing) (d : dims) (dt : R) (F : vec) (w : prims) (phi : arr) (u : state) : state :=
  let u := if flag_point_mass_ p then PointMass p s g d dt F w u else u in
  let u := if nonzero (g1_ p) || nonzero (g2_ p) || nonzero (g3_ p) then ConstantAcceleration p d dt w u else u in
  let u := if self_gravity p then SelfGravity p c d dt F w phi u else u in
  if Z.eqb (flag_shearing_source_ p) 1 then OrbitalAdvectionSourceTerms p o s g d dt F w u
  else if Z.eqb (flag_shearing_source_ p) 2 then ShearingBoxSourceTerms p g d dt F w u
  else if Z.eqb (flag_shearing_source_ p) 3 then RotatingSystemSourceTerms p s g d dt F w u else u.

(** default_orbital_velocity.cpp 31-89: the default orbital velocities and what the code calls their derivatives (porb->gm, porb->Omega0, porb->qshear are gm, Om, q). *)
Definition CartOrbitalVelocity (q Om x : R) : R := - q * Om * x.
Definition CartOrbitalVelocity_x (q Om x : R) : R := - q * Om.
Definition CylOrbitalVelocity2D (gm Om x : R) : R := sqrt (gm / x) - Om * x.
Definition CylOrbitalVelocity2D_r (gm Om x : R) : R := - (1 / 2) * sqrt (gm / x) / x - Om.
Definition CylOrbitalVelocity3D (gm Om x z : R) : R := let d := sqrt (SQR x + SQR z) in sqrt (gm / d) * x / d - Om * x.
Definition CylOrbitalVelocity3D_r (gm Om x z : R) : R := let d := sqrt (SQR x + SQR z) in sqrt (gm / d) / d * (1 - 3 / 2 * SQR (x / d)) - Om.
Definition CylOrbitalVelocity3D_z (gm Om x z : R) : R := let d := sqrt (SQR x + SQR z) in - (3 / 2) * sqrt (gm / d) * x * z / SQR d.
Definition SphOrbitalVelocity (gm Om x y : R) : R := if Req_EM_T (sin y) 0 then 0 else sqrt (gm / (x * sin y)) - Om * x * sin y.
Definition SphOrbitalVelocity_r (gm Om x y : R) : R := if Req_EM_T (sin y) 0 then 0 else - (1 / 2) * sqrt (gm / (sin y * x * x * x)) - Om * sin y.
Definition SphOrbitalVelocity_t (gm Om x y : R) : R := if Req_EM_T (sin y) 0 then 0 else - (1 / 2) * sqrt (gm / (sin y * x)) * cos y / sin y - Om * x * cos y.
