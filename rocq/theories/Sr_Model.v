(** Special-relativistic hydrodynamics: conversion between conserved and primitive variables and sound speeds, src/eos/adiabatic_hydro_sr.cpp.  Exact arithmetic. *)
From Coq Require Import Reals Bool.
From Verif Require Import Time_Model.
Local Open Scope R_scope.

(** Primitive variables IDN, IPR, IVX, IVY, IVZ (velocities are components u^i of the four-velocity) and conserved variables IDN, IEN, IM1..3 of a cell. *)
Record prim := { rho : R; pgas : R; u1 : R; u2 : R; u3 : R }.
Record cons := { DD : R; EE : R; MM1 : R; MM2 : R; MM3 : R }.
(** adiabatic_hydro_sr.cpp 329-334: the constants tol, pgas_uniform_min, a_min and the distance of v_sq_max, rr_max and mm_sq_ee_sq_max from 1. *)
Definition tol : R := / 10 ^ 12.

(** PrimitiveToConserved, adiabatic_hydro_sr.cpp 231-269. *)
Definition PrimitiveToConserved (gamma : R) (w : prim) : cons :=
  let gamma_prime := gamma / (gamma - 1) in
  let u0 := sqrt (1 + u1 w * u1 w + u2 w * u2 w + u3 w * u3 w) in
  let wgas_u0 := (rho w + gamma_prime * pgas w) * u0 in
  {| DD := rho w * u0; EE := wgas_u0 * u0 - pgas w; MM1 := wgas_u0 * u1 w; MM2 := wgas_u0 * u2 w; MM3 := wgas_u0 * u3 w |}.

(** Steps 1 and 2 of an iteration, adiabatic_hydro_sr.cpp 353-371. *)
Definition a_of (ee p : R) : R := Rmax (ee + p) tol.
Definition vsq_of (mm_sq a : R) : R := Rmin (Rmax (mm_sq / (a * a)) 0) (1 - tol).
Definition next (gamma dd ee mm_sq pgas_min p : R) : R :=
  let a := a_of ee p in
  let gamma_sq := 1 / (1 - vsq_of mm_sq a) in
  let ga := sqrt gamma_sq in
  Rmax ((gamma - 1) / gamma * (a / gamma_sq - dd / ga)) pgas_min.
(** Step 3, adiabatic_hydro_sr.cpp 375 and 388: x is accepted after y. *)
Definition converged (pgas_min x y : R) : bool := ltR pgas_min x && ltR (Rabs (x - y)) tol.
(** The loop of adiabatic_hydro_sr.cpp 352-392.  Three passes n = 3k, 3k+1, 3k+2 are one step here, p0 is pgas[0] at its beginning; max_iterations = 15 is five steps.
    None: n reaches max_iterations.  A ratio rr with denominator 0 is not finite. *)
Fixpoint iterate (k : nat) (gamma dd ee mm_sq pgas_min p0 : R) : option R :=
  match k with
  | O => None
  | S k =>
    let p1 := next gamma dd ee mm_sq pgas_min p0 in
    if converged pgas_min p1 p0 then Some p1 else
    let p2 := next gamma dd ee mm_sq pgas_min p1 in
    if converged pgas_min p2 p1 then Some p2 else
    if Req_EM_T (p1 - p0) 0 then iterate k gamma dd ee mm_sq pgas_min p0 else
    let rr := (p2 - p1) / (p1 - p0) in
    if ltR (1 - tol) (Rabs rr) then iterate k gamma dd ee mm_sq pgas_min p0 else
    let p3 := Rmax (p1 + (p2 - p1) / (1 - rr)) pgas_min in
    if converged pgas_min p3 p2 then Some p3 else iterate k gamma dd ee mm_sq pgas_min p3
  end.
(** ConservedToPrimitiveNormal, adiabatic_hydro_sr.cpp 324-425: the primitives and the Lorentz factor, None for the return value false. *)
Definition ConservedToPrimitiveNormal (gamma dd ee mm_sq mm1 mm2 mm3 pgas_old : R) : option (prim * R) :=
  let pgas_min := Rmax (- ee) tol in
  match iterate 5 gamma dd ee mm_sq pgas_min (Rmax pgas_old pgas_min) with
  | None => None
  | Some p =>
    let a := a_of ee p in
    let ga := sqrt (1 / (1 - vsq_of mm_sq a)) in
    Some ({| rho := dd / ga; pgas := p; u1 := ga * (mm1 / a); u2 := ga * (mm2 / a); u3 := ga * (mm3 / a) |}, ga)
  end.

(** EquationOfState: gamma, dfloor, pfloor, gamma_max. *)
Record eos := { gam : R; dfloor : R; pfloor : R; gmax : R }.
Definition lorentz (w : prim) : R := sqrt (1 + u1 w * u1 w + u2 w * u2 w + u3 w * u3 w).
(** ConservedToPrimitive, adiabatic_hydro_sr.cpp 67-219, for one cell: w is the previous content of prim.  Result: conserved and primitive variables afterwards. *)
Definition ConservedToPrimitive (e : eos) (c : cons) (w : prim) : cons * prim :=
  let '(dd, fixed) := if ltR (DD c) (dfloor e) then (dfloor e, true) else (DD c, false) in
  let ee_min := dfloor e + pfloor e / (gam e - 1) in
  let '(ee, fixed) := if ltR (EE c) ee_min then (ee_min, true) else (EE c, fixed) in
  let mm_sq := MM1 c * MM1 c + MM2 c * MM2 c + MM3 c * MM3 c in
  let mm_sq_max := (1 - tol) * (ee * ee) in
  let '(mm_sq, mm1, mm2, mm3, fixed) :=
    if ltR mm_sq_max mm_sq then (let factor := sqrt (mm_sq_max / mm_sq) in (mm_sq_max, MM1 c * factor, MM2 c * factor, MM3 c * factor, true))
    else (mm_sq, MM1 c, MM2 c, MM3 c, fixed) in
  let rho_old := Rmax (rho w) (dfloor e) in
  let pgas_old := Rmax (pgas w) (pfloor e) in
  let fallback := {| rho := rho_old; pgas := pgas_old; u1 := u1 w; u2 := u2 w; u3 := u3 w |} in
  let '(q, ga, success, fixed) :=
    match ConservedToPrimitiveNormal (gam e) dd ee mm_sq mm1 mm2 mm3 pgas_old with
    | None => (fallback, 0, false, true)
    | Some (q, ga) =>
      let rho_add := Rmax (dfloor e - rho q) 0 in
      let pgas_add := Rmax (pfloor e - pgas q) 0 in
      if ltR 0 rho_add || ltR 0 pgas_add then
        let wgas_add := rho_add + gam e / (gam e - 1) * pgas_add in
        match ConservedToPrimitiveNormal (gam e) (dd + rho_add * ga) (ee + (wgas_add * (ga * ga) + pgas_add)) mm_sq mm1 mm2 mm3 pgas_old with
        | None => (fallback, ga, false, true)
        | Some (q, ga) => (q, ga, true, true)
        end
      else (q, ga, true, fixed)
    end in
  let ga := if success then ga else lorentz q in
  let '(q, fixed) :=
    if ltR (gmax e) ga then
      (let factor := sqrt ((gmax e * gmax e - 1) / (ga * ga - 1)) in
       ({| rho := rho q; pgas := pgas q; u1 := u1 q * factor; u2 := u2 q * factor; u3 := u3 q * factor |}, true))
    else (q, fixed) in
  let '(r, fixed) := if ltR (rho q) (dfloor e) then (dfloor e, true) else (rho q, fixed) in
  let '(p, fixed) := if ltR (pgas q) (pfloor e) then (pfloor e, true) else (pgas q, fixed) in
  let q := if success then {| rho := r; pgas := p; u1 := u1 q; u2 := u2 q; u3 := u3 q |} else {| rho := dfloor e; pgas := pfloor e; u1 := 0; u2 := 0; u3 := 0 |} in
  if fixed : bool then
    let wgas := rho q + gam e / (gam e - 1) * pgas q in
    let ga := lorentz q in
    ({| DD := rho q * ga; EE := wgas * (ga * ga) - pgas q; MM1 := wgas * ga * u1 q; MM2 := wgas * ga * u2 q; MM3 := wgas * ga * u3 q |}, q)
  else (c, q).

(** SoundSpeedsSR, adiabatic_hydro_sr.cpp 285-295: lambda_plus and lambda_minus. *)
Definition SoundSpeedsSR (gamma rho_h p vx gamma_lorentz_sq : R) : R * R :=
  let cs_sq := gamma * p / rho_h in
  let sigma_s := cs_sq / (gamma_lorentz_sq * (1 - cs_sq)) in
  let relative_speed := sqrt (sigma_s * (1 + sigma_s - vx * vx)) in
  let sigma_s_tmp := 1 / (1 + sigma_s) in
  (sigma_s_tmp * (vx + relative_speed), sigma_s_tmp * (vx - relative_speed)).
