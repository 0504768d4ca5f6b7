(** The HLLD Riemann solver for isothermal MHD, src/hydro/rsolvers/mhd/hlld_iso.cpp: exact arithmetic, one face, in the coordinates of the sweep.  The energy entries of states and fluxes are 0. *)
From Coq Require Import Reals Bool.
From Verif Require Import Time_Model Eos_Model Rie_Model.
Local Open Scope R_scope.

(** Lines 76-89: conserved variables. *)
Definition iso_cons (m : mprim) : mcons :=
  let w := gas m in mkMU (mkU (w_d w) (w_vx w * w_d w) (w_vy w * w_d w) (w_vz w * w_d w) 0) (m_by m) (m_bz m).
(** Lines 101-118: total pressure and flux of one side. *)
Definition iso_flux (cs bxi : R) (m : mprim) : mcons :=
  let w := gas m in let u := iso_cons m in
  let pt := SQR cs * w_d w + (1/2) * (bxi * bxi + SQR (m_by m) + SQR (m_bz m)) in
  mkMU (mkU (u_m1 (gasf u)) (u_m1 (gasf u) * w_vx w + pt - bxi * bxi) (u_m2 (gasf u) * w_vx w - bxi * m_by m) (u_m3 (gasf u) * w_vx w - bxi * m_bz m) 0)
       (m_by m * w_vx w - bxi * w_vy w) (m_bz m * w_vx w - bxi * w_vz w).
(** Lines 91-97, 120-143: speeds of the four waves, density, normal velocity, normal momentum and the fluxes of mass and normal momentum between the outer waves. *)
Record fan := { spd_0 : R; spd_1 : R; spd_3 : R; spd_4 : R; dhll : R; ustar : R; mxhll : R; fmxhll : R }.
Definition fan_of (cs dfloor bxi : R) (ml mr : mprim) : fan :=
  let cfl := cfast (Iso cs) bxi ml in let cfr := cfast (Iso cs) bxi mr in
  let s0 := Rmin (w_vx (gas ml) - cfl) (w_vx (gas mr) - cfr) in
  let s4 := Rmax (w_vx (gas ml) + cfl) (w_vx (gas mr) + cfr) in
  let ul := gasf (iso_cons ml) in let ur := gasf (iso_cons mr) in
  let fl := gasf (iso_flux cs bxi ml) in let fr := gasf (iso_flux cs bxi mr) in
  let idspd := 1 / (s4 - s0) in
  let d := Rmax ((s4 * u_d ur - s0 * u_d ul - u_d fr + u_d fl) * idspd) dfloor in
  let fdhll := (s4 * u_d fl - s0 * u_d fr + s4 * s0 * (u_d ur - u_d ul)) * idspd in
  let fmx := (s4 * u_m1 fl - s0 * u_m1 fr + s4 * s0 * (u_m1 ur - u_m1 ul)) * idspd in
  let v := fdhll / d in
  let mx := (s4 * u_m1 ur - s0 * u_m1 ul - u_m1 fr + u_m1 fl) * idspd in
  {| spd_0 := s0; spd_1 := v - Rabs bxi / sqrt d; spd_3 := v + Rabs bxi / sqrt d; spd_4 := s4; dhll := d; ustar := v; mxhll := mx; fmxhll := fmx |}.
(** Lines 147-166 (s = spd_0, s_near = spd_1) and 168-187 (s = spd_4, s_near = spd_3): the state behind an outer wave. *)
Definition iso_star (cs bxi : R) (f : fan) (s s_near : R) (m : mprim) : mcons :=
  let w := gas m in let u := iso_cons m in
  let tmp := (s - spd_1 f) * (s - spd_3 f) in
  if ltR (Rabs (s - s_near)) (1/10000 * cs)
  then mkMU (mkU (dhll f) (mxhll f) (u_m2 (gasf u)) (u_m3 (gasf u)) 0) (f_by u) (f_bz u)
  else
    let mfact := bxi * (ustar f - w_vx w) / tmp in
    let bfact := (w_d w * SQR (s - w_vx w) - bxi * bxi) / (dhll f * tmp) in
    mkMU (mkU (dhll f) (mxhll f) (dhll f * w_vy w - m_by m * mfact) (dhll f * w_vz w - m_bz m * mfact) 0) (m_by m * bfact) (m_bz m * bfact).
(** Lines 189-196: the state between the Alfven waves. *)
Definition iso_middle (bxi : R) (f : fan) (l r : mcons) : mcons :=
  let x := sqrt (dhll f) * bsign bxi in
  mkMU (mkU (dhll f) (mxhll f) (1/2 * (u_m2 (gasf l) + u_m2 (gasf r) + (f_by r - f_by l) * x)) (1/2 * (u_m3 (gasf l) + u_m3 (gasf r) + (f_bz r - f_bz l) * x)) 0)
       (1/2 * (f_by l + f_by r + (u_m2 (gasf r) - u_m2 (gasf l)) / x)) (1/2 * (f_bz l + f_bz r + (u_m3 (gasf r) - u_m3 (gasf l)) / x)).
(** Lines 198-240. *)
Definition HLLD_iso (cs dfloor bxi : R) (ml mr : mprim) : mcons :=
  let f := fan_of cs dfloor bxi ml mr in
  let ul := iso_cons ml in let ur := iso_cons mr in
  let fl := iso_flux cs bxi ml in let fr := iso_flux cs bxi mr in
  let ulst := iso_star cs bxi f (spd_0 f) (spd_1 f) ml in
  let urst := iso_star cs bxi f (spd_4 f) (spd_3 f) mr in
  let uc := iso_middle bxi f ulst urst in
  if leR 0 (spd_0 f) then fl
  else if leR (spd_4 f) 0 then fr
  else if leR 0 (spd_1 f) then mmap3 (fun f0 a b => f0 + spd_0 f * (a - b)) fl ulst ul
  else if leR (spd_3 f) 0 then mmap3 (fun f0 a b => f0 + spd_4 f * (a - b)) fr urst ur
  else mkMU (mkU (dhll f * ustar f) (fmxhll f) (u_m2 (gasf uc) * ustar f - bxi * f_by uc) (u_m3 (gasf uc) * ustar f - bxi * f_bz uc) 0)
            (f_by uc * ustar f - bxi * u_m2 (gasf uc) / u_d (gasf uc)) (f_bz uc * ustar f - bxi * u_m3 (gasf uc) / u_d (gasf uc)).
