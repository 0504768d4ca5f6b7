(** Riemann solvers, src/hydro/rsolvers, exact arithmetic: the flux through one face from the states on its two sides, in the coordinates of the sweep
    (IVX normal to the face).  Newtonian, not the general equation of state, not the relativistic solvers, not roe_mhd, hlld_iso, lhlld. *)
From Coq Require Import Reals ZArith Bool.
From Verif Require Import Time_Model Eos_Model.
Local Open Scope R_scope.

(** NON_BAROTROPIC_EOS: adiabatic index, or the isothermal sound speed. *)
Inductive eos := Adi (gamma : R) | Iso (cs : R).
(** wl[IPR], or (iso_cs*iso_cs)*wl[IDN]. *)
Definition pr (e : eos) (w : prim) : R := match e with Adi _ => w_p w | Iso c => (c * c) * w_d w end.
(** el, er: llf.cpp 77-83, hlle.cpp 79-84 and others; isothermal runs have no energy (0 here). *)
Definition en (e : eos) (w : prim) : R :=
  match e with Adi g => w_p w / (g - 1) + (1/2) * w_d w * (SQR (w_vx w) + SQR (w_vy w) + SQR (w_vz w)) | Iso _ => 0 end.
(** EquationOfState::SoundSpeed. *)
Definition cs (e : eos) (w : prim) : R := match e with Adi g => SoundSpeed g (w_d w) (w_p w) | Iso c => c end.
(** A component that exists only with an energy equation. *)
Definition if_energy (e : eos) (x : R) : R := match e with Adi _ => x | Iso _ => 0 end.

(** The flux along the line of speed b: hlle.cpp 105-129, hllc.cpp 138-153; llf.cpp 61-88 and roe.cpp 84-109 with b = 0. *)
Definition flux_along (e : eos) (b : R) (w : prim) : cons :=
  let vx := w_vx w - b in
  mkU (w_d w * vx) (w_d w * w_vx w * vx + pr e w) (w_d w * w_vy w * vx) (w_d w * w_vz w * vx) (if_energy e (en e w * vx + pr e w * w_vx w)).
Definition flux_llf (e : eos) (w : prim) : cons :=
  let mx := w_d w * w_vx w in
  mkU mx (mx * w_vx w + pr e w) (mx * w_vy w) (mx * w_vz w) (if_energy e ((en e w + pr e w) * w_vx w)).
(** du: llf.cpp 92-98. *)
Definition du (e : eos) (wl wr : prim) : cons :=
  mkU (w_d wr - w_d wl) (w_d wr * w_vx wr - w_d wl * w_vx wl) (w_d wr * w_vy wr - w_d wl * w_vy wl) (w_d wr * w_vz wr - w_d wl * w_vz wl)
      (if_energy e (en e wr - en e wl)).
Definition map3 (f : R -> R -> R -> R) (a b c : cons) : cons :=
  mkU (f (u_d a) (u_d b) (u_d c)) (f (u_m1 a) (u_m1 b) (u_m1 c)) (f (u_m2 a) (u_m2 b) (u_m2 c)) (f (u_m3 a) (u_m3 b) (u_m3 c)) (f (u_e a) (u_e b) (u_e c)).

(** LLF, llf.cpp 33-125. *)
Definition LLF (e : eos) (wl wr : prim) : cons :=
  let a := (1/2) * Rmax (Rabs (w_vx wl) + cs e wl) (Rabs (w_vx wr) + cs e wr) in
  map3 (fun fl fr d => (1/2) * (fl + fr) - a * d) (flux_llf e wl) (flux_llf e wr) (du e wl wr).

(** The Roe-averaged state: hlle.cpp 70-87, roe.cpp 66-83; the enthalpy is in the place of the pressure. *)
Definition roe_average (e : eos) (wl wr : prim) : prim :=
  let sdl := sqrt (w_d wl) in let sdr := sqrt (w_d wr) in let isd := 1 / (sdl + sdr) in
  mkW (sdl * sdr) ((sdl * w_vx wl + sdr * w_vx wr) * isd) ((sdl * w_vy wl + sdr * w_vy wr) * isd) ((sdl * w_vz wl + sdr * w_vz wr) * isd)
      (if_energy e (((en e wl + w_p wl) / sdl + (en e wr + w_p wr) / sdr) * isd)).
Definition vsq (w : prim) : R := SQR (w_vx w) + SQR (w_vy w) + SQR (w_vz w).
(** HLLE, hlle.cpp 38-150: the smallest and the largest wave speed, their parts bm and bp, and the flux. *)
Definition hlle_a (e : eos) (wl wr : prim) : R :=
  match e with
  | Adi g => let q := w_p (roe_average e wl wr) - (1/2) * vsq (roe_average e wl wr) in if ltR q 0 then 0 else sqrt ((g - 1) * q)
  | Iso c => c
  end.
Definition hlle_al (e : eos) (wl wr : prim) : R := Rmin (w_vx (roe_average e wl wr) - hlle_a e wl wr) (w_vx wl - cs e wl).
Definition hlle_ar (e : eos) (wl wr : prim) : R := Rmax (w_vx (roe_average e wl wr) + hlle_a e wl wr) (w_vx wr + cs e wr).
Definition plus_part (x : R) : R := if ltR 0 x then x else 0.
Definition minus_part (x : R) : R := if ltR x 0 then x else 0.
Definition hll_combine (bp bm : R) (fl fr : R) : R :=
  let tmp := if eqR bp bm then 0 else (1/2) * (bp + bm) / (bp - bm) in
  (1/2) * (fl + fr) + (fl - fr) * tmp.
Definition HLLE (e : eos) (wl wr : prim) : cons :=
  let bp := plus_part (hlle_ar e wl wr) in
  let bm := minus_part (hlle_al e wl wr) in
  map3 (fun fl fr _ => hll_combine bp bm fl fr) (flux_along e bm wl) (flux_along e bp wr) (du e wl wr).

(** HLLC, hllc.cpp 31-190, adiabatic; [T] is TINY_NUMBER. *)
Definition hllc_q (g p pmid : R) : R := if leR pmid p then 1 else sqrt (1 + (g + 1) / (2 * g) * (pmid / p - 1)).
Definition hllc_pmid (g : R) (wl wr : prim) : R :=
  let rhoa := (1/2) * (w_d wl + w_d wr) in
  let ca := (1/2) * (cs (Adi g) wl + cs (Adi g) wr) in
  (1/2) * (w_p wl + w_p wr + (w_vx wl - w_vx wr) * rhoa * ca).
Definition hllc_al (g : R) (wl wr : prim) : R := w_vx wl - cs (Adi g) wl * hllc_q g (w_p wl) (hllc_pmid g wl wr).
Definition hllc_ar (g : R) (wl wr : prim) : R := w_vx wr + cs (Adi g) wr * hllc_q g (w_p wr) (hllc_pmid g wl wr).
(** am, cp: 120-134. *)
Definition hllc_am (g : R) (wl wr : prim) : R :=
  let vxl := w_vx wl - hllc_al g wl wr in let vxr := w_vx wr - hllc_ar g wl wr in
  let tl := w_p wl + vxl * w_d wl * w_vx wl in let tr := w_p wr + vxr * w_d wr * w_vx wr in
  let ml := w_d wl * vxl in let mr := - (w_d wr * vxr) in
  (tl - tr) / (ml + mr).
Definition hllc_cp (g : R) (wl wr : prim) : R :=
  let vxl := w_vx wl - hllc_al g wl wr in let vxr := w_vx wr - hllc_ar g wl wr in
  let tl := w_p wl + vxl * w_d wl * w_vx wl in let tr := w_p wr + vxr * w_d wr * w_vx wr in
  let ml := w_d wl * vxl in let mr := - (w_d wr * vxr) in
  let cp := (ml * tr + mr * tl) / (ml + mr) in
  if ltR 0 cp then cp else 0.
(** The weighted flux: 155-180. *)
Definition hllc_weights (am bp bm : R) : R * R * R :=
  if leR 0 am then (am / (am - bm), 0, - bm / (am - bm)) else (0, - am / (bp - am), bp / (bp - am)).
Definition contact_flux (am cp sm : R) : cons := mkU 0 (sm * cp) 0 0 (sm * cp * am).
Definition bp_of (T ar : R) : R := if ltR 0 ar then ar else T.
Definition bm_of (T al : R) : R := if ltR al 0 then al else - T.
Definition hllc_flux (e : eos) (T am cp al ar : R) (wl wr : prim) : cons :=
  let bp := bp_of T ar in let bm := bm_of T al in
  let '(sl, sr, sm) := hllc_weights am bp bm in
  map3 (fun fl fr c => sl * fl + sr * fr + c) (flux_along e bm wl) (flux_along e bp wr) (contact_flux am cp sm).
Definition HLLC (T g : R) (wl wr : prim) : cons :=
  hllc_flux (Adi g) T (hllc_am g wl wr) (hllc_cp g wl wr) (hllc_al g wl wr) (hllc_ar g wl wr) wl wr.

(** LHLLC, lhllc.cpp 28-190; dvn, dvt are the velocity differences at the face. *)
Definition lhllc_th (g dvn dvt : R) (wl wr : prim) : R :=
  let cmax := Rmax (cs (Adi g) wl) (cs (Adi g) wr) in
  let th1 := Rmin 1 ((cmax - Rmin dvn 0) / (cmax - Rmin dvt 0)) in th1 * th1 * th1 * th1.
Definition lhllc_am (g dvn dvt : R) (wl wr : prim) : R :=
  let ml := w_d wl * (hllc_al g wl wr - w_vx wl) in let mr := w_d wr * (hllc_ar g wl wr - w_vx wr) in
  (mr * w_vx wr - ml * w_vx wl - lhllc_th g dvn dvt wl wr * (w_p wr - w_p wl)) / (mr - ml).
Definition lhllc_cp (g : R) (wl wr : prim) : R :=
  let ml := w_d wl * (hllc_al g wl wr - w_vx wl) in let mr := w_d wr * (hllc_ar g wl wr - w_vx wr) in
  let cmax := Rmax (cs (Adi g) wl) (cs (Adi g) wr) in
  let chi := Rmin 1 (sqrt (Rmax (vsq wl) (vsq wr)) / cmax) in
  let phi := chi * (2 - chi) in
  let cp := (mr * w_p wl - ml * w_p wr + phi * mr * ml * (w_vx wr - w_vx wl)) / (mr - ml) in
  if ltR 0 cp then cp else 0.
Definition LHLLC (T g dvn dvt : R) (wl wr : prim) : cons :=
  hllc_flux (Adi g) T (lhllc_am g dvn dvt wl wr) (lhllc_cp g wl wr) (hllc_al g wl wr) (hllc_ar g wl wr) wl wr.

(** Roe, roe.cpp 43-187, and RoeFlux 218-349.  [T] is TINY_NUMBER.  The sound speed squared of the averaged state. *)
Definition roe_csq (e : eos) (T : R) (w : prim) : R :=
  match e with Adi g => let q := w_p w - (1/2) * vsq w in if ltR q 0 then T else (g - 1) * q | Iso c => c * c end.
Definition roe_cs (e : eos) (T : R) (w : prim) : R := match e with Adi _ => sqrt (roe_csq e T w) | Iso c => c end.
(** The projections a[0] .. a[4] (adiabatic 236-263; isothermal, where a[3] is the other sound wave, 311-322): left sound wave, two shear waves, entropy wave, right sound wave. *)
Definition roe_a (e : eos) (T : R) (w : prim) (d : cons) : R * R * R * R * R :=
  match e with
  | Adi g =>
    let gm1 := g - 1 in let c2 := roe_csq e T w in let c := roe_cs e T w in let na := (1/2) / c2 in let qa := gm1 / c2 in
    ((u_d d * ((1/2) * gm1 * vsq w + w_vx w * c) - u_m1 d * (gm1 * w_vx w + c) - u_m2 d * gm1 * w_vy w - u_m3 d * gm1 * w_vz w + u_e d * gm1) * na,
     u_d d * (- w_vy w) + u_m2 d,
     u_d d * (- w_vz w) + u_m3 d,
     u_d d * (1 - na * gm1 * vsq w) + u_m1 d * qa * w_vx w + u_m2 d * qa * w_vy w + u_m3 d * qa * w_vz w - u_e d * qa,
     (u_d d * ((1/2) * gm1 * vsq w - w_vx w * c) - u_m1 d * (gm1 * w_vx w - c) - u_m2 d * gm1 * w_vy w - u_m3 d * gm1 * w_vz w + u_e d * gm1) * na)
  | Iso c =>
    (u_d d * (1/2 + (1/2) * w_vx w / c) - u_m1 d * (1/2) / c,
     u_d d * (- w_vy w) + u_m2 d,
     u_d d * (- w_vz w) + u_m3 d,
     0,
     u_d d * (1/2 - (1/2) * w_vx w / c) + u_m1 d * (1/2) / c)
  end.
(** llf_flag: 271-278 (adiabatic), 330-336 (isothermal: the two sound waves). *)
Definition roe_flag (e : eos) (rhol : R) (a : R * R * R * R * R) : bool :=
  let '(a0, a1, a2, a3, a4) := a in
  match e with
  | Adi _ => ltR (rhol + a0) 0 || ltR (rhol + a0 + a3) 0
  | Iso _ => ltR (rhol + a0) 0 || ltR (rhol + a0 + a4) 0
  end.
(** What is added to (F_l + F_r)/2: 265-304, 324-349. *)
Definition roe_dissipation (e : eos) (T : R) (w : prim) (a : R * R * R * R * R) : cons :=
  let '(a0, a1, a2, a3, a4) := a in
  let v1 := w_vx w in let c := roe_cs e T w in let h := w_p w in
  let c0 := -(1/2) * Rabs (v1 - c) * a0 in let c1 := -(1/2) * Rabs v1 * a1 in let c2 := -(1/2) * Rabs v1 * a2 in
  let c3 := -(1/2) * Rabs v1 * a3 in let c4 := -(1/2) * Rabs (v1 + c) * a4 in
  mkU (c0 + c3 + c4) (c0 * (v1 - c) + c3 * v1 + c4 * (v1 + c))
      (c0 * w_vy w + c1 + c3 * w_vy w + c4 * w_vy w) (c0 * w_vz w + c2 + c3 * w_vz w + c4 * w_vz w)
      (if_energy e (c0 * (h - v1 * c) + c1 * w_vy w + c2 * w_vz w + c3 * (1/2) * vsq w + c4 * (h + v1 * c))).
Definition Roe (e : eos) (T : R) (wl wr : prim) : cons :=
  let w := roe_average e wl wr in
  let d := du e wl wr in
  let a := roe_a e T w d in
  let c := roe_cs e T w in
  if roe_flag e (w_d wl) a then LLF e wl wr
  else if leR (w_vx w + c) 0 then flux_llf e wr
  else if leR 0 (w_vx w - c) then flux_llf e wl
  else map3 (fun fl fr x => (1/2) * (fl + fr) + x) (flux_llf e wl) (flux_llf e wr) (roe_dissipation e T w a).

(** ** Magnetic fields: the transverse components beside the gas; the normal component bx is common to both sides. *)
Record mprim := mkMW { gas : prim; m_by : R; m_bz : R }.
Record mcons := mkMU { gasf : cons; f_by : R; f_bz : R }.
Definition mmap3 (f : R -> R -> R -> R) (a b c : mcons) : mcons :=
  mkMU (map3 f (gasf a) (gasf b) (gasf c)) (f (f_by a) (f_by b) (f_by c)) (f (f_bz a) (f_bz b) (f_bz c)).
(** FastMagnetosonicSpeed of a state. *)
Definition cfast (e : eos) (bx : R) (m : mprim) : R :=
  FastMagnetosonicSpeed (match e with Adi g => g * w_p (gas m) | Iso c => (c * c) * w_d (gas m) end) (w_d (gas m)) bx (m_by m) (m_bz m).
Definition pbm (bx : R) (m : mprim) : R := (1/2) * (bx * bx + SQR (m_by m) + SQR (m_bz m)).
Definition men (e : eos) (bx : R) (m : mprim) : R := match e with Adi _ => en e (gas m) + pbm bx m | Iso _ => 0 end.
(** hlle_mhd.cpp 121-160; llf_mhd.cpp 75-115 and hlld.cpp 133-152 with b = 0. *)
Definition mflux_along (e : eos) (bx b : R) (m : mprim) : mcons :=
  let w := gas m in let vx := w_vx w - b in let pb := pbm bx m in
  mkMU (mkU (w_d w * vx) (w_d w * w_vx w * vx + pb - SQR bx + pr e w) (w_d w * w_vy w * vx - bx * m_by m) (w_d w * w_vz w * vx - bx * m_bz m)
            (if_energy e (men e bx m * vx + w_vx w * (pr e w + pb - bx * bx) - bx * (m_by m * w_vy w + m_bz m * w_vz w))))
       (m_by m * vx - bx * w_vy w) (m_bz m * vx - bx * w_vz w).
Definition mflux_llf (e : eos) (bx : R) (m : mprim) : mcons :=
  let w := gas m in let mx := w_d w * w_vx w in let pb := pbm bx m in
  mkMU (mkU mx (mx * w_vx w + pb - SQR bx + pr e w) (mx * w_vy w - bx * m_by m) (mx * w_vz w - bx * m_bz m)
            (if_energy e ((men e bx m + pr e w + pb - bx * bx) * w_vx w - bx * (m_by m * w_vy w + m_bz m * w_vz w))))
       (m_by m * w_vx w - bx * w_vy w) (m_bz m * w_vx w - bx * w_vz w).
Definition mdu (e : eos) (bx : R) (ml mr : mprim) : mcons :=
  let d := du e (gas ml) (gas mr) in
  mkMU (mkU (u_d d) (u_m1 d) (u_m2 d) (u_m3 d) (if_energy e (men e bx mr - men e bx ml))) (m_by mr - m_by ml) (m_bz mr - m_bz ml).
(** LLF with fields, llf_mhd.cpp 33-155. *)
Definition LLF_MHD (e : eos) (bx : R) (ml mr : mprim) : mcons :=
  let a := (1/2) * Rmax (Rabs (w_vx (gas ml)) + cfast e bx ml) (Rabs (w_vx (gas mr)) + cfast e bx mr) in
  mmap3 (fun fl fr d => (1/2) * (fl + fr) - a * d) (mflux_llf e bx ml) (mflux_llf e bx mr) (mdu e bx ml mr).
(** HLLE with fields, hlle_mhd.cpp 27-190. *)
Definition hlle_mhd_a (e : eos) (bx : R) (ml mr : mprim) : R :=
  let wl := gas ml in let wr := gas mr in
  let sdl := sqrt (w_d wl) in let sdr := sqrt (w_d wr) in let isd := 1 / (sdl + sdr) in
  let d := sdl * sdr in
  let vx := (sdl * w_vx wl + sdr * w_vx wr) * isd in let vy := (sdl * w_vy wl + sdr * w_vy wr) * isd in let vz := (sdl * w_vz wl + sdr * w_vz wr) * isd in
  let by_ := (sdr * m_by ml + sdl * m_by mr) * isd in let bz := (sdr * m_bz ml + sdl * m_bz mr) * isd in
  let x := (1/2) * (SQR (m_by ml - m_by mr) + SQR (m_bz ml - m_bz mr)) / SQR (sdl + sdr) in
  let y := (1/2) * (w_d wl + w_d wr) / d in
  let hroe := ((men e bx ml + w_p wl + pbm bx ml) / sdl + (men e bx mr + w_p wr + pbm bx mr) / sdr) * isd in
  let btsq := SQR by_ + SQR bz in
  let vaxsq := bx * bx / d in
  let '(bt_starsq, twid) :=
    match e with
    | Adi g => ((g - 1 - (g - 1 - 1) * y) * btsq,
                Rmax ((g - 1) * (hroe - (vaxsq + btsq / d) - (1/2) * (SQR vx + SQR vy + SQR vz)) - (g - 1 - 1) * x) 0)
    | Iso c => (btsq * y, c * c + x)
    end in
  let ct2 := bt_starsq / d in
  let tsum := vaxsq + ct2 + twid in
  let tdif := vaxsq + ct2 - twid in
  sqrt ((1/2) * (tsum + sqrt (tdif * tdif + 4 * twid * ct2))).
Definition mvroe (ml mr : mprim) : R :=
  let sdl := sqrt (w_d (gas ml)) in let sdr := sqrt (w_d (gas mr)) in (sdl * w_vx (gas ml) + sdr * w_vx (gas mr)) * (1 / (sdl + sdr)).
Definition hlle_mhd_al (e : eos) (bx : R) (ml mr : mprim) : R := Rmin (mvroe ml mr - hlle_mhd_a e bx ml mr) (w_vx (gas ml) - cfast e bx ml).
Definition hlle_mhd_ar (e : eos) (bx : R) (ml mr : mprim) : R := Rmax (mvroe ml mr + hlle_mhd_a e bx ml mr) (w_vx (gas mr) + cfast e bx mr).
Definition HLLE_MHD (e : eos) (bx : R) (ml mr : mprim) : mcons :=
  let bp := plus_part (hlle_mhd_ar e bx ml mr) in
  let bm := minus_part (hlle_mhd_al e bx ml mr) in
  mmap3 (fun fl fr _ => hll_combine bp bm fl fr) (mflux_along e bx bm ml) (mflux_along e bx bp mr) (mdu e bx ml mr).

(** HLLD, hlld.cpp 35-390, adiabatic.  The conserved states, 79-105. *)
Definition mcons_of (g bx : R) (m : mprim) : mcons :=
  let w := gas m in
  mkMU (mkU (w_d w) (w_vx w * w_d w) (w_vy w * w_d w) (w_vz w * w_d w)
            (w_p w * (1 / (g - 1)) + (1/2) * w_d w * (SQR (w_vx w) + (SQR (w_vy w) + SQR (w_vz w))) + (1/2) * (bx * bx + (SQR (m_by m) + SQR (m_bz m)))))
       (m_by m) (m_bz m).
Definition spd0 (g bx : R) (ml mr : mprim) : R := Rmin (w_vx (gas ml) - cfast (Adi g) bx ml) (w_vx (gas mr) - cfast (Adi g) bx mr).
Definition spd4 (g bx : R) (ml mr : mprim) : R := Rmax (w_vx (gas ml) + cfast (Adi g) bx ml) (w_vx (gas mr) + cfast (Adi g) bx mr).
Definition ptot (bx : R) (m : mprim) : R := w_p (gas m) + pbm bx m.
Definition spd2 (g bx : R) (ml mr : mprim) : R :=
  let wl := gas ml in let wr := gas mr in
  let sdl := spd0 g bx ml mr - w_vx wl in let sdr := spd4 g bx ml mr - w_vx wr in
  (sdr * (w_vx wr * w_d wr) - sdl * (w_vx wl * w_d wl) + (ptot bx ml - ptot bx mr)) / (sdr * w_d wr - sdl * w_d wl).
Definition ptst (g bx : R) (ml mr : mprim) : R :=
  let wl := gas ml in let wr := gas mr in
  let sdl := spd0 g bx ml mr - w_vx wl in let sdr := spd4 g bx ml mr - w_vx wr in let s2 := spd2 g bx ml mr in
  (1/2) * ((ptot bx mr + w_d wr * sdr * (s2 - w_vx wr)) + (ptot bx ml + w_d wl * sdl * (s2 - w_vx wl))).
(** One starred state and v*.B*; [s] is the outer speed of that side: 180-240. *)
Definition star (g bx s s2 pst : R) (m : mprim) : mcons * R :=
  let w := gas m in let u := mcons_of g bx m in
  let sd := s - w_vx w in let sdm := s - s2 in let sdm_inv := 1 / sdm in
  let d := w_d w * sd * sdm_inv in let d_inv := 1 / d in
  let q := w_d w * sd * sdm - bx * bx in
  let '(my, mz, by_, bz) :=
    if ltR (Rabs q) (1/10000 * pst) then (d * w_vy w, d * w_vz w, m_by m, m_bz m)
    else let t := bx * (sd - sdm) / q in let t2 := (w_d w * SQR sd - bx * bx) / q in
         (d * (w_vy w - m_by m * t), d * (w_vz w - m_bz m * t), m_by m * t2, m_bz m * t2) in
  let mx := d * s2 in
  let vb := (mx * bx + (my * by_ + mz * bz)) * d_inv in
  let e := (sd * u_e (gasf u) - ptot bx m * w_vx w + pst * s2 + bx * (w_vx w * bx + (w_vy w * m_by m + w_vz w * m_bz m) - vb)) * sdm_inv in
  (mkMU (mkU d mx my mz e) by_ bz, vb).
(** The doubly starred states: 241-285.  Common velocities and fields. *)
Definition bsign (bx : R) : R := if ltR 0 bx then 1 else -1.
Definition dstar_common (bx : R) (ul ur : mcons) : R * R * R * R :=
  let sl := sqrt (u_d (gasf ul)) in let sr := sqrt (u_d (gasf ur)) in let inv := 1 / (sl + sr) in let sg := bsign bx in
  let il := 1 / u_d (gasf ul) in let ir := 1 / u_d (gasf ur) in
  (inv * (sl * (u_m2 (gasf ul) * il) + sr * (u_m2 (gasf ur) * ir) + sg * (f_by ur - f_by ul)),
   inv * (sl * (u_m3 (gasf ul) * il) + sr * (u_m3 (gasf ur) * ir) + sg * (f_bz ur - f_bz ul)),
   inv * (sl * f_by ur + sr * f_by ul + sg * sl * sr * (u_m2 (gasf ur) * ir - u_m2 (gasf ul) * il)),
   inv * (sl * f_bz ur + sr * f_bz ul + sg * sl * sr * (u_m3 (gasf ur) * ir - u_m3 (gasf ul) * il))).
Definition dstar (bx s2 sgn vb : R) (c : R * R * R * R) (u : mcons) : mcons :=
  let '(vy, vz, by_, bz) := c in
  let d := u_d (gasf u) in let my := d * vy in let mz := d * vz in
  let tmp := s2 * bx + (my * by_ + mz * bz) / d in
  mkMU (mkU d (u_m1 (gasf u)) my mz (u_e (gasf u) + sgn * (sqrt d * bsign bx * (vb - tmp)))) by_ bz.
Definition HLLD (g bx : R) (ml mr : mprim) : mcons :=
  let s0 := spd0 g bx ml mr in let s4 := spd4 g bx ml mr in let s2 := spd2 g bx ml mr in let pst := ptst g bx ml mr in
  let '(ulst, vbl) := star g bx s0 s2 pst ml in
  let '(urst, vbr) := star g bx s4 s2 pst mr in
  let s1 := s2 - Rabs bx / sqrt (u_d (gasf ulst)) in
  let s3 := s2 + Rabs bx / sqrt (u_d (gasf urst)) in
  let c := dstar_common bx ulst urst in
  let uldst := dstar bx s2 (-1) vbl c ulst in
  let urdst := dstar bx s2 1 vbr c urst in
  let fl := mflux_llf (Adi g) bx ml in let fr := mflux_llf (Adi g) bx mr in
  let ul := mcons_of g bx ml in let ur := mcons_of g bx mr in
  let fls := mmap3 (fun f us u => f + s0 * (us - u)) fl ulst ul in
  let frs := mmap3 (fun f us u => f + s4 * (us - u)) fr urst ur in
  if leR 0 s0 then fl
  else if leR s4 0 then fr
  else if leR 0 s1 then fls
  else if leR s3 0 then frs
  else if leR 0 s2 then mmap3 (fun f ud us => f + s1 * (ud - us)) fls uldst ulst
  else mmap3 (fun f ud us => f + s3 * (ud - us)) frs urdst urst.

(** ** Sweep directions: loading wl(ivx), wl(ivy), wl(ivz) and storing flx(ivx), ..., with ivy = IVX + ((ivx-IVX)+1)%3, ivz = IVX + ((ivx-IVX)+2)%3 (llf.cpp 38-39, 46-60, 115-122).  [dir] is ivx - IVX. *)
Definition load (dir : nat) (w : prim) : prim :=
  match dir with O => w | S O => mkW (w_d w) (w_vy w) (w_vz w) (w_vx w) (w_p w) | _ => mkW (w_d w) (w_vz w) (w_vx w) (w_vy w) (w_p w) end.
Definition store (dir : nat) (f : cons) : cons :=
  match dir with O => f | S O => mkU (u_d f) (u_m3 f) (u_m1 f) (u_m2 f) (u_e f) | _ => mkU (u_d f) (u_m2 f) (u_m3 f) (u_m1 f) (u_e f) end.
