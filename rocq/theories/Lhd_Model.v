(** The low-dissipation HLLD Riemann solver for adiabatic MHD, src/hydro/rsolvers/mhd/lhlld.cpp: exact arithmetic, one face, not the general equation of state.
    The conserved states (85-108) and fluxes (130-147) are those of HLLD: mcons_of, mflux_llf. *)
From Coq Require Import Reals Bool.
From Verif Require Import Time_Model Eos_Model Rie_Model.
Local Open Scope R_scope.

(** Lines 170-376 from the speeds of the outer waves and of the contact and from the total pressure between the outer waves; sdld = sdl*ul.d. *)
Definition hlld_flux (g bx s0 s4 s2 pst : R) (ml mr : mprim) : mcons :=
  let '(ulst, vbl) := star g bx s0 s2 pst ml in
  let '(urst, vbr) := star g bx s4 s2 pst mr in
  let s1 := s2 - Rabs bx / sqrt (u_d (gasf ulst)) in
  let s3 := s2 + Rabs bx / sqrt (u_d (gasf urst)) in
  let c := dstar_common bx ulst urst in
  let uldst := dstar bx s2 (-1) vbl c ulst in
  let urdst := dstar bx s2 1 vbr c urst in
  let fl := mflux_llf (Adi g) bx ml in let fr := mflux_llf (Adi g) bx mr in
  let ul := mcons_of g bx ml in let ur := mcons_of g bx mr in
  let fls := mmap3 (fun f us u => f + s0 * (us - u)) fl ulst ul in
  let frs := mmap3 (fun f us u => f + s4 * (us - u)) fr urst ur in
  if leR 0 s0 then fl
  else if leR s4 0 then fr
  else if leR 0 s1 then fls
  else if leR s3 0 then frs
  else if leR 0 s2 then mmap3 (fun f ud us => f + s1 * (ud - us)) fls uldst ulst
  else mmap3 (fun f ud us => f + s3 * (ud - us)) frs urdst urst.

(** Line 119. *)
Definition cfmax (g bx : R) (ml mr : mprim) : R := Rmax (cfast (Adi g) bx ml) (cfast (Adi g) bx mr).
(** Lines 159-161: the shock detector; dvn, dvt are the velocity differences at the face. *)
Definition lhlld_th (g bx dvn dvt : R) (ml mr : mprim) : R :=
  let c := cfmax g bx ml mr in
  let th1 := Rmin 1 ((c - Rmin dvn 0) / (c - Rmin dvt 0)) in th1 * th1 * th1 * th1.
(** Line 163. *)
Definition lhlld_s2 (g bx dvn dvt : R) (ml mr : mprim) : R :=
  let wl := gas ml in let wr := gas mr in
  let sdl := spd0 g bx ml mr - w_vx wl in let sdr := spd4 g bx ml mr - w_vx wr in
  (sdr * (w_vx wr * w_d wr) - sdl * (w_vx wl * w_d wl) + lhlld_th g bx dvn dvt ml mr * (ptot bx ml - ptot bx mr)) / (sdr * w_d wr - sdl * w_d wl).
(** Lines 80-83, 184-187: kinetic energy, the argument of the square root, the characteristic speed of one side, chi and phi. *)
Definition kinetic (m : mprim) : R := (1/2) * w_d (gas m) * (SQR (w_vx (gas m)) + (SQR (w_vy (gas m)) + SQR (w_vz (gas m)))).
Definition root_argument (bx : R) (m : mprim) : R := SQR (pbm bx m + kinetic m) - 2 * kinetic m * (bx * bx).
Definition clsq (bx : R) (m : mprim) : R := ((pbm bx m + kinetic m) + sqrt (root_argument bx m)) / w_d (gas m).
Definition lhlld_chi (g bx : R) (ml mr : mprim) : R := Rmin 1 (sqrt (Rmax (clsq bx ml) (clsq bx mr)) / cfmax g bx ml mr).
Definition lhlld_phi (g bx : R) (ml mr : mprim) : R := let chi := lhlld_chi g bx ml mr in chi * (2 - chi).
(** Line 188. *)
Definition lhlld_pt (g bx : R) (ml mr : mprim) : R :=
  let wl := gas ml in let wr := gas mr in
  let sdld := (spd0 g bx ml mr - w_vx wl) * w_d wl in let sdrd := (spd4 g bx ml mr - w_vx wr) * w_d wr in
  (sdrd * ptot bx ml - sdld * ptot bx mr + lhlld_phi g bx ml mr * sdrd * sdld * (w_vx wr - w_vx wl)) / (sdrd - sdld).
Definition LHLLD (g dvn dvt bx : R) (ml mr : mprim) : mcons :=
  hlld_flux g bx (spd0 g bx ml mr) (spd4 g bx ml mr) (lhlld_s2 g bx dvn dvt ml mr) (lhlld_pt g bx ml mr) ml mr.
