(** Exchange of energy and momentum between gas and radiation along discrete directions, src/nr_radiation: frame_transform.cpp, rad_source.cpp,
    srcterms/absorption_scattering.cpp, get_moments.cpp.  Exact arithmetic, one cell. *)
From Coq Require Import Reals List Bool.
From Verif Require Import Time_Model Qrt_Model.
Import ListNotations.
Local Open Scope R_scope.

(** defs.hpp.in 146. *)
Definition TINY : R := / 10 ^ 20.
(** A direction (mu(0..2, n)) and its weight wmu(n). *)
Definition ray : Type := (R * R * R) * R.
(** A loop "s += f(n)" that starts from 0. *)
Definition sum {A} (l : list A) (f : A -> R) : R := fold_left (fun s a => s + f a) l 0.

(** frame_transform.cpp 54 and rad_source.cpp 84-85. *)
Definition lorzsq (crat : R) (v : R * R * R) : R := let '(vx, vy, vz) := v in 1 / (1 - (vx * vx + vy * vy + vz * vz) * (1 / crat) * (1 / crat)).
Definition lorz (crat : R) (v : R * R * R) : R := sqrt (lorzsq crat v).
(** frame_transform.cpp 58-59: 1 - v.n/c. *)
Definition vnc (crat : R) (v n : R * R * R) : R := let '(vx, vy, vz) := v in let '(mux, muy, muz) := n in 1 - (vx * mux + vy * muy + vz * muz) * (1 / crat).
(** LabToCom, frame_transform.cpp 45-65, one direction and frequency group. *)
Definition LabToCom (crat : R) (v n : R * R * R) (ir_lab : R) : R :=
  let c := vnc crat v n in ir_lab * (c * c * c * c * lorzsq crat v * lorzsq crat v).
(** ComToLab, frame_transform.cpp 73-96. *)
Definition ComToLab (crat : R) (v n : R * R * R) (ir_cm : R) : R :=
  let c := vnc crat v n in ir_cm / (c * c * c * c * lorzsq crat v * lorzsq crat v).
(** ComAngle, frame_transform.cpp 141-157. *)
Definition ComAngle (crat : R) (v n : R * R * R) : R * R * R :=
  let '(vx, vy, vz) := v in let '(mux, muy, muz) := n in
  let lo := lorz crat v in let vdotn := vx * mux + vy * muy + vz * muz in
  let angcoef := lo * (1 / crat) * (1 - lo * vdotn * (1 / crat) / (1 + lo)) in
  let incoef := 1 / (lo * (1 - vdotn * (1 / crat))) in
  ((mux - vx * angcoef) * incoef, (muy - vy * angcoef) * incoef, (muz - vz * angcoef) * incoef).

(** What the source terms read: the light speed crat and its reduced value, the ratio prat of radiation and gas pressure, the adiabatic index, the time step, and
    sigma_a (Rosseland mean), sigma_s, sigma_p (Planck mean of emission), sigma_pe (Planck mean of absorption) of the cell. *)
Record params := { crat : R; reduced_c : R; prat : R; gamma : R; dt : R; sigma_a : R; sigma_s : R; sigma_p : R; sigma_pe : R }.
(** An angle as AbsorptionScattering sees it: wmu_cm, tran_coef, implicit_coef, ir_cm. *)
Record cang := { wmu_cm : R; tcoef : R; imcoef : R; ircm : R }.
(** absorption_scattering.cpp 78-86. *)
Definition dtcs (p : params) (sigma : R) : R := dt p * crat p * sigma.
Definition rdtcs (p : params) (sigma : R) : R := reduced_c p / crat p * dtcs p sigma.
(** absorption_scattering.cpp 95-96. *)
Definition vn (p : params) (a : cang) : R := 1 / (imcoef a + (rdtcs p (sigma_a p) + rdtcs p (sigma_s p)) * tcoef a).
Definition vn2 (p : params) (a : cang) : R := tcoef a * vn p a.
(** AbsorptionScattering, absorption_scattering.cpp 50-148, for one frequency group, the only case it is called for (rad_source.cpp 147).  Result: the new gas
    temperature and the new intensities.  When no root is found (badcell) both keep their values. *)
Definition AbsorptionScattering (p : params) (rho tgas : R) (l : list cang) : R * list R :=
  let suma1 := sum l (fun a => wmu_cm a * vn2 p a) in
  let suma2 := sum l (fun a => ircm a * wmu_cm a * vn p a) in
  let suma3 := suma1 * (rdtcs p (sigma_s p) + rdtcs p (sigma_a p) - rdtcs p (sigma_pe p)) in
  let suma1 := suma1 * rdtcs p (sigma_p p) in
  let coef1 := prat p * (dtcs p (sigma_p p) - dtcs p (sigma_pe p) * suma1 / (1 - suma3)) * (gamma p - 1) / rho in
  let coef0 := - tgas - dtcs p (sigma_pe p) * prat p * suma2 * (gamma p - 1) / (rho * (1 - suma3)) in
  match (if ltR TINY (Rabs coef1) then FouthPolyRoot coef1 coef0 else Some (- coef0)) with
  | None => (tgas, map ircm l)
  | Some tgasnew =>
    let emission := tgasnew * tgasnew * tgasnew * tgasnew in
    let jr_cm := (suma1 * emission + suma2) / (1 - suma3) in
    (tgasnew,
     map (fun a => Rmax (ircm a + ((rdtcs p (sigma_s p) + rdtcs p (sigma_a p) - rdtcs p (sigma_pe p)) * jr_cm + rdtcs p (sigma_p p) * emission
                                   - ((imcoef a - 1) / tcoef a + rdtcs p (sigma_s p) + rdtcs p (sigma_a p)) * ircm a) * vn2 p a) TINY) l)
  end.

(** rad_source.cpp 99-102. *)
Definition tran (c : R) (v : R * R * R) (r : ray) : R := lorz c v * vnc c v (fst r).
Definition cm_to_lab (c : R) (v : R * R * R) (r : ray) : R := let t := tran c v r in t * t * t * t.
(** CalSourceTerms, rad_source.cpp 55-258, for one frequency group and without Compton scattering.  add n stands for the sum of divflx_ and ang_flx_ and coef n for
    const_coef_ + imp_ang_coef_, 0 in the explicit scheme; ini is ir_ini, now the value ir holds on entry, omega the relaxation factor, 1 in the explicit scheme.
    v is vel_source_, tgas is tgas_.  Result: tgas_new_ and the new ir. *)
Record angle := { dirw : ray; ini : R; add : R; coef : R; now : R }.
Definition to_com (c : R) (v : R * R * R) (l : list angle) : list cang :=
  let numsum := 1 / sum l (fun a => snd (dirw a) / (tran c v (dirw a) * tran c v (dirw a))) in
  map (fun a => {| wmu_cm := snd (dirw a) / (tran c v (dirw a) * tran c v (dirw a)) * numsum; tcoef := tran c v (dirw a); imcoef := 1 + coef a;
                   ircm := Rmax ((ini a + add a) * cm_to_lab c v (dirw a)) TINY |}) l.
Definition CalSourceTerms (p : params) (omega : R) (v : R * R * R) (rho tgas : R) (l : list angle) : R * list R :=
  let '(tnew, irs) := AbsorptionScattering p rho tgas (to_com (crat p) v l) in
  let omega_1 := 1 - omega in
  if ltR (Rabs omega_1) TINY then (tnew, map (fun '(a, i) => Rmax (i / cm_to_lab (crat p) v (dirw a)) TINY) (combine l irs))
  else (omega_1 * tgas + omega * tnew, map (fun '(a, i) => Rmax (omega_1 * now a + omega * (i / cm_to_lab (crat p) v (dirw a))) TINY) (combine l irs)).

(** CalculateMoment, get_moments.cpp 37-116, at one cell: rays are the directions with their weights, groups the intensities of every frequency group.
    Result: rad_mom of IER, IFR1..3, IPR11, 22, 33, 12, 13, 23, 21, 31, 32 (the sums over the groups). *)
Definition moment (rays : list ray) (groups : list (list R)) (f : R * R * R -> R) : R :=
  sum groups (fun irs => sum (combine rays irs) (fun '((d, w), i) => w * i * f d)).
Record moments := { Er : R; Fr1 : R; Fr2 : R; Fr3 : R; P11 : R; P22 : R; P33 : R; P12 : R; P13 : R; P23 : R; P21 : R; P31 : R; P32 : R }.
Definition CalculateMoment (rays : list ray) (groups : list (list R)) : moments :=
  let m := moment rays groups in
  {| Er := m (fun _ => 1); Fr1 := m (fun '(x, y, z) => x); Fr2 := m (fun '(x, y, z) => y); Fr3 := m (fun '(x, y, z) => z);
     P11 := m (fun '(x, y, z) => x * x); P22 := m (fun '(x, y, z) => y * y); P33 := m (fun '(x, y, z) => z * z);
     P12 := m (fun '(x, y, z) => x * y); P13 := m (fun '(x, y, z) => x * z); P23 := m (fun '(x, y, z) => y * z);
     P21 := m (fun '(x, y, z) => x * y); P31 := m (fun '(x, y, z) => x * z); P32 := m (fun '(x, y, z) => y * z) |}.

(** GetHydroSourceTerms, rad_source.cpp 422-517, explicit scheme, at one cell: rad_source 0..3.  Per frequency group the sums are formed before and after. *)
Definition delta (rays : list ray) (before after : list (list R)) (f : R * R * R -> R) : R :=
  sum (combine before after) (fun '(i0, i1) =>
    sum (combine rays i1) (fun '((d, w), i) => i * w * f d) - sum (combine rays i0) (fun '((d, w), i) => i * w * f d)).
Definition GetHydroSourceTerms (p : params) (rays : list ray) (before after : list (list R)) : R * R * R * R :=
  let invcrat := 1 / crat p in let invredc := 1 / reduced_c p in let invredfactor := invredc / invcrat in
  (- prat p * delta rays before after (fun _ => 1) * invredfactor, - prat p * delta rays before after (fun '(x, y, z) => x) * invredc,
   - prat p * delta rays before after (fun '(x, y, z) => y) * invredc, - prat p * delta rays before after (fun '(x, y, z) => z) * invredc).
(** Conserved gas variables of the cell. *)
Record gas := { DN : R; M1 : R; M2 : R; M3 : R; EN : R }.
(** AddSourceTerms, rad_source.cpp 520-580, at one cell.  flag2: set_source_flag == 2.  pb: magnetic energy of the cell-centered field, 0 without magnetic fields. *)
Definition AddSourceTerms (p : params) (vmax t_ceiling : R) (flag2 : bool) (pb tgas_new : R) (src : R * R * R * R) (u : gas) : gas :=
  let '(s0, s1, s2, s3) := src in
  let gm1 := gamma p - 1 in
  let m1 := M1 u + s1 in let m2 := M2 u + s2 in let m3 := M3 u + s3 in
  let vx := m1 / DN u in let vy := m2 / DN u in let vz := m3 / DN u in
  let ratio := sqrt (vx * vx + vy * vy + vz * vz) * (1 / crat p) in
  let '(m1, m2, m3) := if ltR vmax ratio then (let factor := vmax / ratio in (m1 * factor, m2 * factor, m3 * factor)) else (m1, m2, m3) in
  let ekin := 1 / 2 * (m1 * m1 + m2 * m2 + m3 * m3) / DN u in
  let en :=
    if flag2 then tgas_new * DN u / gm1 + pb + ekin
    else
      let eint := EN u + s0 - ekin - pb in let tgas := eint * gm1 / DN u in
      if ltR eint 0 then tgas_new * DN u / gm1 + pb + ekin
      else if ltR t_ceiling tgas then ekin + pb + t_ceiling * DN u / gm1
      else EN u + s0 in
  {| DN := DN u; M1 := m1; M2 := m2; M3 := m3; EN := en |}.
