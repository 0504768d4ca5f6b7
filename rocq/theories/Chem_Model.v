(** Chemistry: the reaction networks and the explicit integrator that advances abundances and energy.
    Models /repo/src/chemistry/forward_euler.cpp, network/H2.cpp, network/gow17.cpp, network/G14Sod.cpp. *)
From Coq Require Import Reals List Lra.
Import ListNotations.
Open Scope R_scope.

(** ** The explicit integrator: [forward_euler.cpp] *)

(** An abundance vector of NSPECIES entries. *)
Definition abundances := list R.
(** [forward_euler.cpp] 204-207: std::max(y[ispec], yfloor). *)
Definition yf (yfloor y : R) : R := Rmax y yfloor.
(** 209, 211, 214: std::abs(a/(b + small_)).  A division by zero gives an infinite (or, for 0/0, unordered) time, which std::min never prefers to a finite one as its second argument; it is written [None].
    Simplification: the value is real arithmetic, and a first species (line 209) whose denominator vanishes is treated like the others. *)
Definition timescale (small a b : R) : option R := if Req_EM_T (b + small) 0 then None else Some (Rabs (a / (b + small))).
(** std::min with an infinite time written [None]. *)
Definition min_time (a b : option R) : option R := match a, b with None, t => t | t, None => t | Some x, Some y => Some (Rmin x y) end.
(** 200-217 GetChemTime ([nb] is NON_BAROTROPIC_EOS). *)
Definition GetChemTime (nb : bool) (small yfloor : R) (y ydot : abundances) (E Edot : R) : option R :=
  let t := fold_left (fun t p => min_time t (timescale small (yf yfloor (fst p)) (snd p))) (combine y ydot) None in
  if nb then min_time t (timescale small E Edot) else t.
(** 113-114: tsub = cfl_cool_sub*GetChemTime, then std::min(tsub, tleft). *)
Definition substep (cfl : R) (tchem : option R) (tleft : R) : R := match tchem with None => tleft | Some t => Rmin (cfl * t) tleft end.
(** 225-233 IntegrateOneSubstep. *)
Definition IntegrateOneSubstep (nb : bool) (tsub : R) (y ydot : abundances) (E Edot : R) : abundances * R :=
  (map (fun p => fst p + snd p * tsub) (combine y ydot), if nb then E + Edot * tsub else E).

(** The network, as the integrator sees it: the rates of change of the abundances and of the energy ([RHS] and [Edot] of class ChemNetwork, both given the time at the start of the step), and the parameters of the integrator. *)
Record network := mkNet { RHS : abundances -> R -> abundances; Edot : abundances -> R -> R }.
Record pars := mkPar { cfl_cool_sub : R; yfloor_ : R; small_ : R; nsub_max : nat; scalar_floor : R; nonbarotropic : bool; magnetic : bool }.

(** 101-129: while (tnow < tend).  [fuel] counts the iterations still allowed: an iteration beyond the nsub_max-th makes icount exceed nsub_max and stops the run ([None]). *)
Fixpoint subcycle (P : pars) (N : network) (tend : R) (fuel : nat) (tnow tleft : R) (y : abundances) (E : R) : option (abundances * R) :=
  if Rlt_dec tnow tend then
    match fuel with
    | O => None
    | S fuel =>
        let ydot := RHS N y E in
        let ed := if nonbarotropic P then Edot N y E else 0 in
        let tsub := substep (cfl_cool_sub P) (GetChemTime (nonbarotropic P) (small_ P) (yfloor_ P) y ydot E ed) tleft in
        let '(y', E') := IntegrateOneSubstep (nonbarotropic P) tsub y ydot E ed in
        let tnow' := tnow + tsub in
        subcycle P N tend fuel tnow' (tend - tnow') y' E'
    end
  else Some (y, E).

(** A cell: conserved variables (density, momenta, energy), conserved scalars, cell-centered field. *)
Record ccell := mkCC { cd : R; cm1 : R; cm2 : R; cm3 : R; ce : R; cs : list R; cb1 : R; cb2 : R; cb3 : R }.
(** 92-98 and 137-144: the kinetic energy and the magnetic energy. *)
Definition kin (u : ccell) : R := 0.5 * (cm1 u * cm1 u + cm2 u * cm2 u + cm3 u * cm3 u) / cd u.
Definition mag (u : ccell) : R := 0.5 * (cb1 u * cb1 u + cb2 u * cb2 u + cb3 u * cb3 u).
(** 85-146: the body of the loop over cells of ODEWrapper::Integrate.  [N] is the network after InitializeNextStep of this cell. *)
Definition Integrate_cell (P : pars) (N : network) (time dt : R) (u : ccell) : option ccell :=
  let y := map (fun s => s / cd u) (cs u) in
  let E := if nonbarotropic P then ce u - kin u - (if magnetic P then mag u else 0) else 0 in
  match subcycle P N (time + dt) (nsub_max P) time dt y E with
  | None => None
  | Some (y', E') =>
      Some (mkCC (cd u) (cm1 u) (cm2 u) (cm3 u)
        (if nonbarotropic P then E' + kin u + (if magnetic P then mag u else 0) else ce u)
        (map (fun x => (if Rlt_dec x (scalar_floor P) then scalar_floor P else x) * cd u) y') (cb1 u) (cb2 u) (cb3 u))
  end.

(** ** The network of molecular hydrogen: [H2.cpp] 98-108.  Species 0 is H and 1 is H2 (line 37); other lengths do not occur. *)
Definition H2_RHS (kcr kgr nH tcgs : R) (y : abundances) : abundances :=
  match y with
  | [yH; yH2] =>
      let rate_cr := kcr * yH2 in
      let rate_gr := kgr * nH * yH in
      [(- (2) * rate_gr + 2 * rate_cr) * tcgs; (rate_gr - rate_cr) * tcgs]
  | _ => []
  end.

(** ** The network of [gow17.cpp] *)
(** The species and ghost species, 46-92.  Simplification: a species is written by name where the code uses the position of its name in the table of names. *)
Inductive gsp := HeP | OHx | CHx | CO | CP | HCOP | H2 | HP | H3P | H2P | OP | SiP | gSi | gC | gO | gHe | ge | gH.
Definition gsp_eq (a b : gsp) : {a = b} + {a <> b}. Proof. decide equality. Defined.
(** 46-47 species_names, in order; 51-52 ghost_species_names_. *)
Definition gow_species : list gsp := [HeP; OHx; CHx; CO; CP; HCOP; H2; HP; H3P; H2P; OP; SiP].
Definition gow_ghosts : list gsp := [gSi; gC; gO; gHe; ge; gH].
(** 106-113. *)
Definition incr : list gsp := [H2; gHe; gH; gC; CO; CO; gSi].
Definition outcr : list gsp := [H2P; HeP; HP; CP; gO; HCOP; SiP].
(** 172-205. *)
Definition in2body1 : list gsp := [H3P; H3P; H3P; HeP; HeP; CP; CP; CHx; OHx; HeP; H3P; CP; HCOP; H2P; HP; H2; H2; gH; H3P; HeP; CHx; OHx; CP; SiP; H3P; HeP; H2P; HP; OP; OP; OP].
Definition in2body2 : list gsp := [gC; gO; CO; H2; CO; H2; OHx; gO; gC; ge; ge; ge; ge; H2; ge; gH; H2; ge; ge; H2; gH; gO; H2; ge; gO; OHx; gH; gO; gH; H2; H2].
Definition out2body1 : list gsp := [CHx; OHx; HCOP; HP; CP; CHx; HCOP; CO; CO; gHe; H2; gC; CO; H3P; gH; gH; H2; HP; gH; H2P; H2; gO; gC; gSi; H2; OP; HP; OP; HP; OHx; gO].
Definition out2body2 : list gsp := [H2; H2; H2; gHe; gO; gH; gH; gH; gH; gH; gH; gH; gH; gH; gH; gH; gH; ge; gH; gHe; gC; gH; gH; gH; gO; gHe; H2; gH; gO; gH; gH].
(** 246-251. *)
Definition inph : list gsp := [gC; CHx; CO; OHx; H2; gSi].
Definition outph1 : list gsp := [CP; gC; gC; gO; gH; SiP].
(** 265-268. *)
Definition ingr : list gsp := [gH; HP; CP; HeP; SiP].
Definition outgr : list gsp := [H2; gH; gC; gHe; gSi].

(** 745-764 GetGhostSpecies. *)
Definition GetGhostSpecies (xC xO xHe xSi : R) (y : gsp -> R) (s : gsp) : R :=
  match s with
  | gC => xC - y HCOP - y CHx - y CO - y CP
  | gO => xO - y HCOP - y OHx - y CO - y OP
  | gHe => xHe - y HeP
  | gSi => xSi - y SiP
  | ge => y HeP + y CP + y HCOP + y H3P + y H2P + y HP + y OP + y SiP
  | gH => 1 - (y OHx + y CHx + y HCOP + 3 * y H3P + 2 * y H2P + y HP + 2 * y H2)
  | _ => y s
  end.

(** ydotg[i] += x. *)
Definition add {A} (eq : forall a b : A, {a = b} + {a <> b}) (i : A) (x : R) (f : A -> R) : A -> R := fun s => if eq s i then f s + x else f s.
(** 490-494, 509-513, 516-520: a reaction with one reactant and one product in the tables. *)
Definition react1 (yprev : gsp -> R) (ydotg : gsp -> R) (r : R * (gsp * gsp)) : gsp -> R :=
  let '(k, (i, o)) := r in let rate := k * yprev i in add gsp_eq o rate (add gsp_eq i (- rate) ydotg).
(** 497-506: a reaction with two reactants. *)
Definition rate2 (k a b : R) : R := let rate := k * a * b in if Rlt_dec a 0 then (if Rlt_dec b 0 then - (1) * rate else rate) else rate.
Definition react2 (yprev : gsp -> R) (ydotg : gsp -> R) (r : R * ((gsp * gsp) * (gsp * gsp))) : gsp -> R :=
  let '(k, ((i1, i2), (o1, o2))) := r in let rate := rate2 k (yprev i1) (yprev i2) in
  add gsp_eq o2 rate (add gsp_eq o1 rate (add gsp_eq i2 (- rate) (add gsp_eq i1 (- rate) ydotg))).
(** The rate coefficients as they stand after UpdateRates (line 477): kcr_, k2body_, kph_, kgr_.  Their dependence on temperature, density and radiation is not modelled: the theorems hold for any nonnegative values. *)
Record grates := mkGR { kcr : list R; k2body : list R; kph : list R; kgr : list R }.
(** 443-525 RHS: ghost species, then the four loops over reactions, then the units ([tcgs] is code_time_cgs). *)
Definition gow_RHS (xC xO xHe xSi tcgs : R) (K : grates) (y : gsp -> R) : gsp -> R :=
  let yprev := GetGhostSpecies xC xO xHe xSi y in
  let d := fold_left (react1 yprev) (combine (kcr K) (combine incr outcr)) (fun _ => 0) in
  let d := fold_left (react2 yprev) (combine (k2body K) (combine (combine in2body1 in2body2) (combine out2body1 out2body2))) d in
  let d := fold_left (react1 yprev) (combine (kph K) (combine inph outph1)) d in
  let d := fold_left (react1 yprev) (combine (kgr K) (combine ingr outgr)) d in
  fun s => d s * tcgs.

(** ** The network of [G14Sod.cpp] *)
(** 45-74: species H, H+, He, He+, He2+, H-, H2, H2+ and the ghost species e. *)
Inductive ssp := sH | sHP | sHe | sHeP | sHe2P | sHM | sH2 | sH2P | se.
Definition ssp_eq (a b : ssp) : {a = b} + {a <> b}. Proof. decide equality. Defined.
Definition sod_species : list ssp := [sH; sHP; sHe; sHeP; sHe2P; sHM; sH2; sH2P].
(** 97-101. *)
Definition sod_out1 : list ssp := [sHP; sH; sHeP; sHe; sHe2P; sHeP; sHM; sH2; sH2P; sH2; sH2P; sH2; sH2P; sH; sH; sH2P; sH; sH; sH2; sH].
(** 103-107. *)
Definition sod_in1 : list ssp := [sH; sHP; sHe; sHeP; sHeP; sHe2P; sH; sHM; sH; sH; sHP; sH2; sHM; sHM; sHM; sHM; sH2P; sH2P; sH2; sH2].
(** 111-115. *)
Definition sod_in2 : list ssp := [se; se; se; se; se; se; se; sH; sHP; sH2P; sH2; se; se; sH; sHP; sHP; se; sHM; sH; sH].
(** 117-121. *)
Definition sod_out2 : list ssp := [se; se; se; se; se; se; se; se; se; sHP; sH; se; se; se; se; se; se; sH2; sH; sH].
(** 124-146.  The second table has nineteen initializers for twenty entries: the last entry is zero. *)
Definition sod_s_in1 : list R := [1; 1; 1; 1; 1; 1; 1; 1; 1; 1; 1; 1; 1; 1; 1; 1; 1; 1; 2; 1].
Definition sod_s_in2 : list R := [1; 1; 1; 1; 1; 1; 1; 1; 1; 1; 1; 1; 1; 1; 1; 1; 1; 1; 1; 0].
Definition sod_s_out1 : list R := [1; 1; 1; 1; 1; 1; 1; 1; 1; 1; 1; 2; 1; 2; 2; 1; 2; 1; 1; 2].
Definition sod_s_out2 : list R := [2; 0; 2; 0; 2; 0; 0; 1; 0; 1; 1; 1; 2; 1; 0; 1; 0; 1; 1; 1].
(** 266-274 GetGhostSpecies. *)
Definition sod_ghost (y : ssp -> R) (s : ssp) : R := match s with se => y sHP + y sHeP + 2 * y sHe2P + y sH2P - y sHM | _ => y s end.
(** 195-199: yprev0. *)
Definition clip (x : R) : R := if Rlt_dec x 0 then 0 else x.
(** One row of the tables. *)
Record row := mkRow { i1 : ssp; i2 : ssp; o1 : ssp; o2 : ssp; a1 : R; a2 : R; b1 : R; b2 : R }.
Definition sod_row (i : nat) : row :=
  mkRow (nth i sod_in1 se) (nth i sod_in2 se) (nth i sod_out1 se) (nth i sod_out2 se) (nth i sod_s_in1 0) (nth i sod_s_in2 0) (nth i sod_s_out1 0) (nth i sod_s_out2 0).
(** 219-248: the body of the loop.  The sign change of lines 221-223 is never taken, as the clipped abundances are not negative; it is kept. *)
Definition sod_react (y0 : ssp -> R) (ydotg : ssp -> R) (kr : R * row) : ssp -> R :=
  let '(k, r) := kr in let rate := rate2 k (y0 (i1 r)) (y0 (i2 r)) in
  add ssp_eq (o2 r) (b2 r * rate) (add ssp_eq (o1 r) (b1 r * rate) (add ssp_eq (i2 r) (- (a2 r * rate)) (add ssp_eq (i1 r) (- (a1 r * rate)) ydotg))).
(** 171-254 RHS.  The rate coefficients k2body_ are any numbers. *)
Definition sod_RHS (tcgs nH : R) (k : nat -> R) (y : ssp -> R) : ssp -> R :=
  let y0 := fun s => clip (sod_ghost y s) in
  let d := fold_left (sod_react y0) (map (fun i => (k i, sod_row i)) (seq 0 20)) (fun _ => 0) in
  fun s => d s * tcgs * nH.
(** 361-365 of UpdateRates: the rate of reaction (13), as a function of lnTe.  The third coefficient is written [1.623316639567-2], without the "e": a difference. *)
Definition sod_k12 (x : R) : R :=
  exp (- (1.801849334273e1) + (2.360852208681 + (- (2.827443061704e-1) + ((1.623316639567 - 2) + (- (3.365012031362999e-2) + (1.178329782711e-2 + (- (1.656194699504e-3) + (1.068275202678e-4 + (- (2.631285809207e-6)) * x) * x) * x) * x) * x) * x) * x) * x).
(** 201 of forward_euler.cpp: small_ is 1024 times the smallest normal number of single precision. *)
Definition float_small : R := / 2 ^ 116.
