(** What is meant: explicit steps, amounts of an element, reactions as chemists write them. *)
From Coq Require Import Reals List ZArith.
From Verif Require Import Chem_Model.
Import ListNotations.
Open Scope R_scope.

Definition sum (l : list R) : R := fold_right Rplus 0 l.
(** sum of w_i y_i over the species. *)
Definition weigh (w y : list R) : R := sum (map (fun p => fst p * snd p) (combine w y)).

(** One explicit step of length [d] of the equations dy/dt = RHS, dE/dt = Edot (the latter only with an energy equation). *)
Definition advanced (N : network) (nb : bool) (d : R) (y : abundances) (E : R) (y' : abundances) (E' : R) : Prop :=
  length y' = length y /\ (forall i, nth i y' 0 = nth i y 0 + d * nth i (RHS N y E) 0) /\ E' = E + d * (if nb then Edot N y E else 0).
(** A step over which no abundance changes by more than the fraction [cfl] of the larger of itself and of the reference abundance [yfloor], nor the energy by more than this fraction of itself -- up to the smallness [small] added to the rates. *)
Definition gentle (P : pars) (N : network) (d : R) (y : abundances) (E : R) : Prop :=
  (forall i, (i < length y)%nat -> Rabs (d * nth i (RHS N y E) 0 + d * small_ P) <= cfl_cool_sub P * Rmax (nth i y 0) (yfloor_ P)) /\
  (nonbarotropic P = true -> Rabs (d * Edot N y E + d * small_ P) <= cfl_cool_sub P * Rabs E).
(** A succession of gentle explicit steps of lengths [ds]. *)
Inductive steps (P : pars) (N : network) : list R -> abundances -> R -> abundances -> R -> Prop :=
| none : forall y E, steps P N [] y E y E
| more : forall d ds y E y1 E1 y' E', 0 <= d -> advanced N (nonbarotropic P) d y E y1 E1 -> gentle P N d y E -> steps P N ds y1 E1 y' E' -> steps P N (d :: ds) y E y' E'.
(** The network gives one rate per species. *)
Definition proper (N : network) : Prop := forall y E, length (RHS N y E) = length y.
(** Concentrations and thermal energy of a cell. *)
Definition conc (u : ccell) : list R := map (fun s => s / cd u) (cs u).
Definition thermal (P : pars) (u : ccell) : R :=
  ce u - (cm1 u ^ 2 + cm2 u ^ 2 + cm3 u ^ 2) / (2 * cd u) - (if magnetic P then (cb1 u ^ 2 + cb2 u ^ 2 + cb3 u ^ 2) / 2 else 0).

(** ** Elements *)
Inductive element := Hydrogen | Helium | Carbon | Oxygen | Silicon.
Definition atoms (el : element) (s : gsp) : Z :=
  match el, s with
  | Hydrogen, (OHx | CHx | HCOP | HP | gH) => 1
  | Hydrogen, (H2 | H2P) => 2
  | Hydrogen, H3P => 3
  | Helium, (HeP | gHe) => 1
  | Carbon, (CHx | CO | CP | HCOP | gC) => 1
  | Oxygen, (OHx | CO | HCOP | OP | gO) => 1
  | Silicon, (SiP | gSi) => 1
  | _, _ => 0
  end%Z.
Definition charge (s : gsp) : Z := match s with HeP | CP | HCOP | HP | H3P | H2P | OP | SiP => 1 | ge => -1 | _ => 0 end%Z.
Definition all_species : list gsp := gow_species ++ gow_ghosts.
(** The atom that is not tracked, for each element. *)
Definition free (el : element) : gsp := match el with Hydrogen => gH | Helium => gHe | Carbon => gC | Oxygen => gO | Silicon => gSi end.
Definition over (l : list gsp) (w : gsp -> Z) (y : gsp -> R) : R := sum (map (fun s => IZR (w s) * y s) l).

(** A reaction: the species on which its speed depends, its reactants and its products (cosmic rays, photons and grains not written). *)
Record rx := mkRx { law : list gsp; reactants : list gsp; products : list gsp }.
Definition formula (i o : list gsp) : rx := mkRx i i o.
Definition cosmic : list rx := [
  formula [H2] [H2P; ge]; formula [gHe] [HeP; ge]; formula [gH] [HP; ge]; formula [gC] [CP; ge]; formula [CO] [gO; gC]; formula [CO] [HCOP; ge]; formula [gSi] [SiP; ge]].
Definition twobody : list rx := [
  formula [H3P; gC] [CHx; H2]; formula [H3P; gO] [OHx; H2]; formula [H3P; CO] [HCOP; H2]; formula [HeP; H2] [HP; gHe; gH]; formula [HeP; CO] [CP; gO; gHe];
  formula [CP; H2] [CHx; gH]; formula [CP; OHx] [HCOP]; formula [CHx; gO] [CO; gH]; formula [OHx; gC] [CO; gH]; formula [HeP; ge] [gHe];
  formula [H3P; ge] [H2; gH]; formula [CP; ge] [gC]; formula [HCOP; ge] [CO; gH]; formula [H2P; H2] [H3P; gH]; formula [HP; ge] [gH];
  formula [H2; gH] [gH; gH; gH]; formula [H2; H2] [H2; gH; gH]; formula [gH; ge] [HP; ge; ge]; formula [H3P; ge] [gH; gH; gH]; formula [HeP; H2] [H2P; gHe];
  formula [CHx; gH] [H2; gC]; formula [OHx; gO] [gO; gO; gH]; mkRx [CP; H2] [CP; H2; ge] [gC; gH; gH]; formula [SiP; ge] [gSi]; mkRx [H3P; gO] [H3P; gO; ge] [H2; gO; gH];
  formula [HeP; OHx] [OP; gHe; gH]; formula [H2P; gH] [HP; H2]; formula [HP; gO] [OP; gH]; formula [OP; gH] [HP; gO]; formula [OP; H2] [OHx; gH];
  formula [OP; H2] [gO; gH; gH]].
Definition photo : list rx := [
  formula [gC] [CP; ge]; formula [CHx] [gC; gH]; formula [CO] [gC; gO]; formula [OHx] [gO; gH]; formula [H2] [gH; gH]; formula [gSi] [SiP; ge]].
Definition grain : list rx := [
  mkRx [gH] [gH; gH] [H2]; mkRx [HP] [HP; ge] [gH]; mkRx [CP] [CP; ge] [gC]; mkRx [HeP] [HeP; ge] [gHe]; mkRx [SiP] [SiP; ge] [gSi]].
Definition formulas : list rx := cosmic ++ twobody ++ photo ++ grain.
(** How many molecules of [s] it makes (less those it consumes), and how fast it proceeds. *)
Definition count (s : gsp) (l : list gsp) : Z := Z.of_nat (count_occ gsp_eq l s).
Definition net (r : rx) (s : gsp) : Z := (count s (products r) - count s (reactants r))%Z.
Definition speed (k : R) (r : rx) (y : gsp -> R) : R := k * fold_right Rmult 1 (map y (law r)).
Definition rates (K : grates) : list R := kcr K ++ k2body K ++ kph K ++ kgr K.
Definition atoms_in (el : element) (l : list gsp) : Z := fold_right Z.add 0%Z (map (atoms el) l).
Definition balanced (r : rx) : Prop := forall el, atoms_in el (reactants r) = atoms_in el (products r).
(** As many rates as reactions, none of them negative. *)
Definition fits (K : grates) : Prop :=
  length (kcr K) = 7%nat /\ length (k2body K) = 31%nat /\ length (kph K) = 6%nat /\ length (kgr K) = 5%nat /\ Forall (fun k => 0 <= k) (rates K).

(** ** The network of G14Sod *)
Definition hydrogens (s : ssp) : Z := match s with sH | sHP | sHM => 1 | sH2 | sH2P => 2 | _ => 0 end%Z.
Definition heliums (s : ssp) : Z := match s with sHe | sHeP | sHe2P => 1 | _ => 0 end%Z.
Definition scharge (s : ssp) : Z := match s with sHP | sHeP | sH2P => 1 | sHe2P => 2 | sHM | se => -1 | _ => 0 end%Z.
Definition sover (l : list ssp) (w : ssp -> Z) (y : ssp -> R) : R := sum (map (fun s => IZR (w s) * y s) l).
Definition sformulas : list (list ssp * list ssp) := [
  ([sH; se], [sHP; se; se]); ([sHP; se], [sH]); ([sHe; se], [sHeP; se; se]); ([sHeP; se], [sHe]); ([sHeP; se], [sHe2P; se; se]);
  ([sHe2P; se], [sHeP]); ([sH; se], [sHM]); ([sHM; sH], [sH2; se]); ([sH; sHP], [sH2P]); ([sH; sH2P], [sH2; sHP]);
  ([sHP; sH2], [sH2P; sH]); ([sH2; se], [sH; sH; se]); ([sHM; se], [sH; se; se]); ([sHM; sH], [sH; sH; se]); ([sHM; sHP], [sH; sH]);
  ([sHM; sHP], [sH2P; se]); ([sH2P; se], [sH; sH]); ([sH2P; sHM], [sH; sH2]); ([sH; sH; sH], [sH2; sH]); ([sH2; sH], [sH; sH; sH])].
Definition snet (r : list ssp * list ssp) (s : ssp) : Z := (Z.of_nat (count_occ ssp_eq (snd r) s) - Z.of_nat (count_occ ssp_eq (fst r) s))%Z.
(** The published fit to the rate of H- + e -> H + 2 e, as a function of lnTe: exponent sum of c_n x^n. *)
Definition detachment (x : R) : R :=
  exp (- (1.801849334273e1) + 2.360852208681 * x - 2.827443061704e-1 * x ^ 2 + 1.623316639567e-2 * x ^ 3 - 3.365012031362999e-2 * x ^ 4 + 1.178329782711e-2 * x ^ 5 - 1.656194699504e-3 * x ^ 6 + 1.068275202678e-4 * x ^ 7 - 2.631285809207e-6 * x ^ 8).
