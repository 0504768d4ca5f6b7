(** Equations of state, src/eos, and Field::CalculateCellCenteredField, src/field, exact arithmetic.  One cell at a time: the loops of the conversion functions
    run over a box of cells and touch, in each iteration, only the cell they are at.  Newtonian adiabatic and isothermal gas, with and without magnetic fields,
    and passive scalars; not the relativistic and the general (tabulated) equations of state. *)
From Coq Require Import Reals ZArith Bool.
From Verif Require Import Time_Model Arr_Model.
Local Open Scope R_scope.

(** prim(IDN), prim(IVX..IVZ), prim(IPR); cons(IDN), cons(IM1..IM3), cons(IEN) (athena.hpp 170-190).  Isothermal runs do not have the last one. *)
Record prim := mkW { w_d : R; w_vx : R; w_vy : R; w_vz : R; w_p : R }.
Record cons := mkU { u_d : R; u_m1 : R; u_m2 : R; u_m3 : R; u_e : R }.
Record iprim := mkIW { iw_d : R; iw_vx : R; iw_vy : R; iw_vz : R }.
Record icons := mkIU { iu_d : R; iu_m1 : R; iu_m2 : R; iu_m3 : R }.
Record mag := mkB { b1 : R; b2 : R; b3 : R }.
Definition SQR (x : R) : R := x * x.
(** The conditional (x > floor) ? x : floor. *)
Definition floor_at (fl x : R) : R := if ltR fl x then x else fl.

(** ConservedToPrimitive, adiabatic_hydro.cpp 39-80: the new conserved and primitive variables of a cell. *)
Definition c2p (gamma dfloor pfloor : R) (u : cons) : cons * prim :=
  let gm1 := gamma - 1 in
  let d := floor_at dfloor (u_d u) in
  let di := 1 / d in
  let e_k := (1/2) * di * (SQR (u_m1 u) + SQR (u_m2 u) + SQR (u_m3 u)) in
  let p := gm1 * (u_e u - e_k) in
  (mkU d (u_m1 u) (u_m2 u) (u_m3 u) (if ltR pfloor p then u_e u else pfloor / gm1 + e_k),
   mkW d (u_m1 u * di) (u_m2 u * di) (u_m3 u * di) (if ltR pfloor p then p else pfloor)).
(** PrimitiveToConserved, adiabatic_hydro.cpp 89-118. *)
Definition p2c (gamma : R) (w : prim) : cons :=
  let igm1 := 1 / (gamma - 1) in
  mkU (w_d w) (w_vx w * w_d w) (w_vy w * w_d w) (w_vz w * w_d w)
      (w_p w * igm1 + (1/2) * w_d w * (SQR (w_vx w) + SQR (w_vy w) + SQR (w_vz w))).
(** ApplyPrimitiveFloors, adiabatic_hydro.cpp 130-141 (the same in adiabatic_mhd.cpp 154-165). *)
Definition ApplyPrimitiveFloors (dfloor pfloor : R) (w : prim) : prim :=
  mkW (floor_at dfloor (w_d w)) (w_vx w) (w_vy w) (w_vz w) (floor_at pfloor (w_p w)).
(** ApplyPrimitiveConservedFloors, adiabatic_hydro.cpp 147-172; with a magnetic field adiabatic_mhd.cpp 171-203. *)
Definition ApplyPrimitiveConservedFloors (gamma dfloor pfloor pb : R) (u : cons) (w : prim) : cons * prim :=
  let d := floor_at dfloor (w_d w) in
  let e_k := (1/2) * d * (SQR (w_vx w) + SQR (w_vy w) + SQR (w_vz w)) in
  (mkU d (u_m1 u) (u_m2 u) (u_m3 u) (if ltR pfloor (w_p w) then u_e u else pfloor / (gamma - 1) + pb + e_k),
   mkW d (w_vx w) (w_vy w) (w_vz w) (if ltR pfloor (w_p w) then w_p w else pfloor)).

(** ConservedToPrimitive, adiabatic_mhd.cpp 41-88, after the cell-centred field has been set. *)
Definition magnetic_pressure (b : mag) : R := (1/2) * (SQR (b1 b) + SQR (b2 b) + SQR (b3 b)).
Definition c2p_mhd (gamma dfloor pfloor : R) (b : mag) (u : cons) : cons * prim :=
  let gm1 := gamma - 1 in
  let d := floor_at dfloor (u_d u) in
  let di := 1 / d in
  let pb := magnetic_pressure b in
  let e_k := (1/2) * di * (SQR (u_m1 u) + SQR (u_m2 u) + SQR (u_m3 u)) in
  let p := gm1 * (u_e u - e_k - pb) in
  (mkU d (u_m1 u) (u_m2 u) (u_m3 u) (if ltR pfloor p then u_e u else pfloor / gm1 + e_k + pb),
   mkW d (u_m1 u * di) (u_m2 u * di) (u_m3 u * di) (if ltR pfloor p then p else pfloor)).
(** PrimitiveToConserved, adiabatic_mhd.cpp 97-135. *)
Definition p2c_mhd (gamma : R) (b : mag) (w : prim) : cons :=
  let igm1 := 1 / (gamma - 1) in
  mkU (w_d w) (w_vx w * w_d w) (w_vy w * w_d w) (w_vz w * w_d w)
      (w_p w * igm1 + (1/2) * (w_d w * (SQR (w_vx w) + SQR (w_vy w) + SQR (w_vz w)) + (SQR (b1 b) + SQR (b2 b) + SQR (b3 b)))).

(** ConservedToPrimitive and PrimitiveToConserved, isothermal_hydro.cpp 36-102 (the same in isothermal_mhd.cpp 41-109). *)
Definition c2p_iso (dfloor : R) (u : icons) : icons * iprim :=
  let d := floor_at dfloor (iu_d u) in
  let di := 1 / d in
  (mkIU d (iu_m1 u) (iu_m2 u) (iu_m3 u), mkIW d (iu_m1 u * di) (iu_m2 u * di) (iu_m3 u * di)).
Definition p2c_iso (w : iprim) : icons := mkIU (iw_d w) (iw_vx w * iw_d w) (iw_vy w * iw_d w) (iw_vz w * iw_d w).

(** PassiveScalarConservedToPrimitive and PassiveScalarPrimitiveToConserved, eos_scalars.cpp 31-61, 131-152: one scalar in a cell of density d. *)
Definition scalar_c2p (sfloor d s : R) : R * R :=
  let s := if ltR s (sfloor * d) then sfloor * d else s in (s, s / d).
Definition scalar_p2c (d r : R) : R := r * d.

(** SoundSpeed, adiabatic_hydro.cpp 121-126, isothermal_hydro.cpp 108-110. *)
Definition SoundSpeed (gamma d p : R) : R := sqrt (gamma * p / d).
(** FastMagnetosonicSpeed, adiabatic_mhd.cpp 142-150 (asq = gamma p) and isothermal_mhd.cpp 120-128 (asq = c^2 d). *)
Definition FastMagnetosonicSpeed (asq d bx by_ bz : R) : R :=
  let vaxsq := bx * bx in
  let ct2 := by_ * by_ + bz * bz in
  let qsq := vaxsq + ct2 + asq in
  let tmp := vaxsq + ct2 - asq in
  sqrt ((1/2) * (qsq + sqrt (tmp * tmp + 4 * asq * ct2)) / d).

(** CalculateCellCenteredField, field.cpp 112-181: one component; [bl], [br] on the lower and the upper face, which are at [fl] and [fr]; [xv] is the volume centre. *)
Definition cell_centered (uniform : bool) (fl fr xv bl br : R) : R :=
  let lw := if uniform then 1/2 else (fr - xv) / (fr - fl) in
  let rw := if uniform then 1/2 else (xv - fl) / (fr - fl) in
  lw * bl + rw * br.

(** Laplacian, coordinates.cpp 559-589, times the square of the cell size h, on a mesh with the same cell size in all directions. *)
Definition arr := Z -> Z -> Z -> R.
Definition lap (two three : bool) (s : arr) (k j i : Z) : R :=
  (s k j (i - 1)%Z - 2 * s k j i + s k j (i + 1)%Z)
  + (if two then s k (j - 1)%Z i - 2 * s k j i + s k (j + 1)%Z i else 0)
  + (if three then s (k - 1)%Z j i - 2 * s k j i + s (k + 1)%Z j i else 0).
(** ConservedToPrimitiveCellAverage, eos_high_order.cpp 30-97, adiabatic hydro: the cell (k,j,i), from the conserved variables [u] and the primitive variables [w]
    left by ConservedToPrimitive.  C times the Laplacian is [lap] / 24. *)
Definition C_lap (two three : bool) (s : arr) (k j i : Z) : R := lap two three s k j i / 24.
Definition cell_average (two three : bool) (gamma dfloor pfloor : R) (u : Z -> Z -> Z -> cons) (w : Z -> Z -> Z -> prim) (k j i : Z) : cons * prim :=
  let L (f : cons -> R) := C_lap two three (fun k j i => f (u k j i)) k j i in
  let M (f : prim -> R) := C_lap two three (fun k j i => f (w k j i)) k j i in
  let c := u k j i in
  let w_cc := snd (c2p gamma dfloor pfloor (mkU (u_d c - L u_d) (u_m1 c - L u_m1) (u_m2 c - L u_m2) (u_m3 c - L u_m3) (u_e c - L u_e))) in
  ApplyPrimitiveConservedFloors gamma dfloor pfloor 0 c
    (mkW (w_d w_cc + M w_d) (w_vx w_cc + M w_vx) (w_vy w_cc + M w_vy) (w_vz w_cc + M w_vz) (w_p w_cc + M w_p)).

(** ApplyPassiveScalarFloors, eos_scalars.cpp 160-173: the array is addressed with two indices. *)
Definition ApplyPassiveScalarFloors (D : dims) (sfloor : R) (mem : Z -> R) (n k j i : Z) : Z -> R :=
  fun a => if Z.eqb a (at2 D n i) then floor_at sfloor (mem a) else mem a.
(** One iteration of the last loop of PassiveScalarConservedToPrimitiveCellAverage, eos_scalars.cpp 107-121; [v] is r_cc + C*laplacian. *)
Definition scalar_average_step (D : dims) (sfloor v : R) (mem : Z -> R) (n k j i : Z) : Z -> R :=
  ApplyPassiveScalarFloors D sfloor (fun a => if Z.eqb a (at4 D n k j i) then v else mem a) n k j i.
(** ApplyPassiveScalarPrimitiveConservedFloors, eos_scalars.cpp 178-195 (not called anywhere). *)
Definition scalar_floors (sfloor d s : R) : R * R :=
  let s := if ltR s (sfloor * d) then sfloor * d else s in (s, s * (1 / d)).

(** Hydro::GetWeightForCT, hydro.cpp 154-158. *)
Definition GetWeightForCT (dflx rhol rhor dx dt : R) : R :=
  1/2 + Rmax (-1/2) (Rmin (1/2) (1024 * dt * dflx / (dx * (rhol + rhor)))).
