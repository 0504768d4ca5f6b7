(** Orbital advection, src/orbital_advection, and its messages, src/bvals/orbital/bvals_orbital.cpp: exact arithmetic, uniform spacing in the orbital direction (the only case implemented),
    all blocks along the orbit on one level (the buffers between levels are not modelled).  A row is one variable on one azimuthal line: the values along the orbital direction for fixed (k,i), or (j,i) in spherical-polar coordinates. *)
From Coq Require Import Reals ZArith List Bool.
From Verif Require Import Time_Model Fv_Model Rec_Model Met_Model.
Import ListNotations.
Local Open Scope R_scope.

(** orbital_advection.cpp 50-52: ghost cells the remap needs; [ppm] is xorder > 2. *)
Definition xgh (ppm : bool) : Z := if ppm then 2%Z else 1%Z.

(** SetOrbitalEdgeCC, set_orbital_advection.cpp 208-215 (and 224-230; SetOrbitalEdgeFC 364-370, 376-382, 389-395, 401-408): offset and remaining fraction for a displacement. *)
Definition edge (olen dx : R) : Z * R :=
  ((trunc (olen / dx) + (if ltR 0 olen then 1 else 0))%Z, fmod olen dx / dx).

(** RemapFluxPlm, orbital_remapping.cpp 36-54: the entry of pflux for position i + shift of the buffer. *)
Definition RemapFluxPlm (q : line) (eps osgn : R) (i : Z) : R :=
  let odi := osgn - 1 / 2 in
  let coeff := odi * (1 - 2 * odi * eps) in
  let dul := q i - q (i - 1)%Z in
  let dur := q (i + 1)%Z - q i in
  let du2 := dul * dur in
  let dum := if leR du2 0 then 0 else 2 * du2 / (dul + dur) in
  eps * (q i + coeff * dum).
(** RemapFluxPpm, orbital_remapping.cpp 84-240.  Steps 1 to 4 (105-230) are the operations of the parabolic reconstruction on a uniform Cartesian-like mesh, ppm_simple.cpp, modelled in Rec_Model;
    the result is (qplus, qminus). *)
Definition RemapFluxPpm (q : line) (eps osgn : R) (i : Z) : R :=
  let odi := 2 * (osgn - 1 / 2) in
  let (qplus, qminus) := PiecewiseParabolic true true false uniform_c q i in
  let qx := odi * (2 / 3) * eps in
  let dU := qplus - qminus in
  let U6 := 6 * (q i - 1 / 2 * (qplus + qminus)) in
  eps * (osgn * qplus + (1 - osgn) * qminus - 1 / 2 * eps * (dU - odi * (1 - qx) * U6)).
Definition RemapFlux (ppm : bool) (q : line) (eps osgn : R) (i : Z) : R := if ppm then RemapFluxPpm q eps osgn i else RemapFluxPlm q eps osgn i.

(** calculate_orbital_advection.cpp 44-49. *)
Definition osgn (offset : Z) : Z := if Z.ltb 0 offset then 1%Z else 0%Z.
Definition shift0 (onx offset : Z) : Z := (osgn offset * onx - offset)%Z.
(** CalculateOrbitalAdvectionCC, 52-63 (65-75; 86-110): the new value in cell j of one row. *)
Definition CalculateCC (ppm : bool) (onx offset : Z) (eps : R) (hbuf : line) (j : Z) : R :=
  let pflux j := RemapFlux ppm hbuf eps (IZR (osgn offset)) (j + shift0 onx offset) in
  let shift := (shift0 onx offset + osgn offset)%Z in
  hbuf (j + shift)%Z - (pflux (j + 1)%Z - pflux j).
(** CalculateOrbitalAdvectionFC, 132-160 (168-195; 210-238; 243-271): the entry of pflux, with the cells passed as a whole. *)
Definition CalculateFC (ppm : bool) (onx offset : Z) (eps : R) (bbuf : line) (j : Z) : R :=
  let s0 := shift0 onx offset in
  let f0 := RemapFlux ppm bbuf eps (IZR (osgn offset)) (j + s0) in
  let f1 := fold_left (fun f jj => f + bbuf (j + (s0 + jj))%Z) (upto 1 (offset - 1)) f0 in
  fold_left (fun f jj => f - bbuf (j + (s0 + jj - 1))%Z) (rev (upto (offset + 1) 0)) f1.

(** A row while it is being filled: store at one position. *)
Definition store (b : line) (j : Z) (x : R) : line := fun n => if Z.eqb n j then x else b n.

Section Block.
Variables (ppm full : bool) (onx js : Z).
Definition je : Z := (js + onx - 1)%Z.
(** SetOrbitalAdvectionCC, set_orbital_advection.cpp 46-61: the block's own cells; SetOrbitalAdvectionFC 133-144 stores all of them ([full]; the sign of b3 and b1 is part of the row). *)
Definition set_own (offset : Z) (u b : line) : line :=
  let shift := if Z.ltb 0 offset then onx else 0%Z in
  let jl := if full then js else Z.max js (js - xgh ppm - offset) in
  let ju := if full then je else Z.min je (je + 1 + xgh ppm - offset) in
  fold_left (fun b j => store b (j + shift) (u j)) (upto jl ju) b.

(** LoadHydroBufferSameLevel, bvals_orbital.cpp 852-925; LoadScalarBufferSameLevel 2488-2565; LoadFieldBufferSameLevel 1533-1645.
    [up] false is nb == 0 (to the block on the right), true is nb == 4 (to the left).  The rows are listed in the order of the loops over (k,i) and variables. *)
Definition sent (up : bool) (offset : Z) : list Z :=
  if up then upto js (je + 1 + xgh ppm - offset - onx) else upto (js - xgh ppm - offset + onx) je.
Definition Load (up : bool) (rows : list (Z * line)) : list R := flat_map (fun r => map (snd r) (sent up (fst r))) rows.
(** SetHydroBufferSameLevel, 1104-1195; SetScalarBufferSameLevel 2741-2835; SetFieldBufferSameLevel 1883-2030: where the values go. *)
Definition placed (up : bool) (offset : Z) : list Z :=
  if up then (if Z.ltb 0 offset then upto (js + onx + onx) (je + 1 + xgh ppm - offset + onx) else upto (js + onx) (je + 1 + xgh ppm - offset))
  else (if Z.leb offset 0 then upto (js - xgh ppm - offset + onx - onx) (je - onx) else upto (js - xgh ppm - offset + onx) je).
(** The loop  uo(j) = buf[p++]  over one row; reading past the message gives 0 (the code reads what the buffer held). *)
Fixpoint fill (js_ : list Z) (b : line) (msg : list R) : line * list R :=
  match js_ with
  | [] => (b, msg)
  | j :: rest => fill rest (store b j (hd 0 msg)) (tl msg)
  end.
Fixpoint Set_ (up : bool) (rows : list (Z * line)) (msg : list R) : list (Z * line) * list R :=
  match rows with
  | [] => ([], msg)
  | (o, b) :: rest => let (b', msg') := fill (placed up o) b msg in let (rest', m') := Set_ up rest msg' in ((o, b') :: rest', m')
  end.
(** The number p of values taken from the buffer. *)
Definition taken (up : bool) (rows : list (Z * line)) : Z := fold_right Z.add 0%Z (map (fun r => Z.of_nat (length (placed up (fst r)))) rows).
(** SetOrbitalEdgeCC 216-217, 234-237: the announced number of cells per variable, from the offsets of the lines. *)
Definition announced (up : bool) (offsets : list Z) : Z :=
  fold_right Z.add 0%Z (map (fun o => if up then Z.max (1 + xgh ppm - o) 0 else Z.max (o + xgh ppm) 0) offsets).
(** SendBoundaryBuffersCC 597-603 and ReceiveBoundaryBuffersCC 704-710: the sizes must agree, else the run stops. *)
Definition send (up : bool) (nvar : Z) (offsets : list Z) (rows : list (Z * line)) : option (list R) :=
  let m := Load up rows in if Z.eqb (Z.of_nat (length m)) (nvar * announced up offsets) then Some m else None.
Definition receive (up : bool) (nvar : Z) (offsets : list Z) (rows : list (Z * line)) (m : list R) : option (list (Z * line)) :=
  if Z.eqb (taken up rows) (nvar * announced up offsets) then Some (fst (Set_ up rows m)) else None.

(** One orbital stage on a ring of [nb] blocks (time_integrator.cpp 2564-2640): the order of the loops gives row r the offset [off r]; [st m r] is row r of block m, [old m r] what the orbital buffer held before.
    [first] says which of the two messages is set first. *)
Variables (nb nvar : Z) (offsets : list Z) (nrow : nat) (off : nat -> Z) (eps : nat -> R).
Definition rows (x : nat -> line) : list (Z * line) := map (fun r => (off r, x r)) (seq 0 nrow).
Definition bind {A B} (x : option A) (f : A -> option B) : option B := match x with Some a => f a | None => None end.
Definition buffers (first : bool) (st old : Z -> nat -> line) (m : Z) : option (list (Z * line)) :=
  let own := rows (fun r => set_own (off r) (st m r) (old m r)) in
  let nbr up := if (up : bool) then ((m + 1) mod nb)%Z else ((m - 1) mod nb)%Z in
  bind (send first nvar offsets (rows (st (nbr first)))) (fun m1 =>
  bind (receive first nvar offsets own m1) (fun b1 =>
  bind (send (negb first) nvar offsets (rows (st (nbr (negb first))))) (fun m2 => receive (negb first) nvar offsets b1 m2))).
Definition row (l : list (Z * line)) (r : nat) : line := nth r (map snd l) (const 0).
(** The cells of the block are overwritten, 2628-2640. *)
Definition advance (first : bool) (st old : Z -> nat -> line) (m : Z) : option (nat -> line) :=
  bind (buffers first st old m) (fun b => Some (fun r j => if (Z.leb js j && Z.leb j je)%bool then CalculateCC ppm onx (off r) (eps r) (row b r) j else st m r j)).
(** The entries of pflux for the field rows, at the faces js..je+1. *)
Definition field_fluxes (first : bool) (st old : Z -> nat -> line) (m : Z) : option (nat -> line) :=
  bind (buffers first st old m) (fun b => Some (fun r j => CalculateFC ppm onx (off r) (eps r) (row b r) j)).
End Block.

(** h2v, h2f: cartesian.cpp 77-78, cylindrical.cpp 71-72. *)
Definition h2v (s : system) (g : grid) (i : Z) : R := match s with cartesian => 1 | _ => x1v s g i end.
Definition h2f (s : system) (g : grid) (i : Z) : R := match s with cartesian => 1 | _ => x1f g i end.
(** CalculateOrbitalAdvectionFC, 131-200: the electric field in Cartesian and cylindrical coordinates; [f1 k i j] and [f3 k i j] are the entries of pflux from the rows of b1 and of -b3. *)
Definition OrbitalEMF (s : system) (g : grid) (dx : R) (f1 f3 : Z -> Z -> line) : vec :=
  mkV (fun k j i => f3 k i j * (h2v s g i * dx)) (fun _ _ _ => 0) (fun k j i => f1 k i j * (h2f s g i * dx)).

(** InitializeOrbitalAdvection, orbital_advection.cpp 506-523: the longest time step the buffers allow (neighbours on the same level), given the largest and the smallest angular velocity of the block. *)
Definition min_dt (start : R) (ppm : bool) (onx : Z) (dx vmax vmin : R) : R :=
  let n := IZR (onx - xgh ppm) in
  let a := if ltR 0 vmax then Rmin start (dx * n / vmax) else start in
  if ltR vmin 0 then Rmin a (- dx * n / vmin) else a.
(** The stage with offsets and fractions from the displacements [olen] (dt times the angular velocity) of the rows: ComputeOrbit, bvals_orbital.cpp 441-451, then the tasks. *)
Definition orbital_cells (ppm first : bool) (onx js nb : Z) (nh ns : nat) (offsets : list Z) (nrow : nat) (olen : nat -> R) (dx : R) (st old : Z -> nat -> line) (m : Z) : option (nat -> line) :=
  advance ppm false onx js nb (Z.of_nat nh + Z.of_nat ns) offsets nrow (fun r => fst (edge (olen r) dx)) (fun r => snd (edge (olen r) dx)) first st old m.
(** The same for the field: every line carries one row. *)
Definition orbital_field (ppm first : bool) (onx js nb : Z) (offsets : list Z) (nrow : nat) (olen : nat -> R) (dx : R) (st old : Z -> nat -> line) (m : Z) : option (nat -> line) :=
  field_fluxes ppm true onx js nb 1 offsets nrow (fun r => fst (edge (olen r) dx)) (fun r => snd (edge (olen r) dx)) first st old m.
