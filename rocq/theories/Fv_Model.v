(** Finite volume and constrained transport updates, exact arithmetic: src/field/ct.cpp, src/field/calculate_corner_e.cpp (copies in one and two dimensions), src/hydro/add_flux_divergence.cpp,
    src/bvals/cc/flux_correction_cc.cpp, weighted averages of src/field/field.cpp and src/hydro.  Arrays are functions of the indices (k,j,i). *)
From Coq Require Import Reals ZArith List Bool.
Import ListNotations.
Local Open Scope R_scope.

Definition arr := Z -> Z -> Z -> R.
(** The active index range of a block and which of its x2 boundaries are polar or polar_wedge (mesh.hpp 88, bvals.hpp). *)
Record dims := mkD { is_ : Z; ie : Z; js : Z; je : Z; ks : Z; ke : Z; pole_in : bool; pole_out : bool }.
Definition nx1 (d : dims) : Z := (ie d - is_ d + 1)%Z.
Definition nx2 (d : dims) : Z := (je d - js d + 1)%Z.
Definition nx3 (d : dims) : Z := (ke d - ks d + 1)%Z.
(** Coordinates: face areas, edge lengths and cell volumes (coordinates.hpp, any geometry). *)
Record geom := mkG { A1 : arr; A2 : arr; A3 : arr; L1 : arr; L2 : arr; L3 : arr; V : arr }.
Record vec := mkV { x1 : arr; x2 : arr; x3 : arr }.
Definition within (a b x : Z) : bool := Z.leb a x && Z.leb x b.

(** Face field by CT: ct.cpp 31-117.  The loops update each entry once; [wght] is the weight (of the stage times dt). *)
Definition CT (d : dims) (g : geom) (e : vec) (wght : R) (b : vec) : vec :=
  mkV
  (fun k j i => if within (ks d) (ke d) k && within (js d) (je d) j && within (is_ d) (ie d + 1) i then
      if Z.ltb 1 (nx2 d) then
        let v := x1 b k j i - wght / A1 g k j i * (L3 g k (j + 1)%Z i * x3 e k (j + 1)%Z i - L3 g k j i * x3 e k j i) in
        if Z.ltb 1 (nx3 d) then v + wght / A1 g k j i * (L2 g (k + 1)%Z j i * x2 e (k + 1)%Z j i - L2 g k j i * x2 e k j i) else v
      else x1 b k j i
    else x1 b k j i)
  (fun k j i => if within (ks d) (ke d) k && within (if pole_in d then js d + 1 else js d) (if pole_out d then je d else je d + 1) j && within (is_ d) (ie d) i then
      let v := x2 b k j i + wght / A2 g k j i * (L3 g k j (i + 1)%Z * x3 e k j (i + 1)%Z - L3 g k j i * x3 e k j i) in
      if Z.ltb 1 (nx3 d) then v - wght / A2 g k j i * (L1 g (k + 1)%Z j i * x1 e (k + 1)%Z j i - L1 g k j i * x1 e k j i) else v
    else x2 b k j i)
  (fun k j i => if within (ks d) (ke d + 1) k && within (js d) (je d) j && within (is_ d) (ie d) i then
      let v := x3 b k j i - wght / A3 g k j i * (L2 g k j (i + 1)%Z * x2 e k j (i + 1)%Z - L2 g k j i * x2 e k j i) in
      if Z.ltb 1 (nx2 d) then v + wght / A3 g k j i * (L1 g k (j + 1)%Z i * x1 e k (j + 1)%Z i - L1 g k j i * x1 e k j i) else v
    else x3 b k j i).
(** The register of the first stage of RKL2, ct.cpp 123-241 (the lines with ct_update_out): each entry is assigned, then accumulated, with weight 0.5 dt. *)
Definition CT_register (d : dims) (g : geom) (e : vec) (half_dt : R) (r : vec) : vec :=
  mkV
  (fun k j i => if within (ks d) (ke d) k && within (js d) (je d) j && within (is_ d) (ie d + 1) i then
      if Z.ltb 1 (nx2 d) then
        let v := -1 * (half_dt / A1 g k j i * (L3 g k (j + 1)%Z i * x3 e k (j + 1)%Z i - L3 g k j i * x3 e k j i)) in
        if Z.ltb 1 (nx3 d) then v + half_dt / A1 g k j i * (L2 g (k + 1)%Z j i * x2 e (k + 1)%Z j i - L2 g k j i * x2 e k j i) else v
      else x1 r k j i
    else x1 r k j i)
  (fun k j i => if within (ks d) (ke d) k && within (if pole_in d then js d + 1 else js d) (if pole_out d then je d else je d + 1) j && within (is_ d) (ie d) i then
      let v := half_dt / A2 g k j i * (L3 g k j (i + 1)%Z * x3 e k j (i + 1)%Z - L3 g k j i * x3 e k j i) in
      if Z.ltb 1 (nx3 d) then v - half_dt / A2 g k j i * (L1 g (k + 1)%Z j i * x1 e (k + 1)%Z j i - L1 g k j i * x1 e k j i) else v
    else x2 r k j i)
  (fun k j i => if within (ks d) (ke d + 1) k && within (js d) (je d) j && within (is_ d) (ie d) i then
      let v := -1 * (half_dt / A3 g k j i * (L2 g k j (i + 1)%Z * x2 e k j (i + 1)%Z - L2 g k j i * x2 e k j i)) in
      if Z.ltb 1 (nx2 d) then v + half_dt / A3 g k j i * (L1 g k (j + 1)%Z i * x1 e k (j + 1)%Z i - L1 g k j i * x1 e k j i) else v
    else x3 r k j i).
(** MeshBlock::WeightedAve, mesh/weighted_ave.cpp: the value of one entry, U = a*U + b*U1 + c*U2 + d*U3 + e*U4 with its special cases for the weights (the tests are on exact reals here).
    35-233 for cell-centred variables. *)
Definition isR (x y : R) : bool := if Req_EM_T x y then true else false.
Definition ave (w0 w1 w2 w3 w4 o a b c e : R) : R :=
  if isR w0 1 then
    if negb (isR w4 0) then o + (w1 * a + w2 * b + w3 * c + w4 * e)
    else if negb (isR w3 0) then o + (w1 * a + w2 * b + w3 * c)
    else if negb (isR w2 0) then o + (w1 * a + w2 * b)
    else if negb (isR w1 0) then o + w1 * a else o
  else if isR w0 0 then
    if negb (isR w4 0) then w1 * a + w2 * b + w3 * c + w4 * e
    else if negb (isR w3 0) then w1 * a + w2 * b + w3 * c
    else if negb (isR w2 0) then w1 * a + w2 * b
    else if isR w1 1 then a else w1 * a
  else
    if negb (isR w4 0) then w0 * o + w1 * a + w2 * b + w3 * c + w4 * e
    else if negb (isR w3 0) then w0 * o + w1 * a + w2 * b + w3 * c
    else if negb (isR w2 0) then w0 * o + w1 * a + w2 * b
    else if negb (isR w1 0) then w0 * o + w1 * a else w0 * o.
Record weights := mkW { w0 : R; w1 : R; w2 : R; w3 : R; w4 : R }.
(** 366-832 for face fields; line 398 takes x3f instead of x2f of the third input. *)
Definition WeightedAve (d : dims) (w : weights) (o a b c e : vec) : vec :=
  let f := ave (w0 w) (w1 w) (w2 w) (w3 w) (w4 w) in
  mkV
  (fun k j i => if within (ks d) (ke d) k && within (js d) (je d) j && within (is_ d) (ie d + 1) i then f (x1 o k j i) (x1 a k j i) (x1 b k j i) (x1 c k j i) (x1 e k j i) else x1 o k j i)
  (fun k j i => if within (ks d) (ke d) k && within (if pole_in d then js d + 1 else js d) (if pole_out d then je d else je d + 1) j && within (is_ d) (ie d) i then
     f (x2 o k j i) (x2 a k j i) (x2 b k j i) (if isR (w0 w) 1 && negb (isR (w4 w) 0) then x3 c k j i else x2 c k j i) (x2 e k j i) else x2 o k j i)
  (fun k j i => if within (ks d) (ke d + 1) k && within (js d) (je d) j && within (is_ d) (ie d) i then f (x3 o k j i) (x3 a k j i) (x3 b k j i) (x3 c k j i) (x3 e k j i) else x3 o k j i).
Definition WeightedAve_cc (d : dims) (w : weights) (o a b c e : arr) : arr :=
  fun k j i => if within (ks d) (ke d) k && within (js d) (je d) j && within (is_ d) (ie d) i then ave (w0 w) (w1 w) (w2 w) (w3 w) (w4 w) (o k j i) (a k j i) (b k j i) (c k j i) (e k j i) else o k j i.
(** calculate_corner_e.cpp 39-50 (1D) and 97-108 (2D): the copies of edge fields to the other side of the missing dimensions. *)
Definition corner_copies (d : dims) (e : vec) : vec :=
  if Z.eqb (nx2 d) 1 then
    mkV (x1 e) (fun k j i => if Z.eqb j (js d) && Z.eqb k (ke d + 1) && within (is_ d) (ie d + 1) i then x2 e (ks d) (js d) i else x2 e k j i)
        (fun k j i => if Z.eqb k (ks d) && Z.eqb j (je d + 1) && within (is_ d) (ie d + 1) i then x3 e (ks d) (js d) i else x3 e k j i)
  else if Z.eqb (nx3 d) 1 then
    mkV (fun k j i => if Z.eqb k (ke d + 1) && within (js d) (je d + 1) j && within (is_ d) (ie d) i then x1 e (ks d) j i else x1 e k j i)
        (fun k j i => if Z.eqb k (ke d + 1) && within (js d) (je d) j && within (is_ d) (ie d + 1) i then x2 e (ks d) j i else x2 e k j i) (x3 e)
  else e.

(** add_flux_divergence.cpp 38-96; one conserved variable. *)
Definition dflx (d : dims) (g : geom) (f : vec) (k j i : Z) : R :=
  let v := A1 g k j (i + 1)%Z * x1 f k j (i + 1)%Z - A1 g k j i * x1 f k j i in
  let v := if Z.ltb 1 (nx2 d) then v + (A2 g k (j + 1)%Z i * x2 f k (j + 1)%Z i - A2 g k j i * x2 f k j i) else v in
  if Z.ltb 1 (nx3 d) then v + (A3 g (k + 1)%Z j i * x3 f (k + 1)%Z j i - A3 g k j i * x3 f k j i) else v.
Definition active (d : dims) (k j i : Z) : bool := within (ks d) (ke d) k && within (js d) (je d) j && within (is_ d) (ie d) i.
Definition AddFluxDivergence (d : dims) (g : geom) (f : vec) (wght : R) (u : arr) : arr :=
  fun k j i => if active d k j i then u k j i - wght * dflx d g f k j i / V g k j i else u k j i.
(** The register of the first stage of RKL2, add_flux_divergence.cpp 158-166. *)
Definition FluxDivergence_register (d : dims) (g : geom) (f : vec) (dt : R) (r : arr) : arr :=
  fun k j i => if active d k j i then - (1 / 2) * dt * dflx d g f k j i / V g k j i else r k j i.

(** ** Flux correction, flux_correction_cc.cpp; one conserved variable.  Faces 0..5: inner_x1, outer_x1, inner_x2, ... *)
Definition evens (a b : Z) : list Z := map (fun n => (a + 2 * Z.of_nat n)%Z) (seq 0 (Z.to_nat ((b - a + 2) / 2))).
Definition upto (a b : Z) : list Z := map (fun n => (a + Z.of_nat n)%Z) (seq 0 (Z.to_nat (b - a + 1))).
Definition odd_ (fid : nat) : Z := Z.of_nat (Nat.modulo fid 2).
(** 77-159: LoadFluxBoundaryBufferToCoarser: area-weighted averages in the order of the loops. *)
Definition LoadFlux (d : dims) (g : geom) (f : vec) (fid : nat) : list R :=
  if Nat.ltb fid 2 then
    let i := (is_ d + (ie d - is_ d + 1) * odd_ fid)%Z in
    if Z.ltb 1 (nx3 d) then
      flat_map (fun k => map (fun j =>
        let amm := A1 g k j i in let amp := A1 g k (j + 1)%Z i in let apm := A1 g (k + 1)%Z j i in let app := A1 g (k + 1)%Z (j + 1)%Z i in
        (x1 f k j i * amm + x1 f k (j + 1)%Z i * amp + x1 f (k + 1)%Z j i * apm + x1 f (k + 1)%Z (j + 1)%Z i * app) / (amm + amp + apm + app)) (evens (js d) (je d))) (evens (ks d) (ke d))
    else if Z.ltb 1 (nx2 d) then
      map (fun j => let k := ks d in (x1 f k j i * A1 g k j i + x1 f k (j + 1)%Z i * A1 g k (j + 1)%Z i) / (A1 g k j i + A1 g k (j + 1)%Z i)) (evens (js d) (je d))
    else [x1 f (ks d) (js d) i]
  else if Nat.ltb fid 4 then
    let j := (js d + (je d - js d + 1) * odd_ fid)%Z in
    if Z.ltb 1 (nx3 d) then
      flat_map (fun k => map (fun i =>
        (x2 f k j i * A2 g k j i + x2 f k j (i + 1)%Z * A2 g k j (i + 1)%Z + x2 f (k + 1)%Z j i * A2 g (k + 1)%Z j i + x2 f (k + 1)%Z j (i + 1)%Z * A2 g (k + 1)%Z j (i + 1)%Z)
        / (A2 g k j i + A2 g k j (i + 1)%Z + A2 g (k + 1)%Z j i + A2 g (k + 1)%Z j (i + 1)%Z)) (evens (is_ d) (ie d))) (evens (ks d) (ke d))
    else if Z.ltb 1 (nx2 d) then
      map (fun i => let k := ks d in (x2 f k j i * A2 g k j i + x2 f k j (i + 1)%Z * A2 g k j (i + 1)%Z) / (A2 g k j i + A2 g k j (i + 1)%Z)) (evens (is_ d) (ie d))
    else []
  else
    let k := (ks d + (ke d - ks d + 1) * odd_ fid)%Z in
    flat_map (fun j => map (fun i =>
        (x3 f k j i * A3 g k j i + x3 f k j (i + 1)%Z * A3 g k j (i + 1)%Z + x3 f k (j + 1)%Z i * A3 g k (j + 1)%Z i + x3 f k (j + 1)%Z (i + 1)%Z * A3 g k (j + 1)%Z (i + 1)%Z)
        / (A3 g k j i + A3 g k j (i + 1)%Z + A3 g k (j + 1)%Z i + A3 g k (j + 1)%Z (i + 1)%Z)) (evens (is_ d) (ie d))) (evens (js d) (je d)).
(** The half of a range chosen by fi (246-249 etc.). *)
Definition half (a b n : Z) (fi : nat) : Z * Z := if Nat.eqb fi 0 then (a, (b - n / 2)%Z) else ((a + n / 2)%Z, b).
(** Store the elements of a buffer at the listed positions, in order. *)
Fixpoint store (a : arr) (ps : list (Z * Z * Z)) (buf : list R) : arr :=
  match ps, buf with
  | (k, j, i) :: ps, x :: buf => store (fun k' j' i' => if Z.eqb k' k && Z.eqb j' j && Z.eqb i' i then x else a k' j' i') ps buf
  | _, _ => a
  end.
(** 237-293: SetFluxBoundaryFromFiner; the positions in the order of the loops. *)
Definition slots (d : dims) (fid fi1 fi2 : nat) : list (Z * Z * Z) :=
  if Nat.ltb fid 2 then
    let i := (is_ d + (ie d - is_ d) * odd_ fid + odd_ fid)%Z in
    let '(jl, ju) := half (js d) (je d) (nx2 d) fi1 in let '(kl, ku) := half (ks d) (ke d) (nx3 d) fi2 in
    flat_map (fun k => map (fun j => (k, j, i)) (upto jl ju)) (upto kl ku)
  else if Nat.ltb fid 4 then
    let j := (js d + (je d - js d) * odd_ fid + odd_ fid)%Z in
    let '(il, iu) := half (is_ d) (ie d) (nx1 d) fi1 in let '(kl, ku) := half (ks d) (ke d) (nx3 d) fi2 in
    flat_map (fun k => map (fun i => (k, j, i)) (upto il iu)) (upto kl ku)
  else
    let k := (ks d + (ke d - ks d) * odd_ fid + odd_ fid)%Z in
    let '(il, iu) := half (is_ d) (ie d) (nx1 d) fi1 in let '(jl, ju) := half (js d) (je d) (nx2 d) fi2 in
    flat_map (fun j => map (fun i => (k, j, i)) (upto il iu)) (upto jl ju).
Definition SetFlux (d : dims) (f : vec) (fid fi1 fi2 : nat) (buf : list R) : vec :=
  if Nat.ltb fid 2 then mkV (store (x1 f) (slots d fid fi1 fi2) buf) (x2 f) (x3 f)
  else if Nat.ltb fid 4 then mkV (x1 f) (store (x2 f) (slots d fid fi1 fi2) buf) (x3 f)
  else mkV (x1 f) (x2 f) (store (x3 f) (slots d fid fi1 fi2) buf).
