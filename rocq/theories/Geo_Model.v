(** Positions of blocks and cell faces: src/mesh/mesh.hpp (mesh generators), src/mesh/mesh.cpp Mesh::SetBlockSizeAndBoundaries, src/coordinates/coordinates.cpp (constructor).
    The arithmetic is that of the machine: every floating-point operation is the exact operation followed by [rnd], an arbitrary rounding function; int64 indices are integers (their conversion to Real is
    rounded too).  One direction at a time: the code repeats the same statements for x1, x2 and x3. *)
From Coq Require Import Reals ZArith List Bool.
From Verif Require Import Time_Model.
Import ListNotations.
Local Open Scope R_scope.

(** bvals_interfaces.hpp 84-86 *)
Inductive BoundaryFlag := block | undef | reflect | outflow | user | periodic | polar | polar_wedge | vacuum | shear_periodic.

(** One direction of the mesh: limits and number of cells of RegionSize mesh_size, nrbx (root blocks), the generator function applied to mesh_size and whether it is the uniform one (mesh.hpp 285-290,
    mesh.cpp 118, 290-303), and the boundary flags of the mesh.  [gen] is evaluated in machine arithmetic, so it is any function. *)
Record axis := mkA { amin : R; amax : R; anx : Z; anrb : Z; uniform : bool; gen : R -> R; bc_in : BoundaryFlag; bc_out : BoundaryFlag }.

(** mesh.hpp: ComputeMeshGeneratorX.  The integer divisions of C++ truncate. *)
Definition ComputeMeshGeneratorX (rnd : R -> R) (index nrange : Z) (sym_interval : bool) : R :=
  if negb sym_interval then rnd (rnd (IZR index) / rnd (IZR nrange))
  else
    let noffset := (index - Z.quot nrange 2)%Z in
    let noffset_ceil := (index - Z.quot (nrange + 1) 2)%Z in
    rnd (rnd (IZR (noffset + noffset_ceil)) / rnd (2 * rnd (IZR nrange))).

(** mesh.hpp: DefaultMeshGeneratorX1/X2/X3 and UniformMeshGeneratorX1/X2/X3, in exact arithmetic ([rnd] does not enter; used for the statements about increasing faces). *)
Definition DefaultMeshGenerator (xmin xmax rat : R) (nx : Z) (x : R) : R :=
  let '(lw, rw) :=
    if eqR rat 1 then (1 - x, x)
    else
      let ratn := Rpower rat (IZR nx) in let rnx := Rpower rat (x * IZR nx) in
      let lw := (rnx - ratn) / (1 - ratn) in (lw, 1 - lw) in
  xmin * lw + xmax * rw.
Definition UniformMeshGenerator (xmin xmax x : R) : R := 1 / 2 * (xmin + xmax) + (x * xmax - x * xmin).

(** mesh.cpp 1984-2061: limits and flags of a block.  [flat] is mesh_size.nx == 1, tested for x2 and x3 (for x1 it is never set). *)
Record extent := mkE { xmin : R; xmax : R; f_in : BoundaryFlag; f_out : BoundaryFlag }.
Definition SetBlockSizeAndBoundaries (rnd : R -> R) (a : axis) (flat : bool) (root_level ll lx : Z) : extent :=
  if flat then mkE (amin a) (amax a) (bc_in a) (bc_out a)
  else
    let nrbx_ll := Z.shiftl (anrb a) (ll - root_level) in
    let '(lo, fi) := if Z.eqb lx 0 then (amin a, bc_in a) else (gen a (ComputeMeshGeneratorX rnd lx nrbx_ll (uniform a)), block) in
    let '(hi, fo) := if Z.eqb lx (nrbx_ll - 1) then (amax a, bc_out a) else (gen a (ComputeMeshGeneratorX rnd (lx + 1) nrbx_ll (uniform a)), block) in
    mkE lo hi fi fo.

(** coordinates.cpp 92-163 (x1), 165-236 (x2), 240-318 (x3): face positions of a block with cells il..iu of which [bnx] is block_size.nx; [coarse] is coarse_flag (the coordinates of the coarse buffer, for
    which iu-il+1 = bnx/2). *)
Definition face0 (rnd : R -> R) (a : axis) (root_level ll lx bnx : Z) (coarse : bool) (il iu i : Z) : R :=
  let e := SetBlockSizeAndBoundaries rnd a false root_level ll lx in
  let nrootmesh := (anx a * Z.shiftl 1 (ll - root_level))%Z in
  if Z.eqb i (iu + 1) then xmax e
  else if Z.eqb i il then xmin e
  else
    let noffset := if coarse then ((i - il) * 2 + lx * bnx)%Z else (i - il + lx * bnx)%Z in
    gen a (ComputeMeshGeneratorX rnd noffset nrootmesh (uniform a)).
(** Cell widths before the correction at reflecting boundaries: 110-112 and 129, 143-145. *)
Definition width0 (rnd : R -> R) (a : axis) (root_level ll lx bnx : Z) (coarse : bool) (il iu i : Z) : R :=
  if uniform a then
    let e := SetBlockSizeAndBoundaries rnd a false root_level ll lx in rnd (rnd (xmax e - xmin e) / IZR (iu - il + 1))
  else rnd (face0 rnd a root_level ll lx bnx coarse il iu (i + 1) - face0 rnd a root_level ll lx bnx coarse il iu i).
(** 148-161: ghost faces n cells outside a reflecting (for x2 also polar) boundary. *)
Fixpoint mirror_in (rnd : R -> R) (x0 : R) (dx : Z -> R) (il : Z) (n : nat) : R :=
  match n with O => x0 | S m => rnd (mirror_in rnd x0 dx il m - dx (il + Z.of_nat m)%Z) end.
Fixpoint mirror_out (rnd : R -> R) (x0 : R) (dx : Z -> R) (iu : Z) (n : nat) : R :=
  match n with O => x0 | S m => rnd (mirror_out rnd x0 dx iu m + dx (iu - Z.of_nat m)%Z) end.
Definition mirrored (x2dir : bool) (f : BoundaryFlag) : bool := match f with reflect => true | polar => x2dir | _ => false end.
(** The face positions and cell widths the constructor leaves, for ng <= iu-il+1. *)
Definition face (rnd : R -> R) (a : axis) (x2dir : bool) (root_level ll lx bnx : Z) (coarse : bool) (il iu ng i : Z) : R :=
  let e := SetBlockSizeAndBoundaries rnd a false root_level ll lx in
  let x := face0 rnd a root_level ll lx bnx coarse il iu in let dx := width0 rnd a root_level ll lx bnx coarse il iu in
  if mirrored x2dir (f_in e) && Z.ltb i il then mirror_in rnd (x il) dx il (Z.to_nat (il - i))
  else if mirrored x2dir (f_out e) && Z.ltb (iu + 1) i then mirror_out rnd (x (iu + 1)%Z) dx iu (Z.to_nat (i - (iu + 1)))
  else x i.
Definition width (rnd : R -> R) (a : axis) (x2dir : bool) (root_level ll lx bnx : Z) (coarse : bool) (il iu ng i : Z) : R :=
  let e := SetBlockSizeAndBoundaries rnd a false root_level ll lx in
  let dx := width0 rnd a root_level ll lx bnx coarse il iu in
  if mirrored x2dir (f_in e) && Z.ltb i il then dx (2 * il - i - 1)%Z
  else if mirrored x2dir (f_out e) && Z.ltb iu i then dx (2 * iu - i + 1)%Z
  else dx i.
