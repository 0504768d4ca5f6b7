(** The multigrid Poisson solver, exact arithmetic: src/multigrid/multigrid.cpp, multigrid_driver.cpp, mgbval_*.cpp, src/gravity/mg_gravity.cpp,
    src/bvals/cc/mg/bvals_mg.cpp (ApplyPhysicalBoundaries), task_list/mg_task_list.cpp (order of the operations of one step).
    Simplifications: one variable; no mesh refinement (no octets); a level is one array that covers the whole domain (the exchange of ghost cells between the MeshBlocks of a level is the subject of C27
    and C01); arrays are functions of (k,j,i), the active cells of a level are 1..n (ngh_ = 1, mg_gravity.cpp 162) and the ghost cells 0 and n+1. *)
From Coq Require Import Reals ZArith List Bool.
From Verif Require Import Fv_Model.
Import ListNotations.
Local Open Scope R_scope.

(** One level: number of cells and cell size (multigrid.cpp 62-64, 476, 134-137). *)
Record grid := mkGr { gx : Z; gy : Z; gz : Z; dx : R }.
Definition inside (g : grid) (k j i : Z) : bool := within 1 (gz g) k && within 1 (gy g) j && within 1 (gx g) i.
Definition boxed (g : grid) (k j i : Z) : bool := within 0 (gz g + 1) k && within 0 (gy g + 1) j && within 0 (gx g + 1) i.

(** ** Construction: multigrid.cpp 36-112 *)
(** 39-45, 105-111: the block must be a cube of cells of the same size; the tolerance is absolute. *)
Definition accepts_block (nx1 nx2 nx3 : Z) (rdx rdy rdz : R) : bool :=
  Z.eqb nx1 nx2 && Z.eqb nx1 nx3 && negb (if Rlt_dec (1 / 100000) (Rabs (rdx - rdy)) then true else false) && negb (if Rlt_dec (1 / 100000) (Rabs (rdx - rdz)) then true else false).
(** 66-74: levels of the root grid, the largest l < 20 with 2^l dividing the number of blocks in every direction, plus one. *)
Definition root_levels (n1 n2 n3 : Z) : nat :=
  fold_left (fun n l => if Z.eqb (n1 mod 2 ^ Z.of_nat l) 0 && Z.eqb (n2 mod 2 ^ Z.of_nat l) 0 && Z.eqb (n3 mod 2 ^ Z.of_nat l) 0 then S l else n) (seq 0 20) 0%nat.
(** 90-103: levels of a block, [None] is the fatal error. *)
Definition block_levels (n : Z) : option nat := option_map S (find (fun l => Z.eqb (2 ^ Z.of_nat l) n) (seq 0 20)).
(** Level [l] of [nl] levels below the finest grid [top]: size_.nx1 >> ll, rdx_ * (1 << ll) with ll = nlevel_ - 1 - l (e.g. 475-482, 634-638; for the root grid rdx_ is the size of a block, so the levels
    of the root grid continue those of the blocks; multigrid_driver.cpp 415 for the number of levels). *)
Definition level (top : grid) (nl l : nat) : grid :=
  let ll := Z.of_nat (nl - 1 - l) in mkGr (Z.shiftr (gx top) ll) (Z.shiftr (gy top) ll) (Z.shiftr (gz top) ll) (dx top * 2 ^ (nl - 1 - l)).

(** ** The discrete equation: mg_gravity.cpp *)
(** The bracket of 241-242, 294-295, 324-325. *)
Definition stencil (u : arr) (k j i : Z) : R := 6 * u k j i - u (k + 1)%Z j i - u k (j + 1)%Z i - u k j (i + 1)%Z - u (k - 1)%Z j i - u k (j - 1)%Z i - u k j (i - 1)%Z.
Definition put (u : arr) (k j i : Z) (v : R) : arr := fun k' j' i' => if Z.eqb k' k && Z.eqb j' j && Z.eqb i' i then v else u k' j' i'.
(** 241-242: the update of one cell, in place. *)
Definition relax (omega dx2 : R) (src : arr) (u : arr) (p : Z * Z * Z) : arr :=
  let '(k, j, i) := p in put u k j i (u k j i - (stencil u k j i + src k j i * dx2) * (omega / 6)).
(** 235-240: the cells visited by one sweep, in the order of the loops: for i = il + c; i <= iu; i += 2. *)
Definition by2 (a b : Z) : list Z := map (fun n => a + 2 * Z.of_nat n)%Z (seq 0 (Z.to_nat ((b - a) / 2 + 1))).
Definition sweep_cells (g : grid) (color : Z) : list (Z * Z * Z) :=
  flat_map (fun k => flat_map (fun j => map (fun i => (k, j, i)) (by2 (1 + Z.land (color + k + j) 1) (gx g))) (upto 1 (gy g))) (upto 1 (gz g)).
(** 223-245 (231: color ^= coffset_). *)
Definition Smooth (g : grid) (omega : R) (coffset color : Z) (src u : arr) : arr :=
  fold_left (relax omega (dx g * dx g) src) (sweep_cells g (Z.lxor color coffset)) u.
(** 275-298. *)
Definition CalculateDefect (g : grid) (u src def : arr) : arr :=
  fun k j i => if inside g k j i then stencil u k j i * (1 / (dx g * dx g)) + src k j i else def k j i.
(** 306-328. *)
Definition CalculateFASRHS (g : grid) (u src : arr) : arr :=
  fun k j i => if inside g k j i then src k j i - stencil u k j i * (1 / (dx g * dx g)) else src k j i.

(** ** Transfer between levels: multigrid.cpp *)
(** 766-790, on the coarse grid [c]. *)
Definition Restrict (c : grid) (src dst : arr) : arr := fun k j i =>
  if inside c k j i then
    let fk := (2 * k - 1)%Z in let fj := (2 * j - 1)%Z in let fi := (2 * i - 1)%Z in
    0.125 * (src fk fj fi + src fk fj (fi + 1)%Z + src fk (fj + 1)%Z fi + src fk (fj + 1)%Z (fi + 1)%Z
             + src (fk + 1)%Z fj fi + src (fk + 1)%Z fj (fi + 1)%Z + src (fk + 1)%Z (fj + 1)%Z fi + src (fk + 1)%Z (fj + 1)%Z (fi + 1)%Z)
  else dst k j i.
(** 807-893 and, with = for +=, 970-1056: the value added to (assigned to) the child of the coarse cell (k,j,i); the three digits are the offsets of the child in k, j and i.  The expressions are copied
    from the source by a script. *)
Definition tricubic_000 (s : arr) (k j i : Z) : R :=
  (125 * s (k - 1)%Z (j - 1)%Z (i - 1)%Z + 750 * s (k - 1)%Z (j - 1)%Z i - 75 * s (k - 1)%Z (j - 1)%Z (i + 1)%Z
    + 750 * s (k - 1)%Z j (i - 1)%Z + 4500 * s (k - 1)%Z j i - 450 * s (k - 1)%Z j (i + 1)%Z
    - 75 * s (k - 1)%Z (j + 1)%Z (i - 1)%Z - 450 * s (k - 1)%Z (j + 1)%Z i + 45 * s (k - 1)%Z (j + 1)%Z (i + 1)%Z
    + 750 * s k (j - 1)%Z (i - 1)%Z + 4500 * s k (j - 1)%Z i - 450 * s k (j - 1)%Z (i + 1)%Z
    + 4500 * s k j (i - 1)%Z + 27000 * s k j i - 2700 * s k j (i + 1)%Z
    - 450 * s k (j + 1)%Z (i - 1)%Z - 2700 * s k (j + 1)%Z i + 270 * s k (j + 1)%Z (i + 1)%Z
    - 75 * s (k + 1)%Z (j - 1)%Z (i - 1)%Z - 450 * s (k + 1)%Z (j - 1)%Z i + 45 * s (k + 1)%Z (j - 1)%Z (i + 1)%Z
    - 450 * s (k + 1)%Z j (i - 1)%Z - 2700 * s (k + 1)%Z j i + 270 * s (k + 1)%Z j (i + 1)%Z
    + 45 * s (k + 1)%Z (j + 1)%Z (i - 1)%Z + 270 * s (k + 1)%Z (j + 1)%Z i - 27 * s (k + 1)%Z (j + 1)%Z (i + 1)%Z) / 32768.
Definition tricubic_001 (s : arr) (k j i : Z) : R :=
  (- 75 * s (k - 1)%Z (j - 1)%Z (i - 1)%Z + 750 * s (k - 1)%Z (j - 1)%Z i + 125 * s (k - 1)%Z (j - 1)%Z (i + 1)%Z
    - 450 * s (k - 1)%Z j (i - 1)%Z + 4500 * s (k - 1)%Z j i + 750 * s (k - 1)%Z j (i + 1)%Z
    + 45 * s (k - 1)%Z (j + 1)%Z (i - 1)%Z - 450 * s (k - 1)%Z (j + 1)%Z i - 75 * s (k - 1)%Z (j + 1)%Z (i + 1)%Z
    - 450 * s k (j - 1)%Z (i - 1)%Z + 4500 * s k (j - 1)%Z i + 750 * s k (j - 1)%Z (i + 1)%Z
    - 2700 * s k j (i - 1)%Z + 27000 * s k j i + 4500 * s k j (i + 1)%Z
    + 270 * s k (j + 1)%Z (i - 1)%Z - 2700 * s k (j + 1)%Z i - 450 * s k (j + 1)%Z (i + 1)%Z
    + 45 * s (k + 1)%Z (j - 1)%Z (i - 1)%Z - 450 * s (k + 1)%Z (j - 1)%Z i - 75 * s (k + 1)%Z (j - 1)%Z (i + 1)%Z
    + 270 * s (k + 1)%Z j (i - 1)%Z - 2700 * s (k + 1)%Z j i - 450 * s (k + 1)%Z j (i + 1)%Z
    - 27 * s (k + 1)%Z (j + 1)%Z (i - 1)%Z + 270 * s (k + 1)%Z (j + 1)%Z i + 45 * s (k + 1)%Z (j + 1)%Z (i + 1)%Z) / 32768.
Definition tricubic_010 (s : arr) (k j i : Z) : R :=
  (- 75 * s (k - 1)%Z (j - 1)%Z (i - 1)%Z - 450 * s (k - 1)%Z (j - 1)%Z i + 45 * s (k - 1)%Z (j - 1)%Z (i + 1)%Z
    + 750 * s (k - 1)%Z j (i - 1)%Z + 4500 * s (k - 1)%Z j i - 450 * s (k - 1)%Z j (i + 1)%Z
    + 125 * s (k - 1)%Z (j + 1)%Z (i - 1)%Z + 750 * s (k - 1)%Z (j + 1)%Z i - 75 * s (k - 1)%Z (j + 1)%Z (i + 1)%Z
    - 450 * s k (j - 1)%Z (i - 1)%Z - 2700 * s k (j - 1)%Z i + 270 * s k (j - 1)%Z (i + 1)%Z
    + 4500 * s k j (i - 1)%Z + 27000 * s k j i - 2700 * s k j (i + 1)%Z
    + 750 * s k (j + 1)%Z (i - 1)%Z + 4500 * s k (j + 1)%Z i - 450 * s k (j + 1)%Z (i + 1)%Z
    + 45 * s (k + 1)%Z (j - 1)%Z (i - 1)%Z + 270 * s (k + 1)%Z (j - 1)%Z i - 27 * s (k + 1)%Z (j - 1)%Z (i + 1)%Z
    - 450 * s (k + 1)%Z j (i - 1)%Z - 2700 * s (k + 1)%Z j i + 270 * s (k + 1)%Z j (i + 1)%Z
    - 75 * s (k + 1)%Z (j + 1)%Z (i - 1)%Z - 450 * s (k + 1)%Z (j + 1)%Z i + 45 * s (k + 1)%Z (j + 1)%Z (i + 1)%Z) / 32768.
Definition tricubic_011 (s : arr) (k j i : Z) : R :=
  (45 * s (k - 1)%Z (j - 1)%Z (i - 1)%Z - 450 * s (k - 1)%Z (j - 1)%Z i - 75 * s (k - 1)%Z (j - 1)%Z (i + 1)%Z
    - 450 * s (k - 1)%Z j (i - 1)%Z + 4500 * s (k - 1)%Z j i + 750 * s (k - 1)%Z j (i + 1)%Z
    - 75 * s (k - 1)%Z (j + 1)%Z (i - 1)%Z + 750 * s (k - 1)%Z (j + 1)%Z i + 125 * s (k - 1)%Z (j + 1)%Z (i + 1)%Z
    + 270 * s k (j - 1)%Z (i - 1)%Z - 2700 * s k (j - 1)%Z i - 450 * s k (j - 1)%Z (i + 1)%Z
    - 2700 * s k j (i - 1)%Z + 27000 * s k j i + 4500 * s k j (i + 1)%Z
    - 450 * s k (j + 1)%Z (i - 1)%Z + 4500 * s k (j + 1)%Z i + 750 * s k (j + 1)%Z (i + 1)%Z
    - 27 * s (k + 1)%Z (j - 1)%Z (i - 1)%Z + 270 * s (k + 1)%Z (j - 1)%Z i + 45 * s (k + 1)%Z (j - 1)%Z (i + 1)%Z
    + 270 * s (k + 1)%Z j (i - 1)%Z - 2700 * s (k + 1)%Z j i - 450 * s (k + 1)%Z j (i + 1)%Z
    + 45 * s (k + 1)%Z (j + 1)%Z (i - 1)%Z - 450 * s (k + 1)%Z (j + 1)%Z i - 75 * s (k + 1)%Z (j + 1)%Z (i + 1)%Z) / 32768.
Definition tricubic_100 (s : arr) (k j i : Z) : R :=
  (- 75 * s (k - 1)%Z (j - 1)%Z (i - 1)%Z - 450 * s (k - 1)%Z (j - 1)%Z i + 45 * s (k - 1)%Z (j - 1)%Z (i + 1)%Z
    - 450 * s (k - 1)%Z j (i - 1)%Z - 2700 * s (k - 1)%Z j i + 270 * s (k - 1)%Z j (i + 1)%Z
    + 45 * s (k - 1)%Z (j + 1)%Z (i - 1)%Z + 270 * s (k - 1)%Z (j + 1)%Z i - 27 * s (k - 1)%Z (j + 1)%Z (i + 1)%Z
    + 750 * s k (j - 1)%Z (i - 1)%Z + 4500 * s k (j - 1)%Z i - 450 * s k (j - 1)%Z (i + 1)%Z
    + 4500 * s k j (i - 1)%Z + 27000 * s k j i - 2700 * s k j (i + 1)%Z
    - 450 * s k (j + 1)%Z (i - 1)%Z - 2700 * s k (j + 1)%Z i + 270 * s k (j + 1)%Z (i + 1)%Z
    + 125 * s (k + 1)%Z (j - 1)%Z (i - 1)%Z + 750 * s (k + 1)%Z (j - 1)%Z i - 75 * s (k + 1)%Z (j - 1)%Z (i + 1)%Z
    + 750 * s (k + 1)%Z j (i - 1)%Z + 4500 * s (k + 1)%Z j i - 450 * s (k + 1)%Z j (i + 1)%Z
    - 75 * s (k + 1)%Z (j + 1)%Z (i - 1)%Z - 450 * s (k + 1)%Z (j + 1)%Z i + 45 * s (k + 1)%Z (j + 1)%Z (i + 1)%Z) / 32768.
Definition tricubic_101 (s : arr) (k j i : Z) : R :=
  (45 * s (k - 1)%Z (j - 1)%Z (i - 1)%Z - 450 * s (k - 1)%Z (j - 1)%Z i - 75 * s (k - 1)%Z (j - 1)%Z (i + 1)%Z
    + 270 * s (k - 1)%Z j (i - 1)%Z - 2700 * s (k - 1)%Z j i - 450 * s (k - 1)%Z j (i + 1)%Z
    - 27 * s (k - 1)%Z (j + 1)%Z (i - 1)%Z + 270 * s (k - 1)%Z (j + 1)%Z i + 45 * s (k - 1)%Z (j + 1)%Z (i + 1)%Z
    - 450 * s k (j - 1)%Z (i - 1)%Z + 4500 * s k (j - 1)%Z i + 750 * s k (j - 1)%Z (i + 1)%Z
    - 2700 * s k j (i - 1)%Z + 27000 * s k j i + 4500 * s k j (i + 1)%Z
    + 270 * s k (j + 1)%Z (i - 1)%Z - 2700 * s k (j + 1)%Z i - 450 * s k (j + 1)%Z (i + 1)%Z
    - 75 * s (k + 1)%Z (j - 1)%Z (i - 1)%Z + 750 * s (k + 1)%Z (j - 1)%Z i + 125 * s (k + 1)%Z (j - 1)%Z (i + 1)%Z
    - 450 * s (k + 1)%Z j (i - 1)%Z + 4500 * s (k + 1)%Z j i + 750 * s (k + 1)%Z j (i + 1)%Z
    + 45 * s (k + 1)%Z (j + 1)%Z (i - 1)%Z - 450 * s (k + 1)%Z (j + 1)%Z i - 75 * s (k + 1)%Z (j + 1)%Z (i + 1)%Z) / 32768.
Definition tricubic_110 (s : arr) (k j i : Z) : R :=
  (45 * s (k - 1)%Z (j - 1)%Z (i - 1)%Z + 270 * s (k - 1)%Z (j - 1)%Z i - 27 * s (k - 1)%Z (j - 1)%Z (i + 1)%Z
    - 450 * s (k - 1)%Z j (i - 1)%Z - 2700 * s (k - 1)%Z j i + 270 * s (k - 1)%Z j (i + 1)%Z
    - 75 * s (k - 1)%Z (j + 1)%Z (i - 1)%Z - 450 * s (k - 1)%Z (j + 1)%Z i + 45 * s (k - 1)%Z (j + 1)%Z (i + 1)%Z
    - 450 * s k (j - 1)%Z (i - 1)%Z - 2700 * s k (j - 1)%Z i + 270 * s k (j - 1)%Z (i + 1)%Z
    + 4500 * s k j (i - 1)%Z + 27000 * s k j i - 2700 * s k j (i + 1)%Z
    + 750 * s k (j + 1)%Z (i - 1)%Z + 4500 * s k (j + 1)%Z i - 450 * s k (j + 1)%Z (i + 1)%Z
    - 75 * s (k + 1)%Z (j - 1)%Z (i - 1)%Z - 450 * s (k + 1)%Z (j - 1)%Z i + 45 * s (k + 1)%Z (j - 1)%Z (i + 1)%Z
    + 750 * s (k + 1)%Z j (i - 1)%Z + 4500 * s (k + 1)%Z j i - 450 * s (k + 1)%Z j (i + 1)%Z
    + 125 * s (k + 1)%Z (j + 1)%Z (i - 1)%Z + 750 * s (k + 1)%Z (j + 1)%Z i - 75 * s (k + 1)%Z (j + 1)%Z (i + 1)%Z) / 32768.
Definition tricubic_111 (s : arr) (k j i : Z) : R :=
  (- 27 * s (k - 1)%Z (j - 1)%Z (i - 1)%Z + 270 * s (k - 1)%Z (j - 1)%Z i + 45 * s (k - 1)%Z (j - 1)%Z (i + 1)%Z
    + 270 * s (k - 1)%Z j (i - 1)%Z - 2700 * s (k - 1)%Z j i - 450 * s (k - 1)%Z j (i + 1)%Z
    + 45 * s (k - 1)%Z (j + 1)%Z (i - 1)%Z - 450 * s (k - 1)%Z (j + 1)%Z i - 75 * s (k - 1)%Z (j + 1)%Z (i + 1)%Z
    + 270 * s k (j - 1)%Z (i - 1)%Z - 2700 * s k (j - 1)%Z i - 450 * s k (j - 1)%Z (i + 1)%Z
    - 2700 * s k j (i - 1)%Z + 27000 * s k j i + 4500 * s k j (i + 1)%Z
    - 450 * s k (j + 1)%Z (i - 1)%Z + 4500 * s k (j + 1)%Z i + 750 * s k (j + 1)%Z (i + 1)%Z
    + 45 * s (k + 1)%Z (j - 1)%Z (i - 1)%Z - 450 * s (k + 1)%Z (j - 1)%Z i - 75 * s (k + 1)%Z (j - 1)%Z (i + 1)%Z
    - 450 * s (k + 1)%Z j (i - 1)%Z + 4500 * s (k + 1)%Z j i + 750 * s (k + 1)%Z j (i + 1)%Z
    - 75 * s (k + 1)%Z (j + 1)%Z (i - 1)%Z + 750 * s (k + 1)%Z (j + 1)%Z i + 125 * s (k + 1)%Z (j + 1)%Z (i + 1)%Z) / 32768.
Definition trilinear_000 (s : arr) (k j i : Z) : R :=
  0.015625 * (27 * s k j i + s (k - 1)%Z (j - 1)%Z (i - 1)%Z + 9 * (s k j (i - 1)%Z + s k (j - 1)%Z i + s (k - 1)%Z j i) + 3 * (s (k - 1)%Z (j - 1)%Z i + s (k - 1)%Z j (i - 1)%Z + s k (j - 1)%Z (i - 1)%Z)).
Definition trilinear_001 (s : arr) (k j i : Z) : R :=
  0.015625 * (27 * s k j i + s (k - 1)%Z (j - 1)%Z (i + 1)%Z + 9 * (s k j (i + 1)%Z + s k (j - 1)%Z i + s (k - 1)%Z j i) + 3 * (s (k - 1)%Z (j - 1)%Z i + s (k - 1)%Z j (i + 1)%Z + s k (j - 1)%Z (i + 1)%Z)).
Definition trilinear_010 (s : arr) (k j i : Z) : R :=
  0.015625 * (27 * s k j i + s (k - 1)%Z (j + 1)%Z (i - 1)%Z + 9 * (s k j (i - 1)%Z + s k (j + 1)%Z i + s (k - 1)%Z j i) + 3 * (s (k - 1)%Z (j + 1)%Z i + s (k - 1)%Z j (i - 1)%Z + s k (j + 1)%Z (i - 1)%Z)).
Definition trilinear_011 (s : arr) (k j i : Z) : R :=
  0.015625 * (27 * s k j i + s (k - 1)%Z (j + 1)%Z (i + 1)%Z + 9 * (s k j (i + 1)%Z + s k (j + 1)%Z i + s (k - 1)%Z j i) + 3 * (s (k - 1)%Z (j + 1)%Z i + s (k - 1)%Z j (i + 1)%Z + s k (j + 1)%Z (i + 1)%Z)).
Definition trilinear_100 (s : arr) (k j i : Z) : R :=
  0.015625 * (27 * s k j i + s (k + 1)%Z (j - 1)%Z (i - 1)%Z + 9 * (s k j (i - 1)%Z + s k (j - 1)%Z i + s (k + 1)%Z j i) + 3 * (s (k + 1)%Z (j - 1)%Z i + s (k + 1)%Z j (i - 1)%Z + s k (j - 1)%Z (i - 1)%Z)).
Definition trilinear_101 (s : arr) (k j i : Z) : R :=
  0.015625 * (27 * s k j i + s (k + 1)%Z (j - 1)%Z (i + 1)%Z + 9 * (s k j (i + 1)%Z + s k (j - 1)%Z i + s (k + 1)%Z j i) + 3 * (s (k + 1)%Z (j - 1)%Z i + s (k + 1)%Z j (i + 1)%Z + s k (j - 1)%Z (i + 1)%Z)).
Definition trilinear_110 (s : arr) (k j i : Z) : R :=
  0.015625 * (27 * s k j i + s (k + 1)%Z (j + 1)%Z (i - 1)%Z + 9 * (s k j (i - 1)%Z + s k (j + 1)%Z i + s (k + 1)%Z j i) + 3 * (s (k + 1)%Z (j + 1)%Z i + s (k + 1)%Z j (i - 1)%Z + s k (j + 1)%Z (i - 1)%Z)).
Definition trilinear_111 (s : arr) (k j i : Z) : R :=
  0.015625 * (27 * s k j i + s (k + 1)%Z (j + 1)%Z (i + 1)%Z + 9 * (s k j (i + 1)%Z + s k (j + 1)%Z i + s (k + 1)%Z j i) + 3 * (s (k + 1)%Z (j + 1)%Z i + s (k + 1)%Z j (i + 1)%Z + s k (j + 1)%Z (i + 1)%Z)).
(** 801-948: the child (fk, fj, fi) = (2(k-kl)+fkl, ...) of the coarse cell (k,j,i), here with all lower limits 1: fine index f belongs to coarse index 1 + (f-1)/2 and is the upper child if f-1 is odd. *)
Definition child (tricubic : bool) (ok oj oi : bool) : arr -> Z -> Z -> Z -> R :=
  match ok, oj, oi with
  | false, false, false => if tricubic then tricubic_000 else trilinear_000
  | false, false, true => if tricubic then tricubic_001 else trilinear_001
  | false, true, false => if tricubic then tricubic_010 else trilinear_010
  | false, true, true => if tricubic then tricubic_011 else trilinear_011
  | true, false, false => if tricubic then tricubic_100 else trilinear_100
  | true, false, true => if tricubic then tricubic_101 else trilinear_101
  | true, true, false => if tricubic then tricubic_110 else trilinear_110
  | true, true, true => if tricubic then tricubic_111 else trilinear_111
  end.
Definition coarse_index (f : Z) : Z := (1 + (f - 1) / 2)%Z.
Definition upper (f : Z) : bool := Z.odd (f - 1).
Definition prolonged (tricubic : bool) (src : arr) (fk fj fi : Z) : R :=
  child tricubic (upper fk) (upper fj) (upper fi) src (coarse_index fk) (coarse_index fj) (coarse_index fi).
(** Is the coarse cell of a fine cell in the range of the loops? *)
Definition has_parent (c : grid) (fk fj fi : Z) : bool := inside c (coarse_index fk) (coarse_index fj) (coarse_index fi).
Definition ProlongateAndCorrect (tricubic : bool) (c : grid) (src dst : arr) : arr :=
  fun k j i => if has_parent c k j i then dst k j i + prolonged tricubic src k j i else dst k j i.
(** 958-1062. *)
Definition FMGProlongate (c : grid) (src dst : arr) : arr :=
  fun k j i => if has_parent c k j i then prolonged true src k j i else dst k j i.

(** ** Sums and norms: multigrid.cpp 630-719 *)
Definition grid_sum (g : grid) (f : arr) : R :=
  fold_left (fun s k => fold_left (fun s j => fold_left (fun s i => s + f k j i) (upto 1 (gx g)) s) (upto 1 (gy g)) s) (upto 1 (gz g)) 0.
(** 678-698 (cubic cells: dx = dy = dz). *)
Definition CalculateTotal (g : grid) (f : arr) : R := grid_sum g f * dx g * dx g * dx g.
(** 630-672 (defscale_ = 1, line 34). *)
Definition norm_max (g : grid) (d : arr) : R :=
  fold_left (fun s k => fold_left (fun s j => fold_left (fun s i => Rmax s (Rabs (d k j i))) (upto 1 (gx g)) s) (upto 1 (gy g)) s) (upto 1 (gz g)) 0.
Definition norm_l1 (g : grid) (d : arr) : R := grid_sum g (fun k j i => Rabs (d k j i)) * dx g * dx g * dx g.
Definition norm_l2 (g : grid) (d : arr) : R := grid_sum g (fun k j i => d k j i * d k j i) * dx g * dx g * dx g.
(** multigrid_driver.cpp 1085-1118 for the whole domain; vol is its volume. *)
Definition volume (g : grid) : R := (IZR (gx g) * dx g) * (IZR (gy g) * dx g) * (IZR (gz g) * dx g).
Definition defect_norm (g : grid) (u src : arr) : R := sqrt (norm_l2 g (CalculateDefect g u src (fun _ _ _ => 0)) / volume g).
(** 703-719: the whole array of the finest level (see [solve_coarsest] for which level that is). *)
Definition SubtractAverage (g : grid) (ave : R) (u : arr) : arr := fun k j i => if boxed g k j i then u k j i - ave else u k j i.

(** ** Boundary conditions: mgbval_periodic.cpp, mgbval_zerofixed.cpp, mgbval_zerograd.cpp; [Fixed phi] has the form of mgbval_multipole.cpp (e.g. 55: dst = 2 phis - dst) with the potential at the face
    as a function of the two other indices; user functions of this form are allowed too. *)
Inductive mgbc := Periodic | ZeroFixed | ZeroGrad | Fixed (phi : Z -> Z -> R).
Record bcset := mkBC { ix1 : mgbc; ox1 : mgbc; ix2 : mgbc; ox2 : mgbc; ix3 : mgbc; ox3 : mgbc }.
(** The ghost value from the nearest active cell and the active cell at the other end. *)
Definition ghost (b : mgbc) (near far : R) (a c : Z) : R :=
  match b with Periodic => far | ZeroFixed => - near | ZeroGrad => near | Fixed phi => 2 * phi a c - near end.
Definition set_ix1 (g : grid) (b : mgbc) (u : arr) : arr := fun k j i =>
  if Z.eqb i 0 && within 1 (gy g) j && within 1 (gz g) k then ghost b (u k j 1%Z) (u k j (gx g)) k j else u k j i.
Definition set_ox1 (g : grid) (b : mgbc) (u : arr) : arr := fun k j i =>
  if Z.eqb i (gx g + 1) && within 1 (gy g) j && within 1 (gz g) k then ghost b (u k j (gx g)) (u k j 1%Z) k j else u k j i.
Definition set_ix2 (g : grid) (b : mgbc) (u : arr) : arr := fun k j i =>
  if Z.eqb j 0 && within 0 (gx g + 1) i && within 1 (gz g) k then ghost b (u k 1%Z i) (u k (gy g) i) k i else u k j i.
Definition set_ox2 (g : grid) (b : mgbc) (u : arr) : arr := fun k j i =>
  if Z.eqb j (gy g + 1) && within 0 (gx g + 1) i && within 1 (gz g) k then ghost b (u k (gy g) i) (u k 1%Z i) k i else u k j i.
Definition set_ix3 (g : grid) (b : mgbc) (u : arr) : arr := fun k j i =>
  if Z.eqb k 0 && within 0 (gx g + 1) i && within 0 (gy g + 1) j then ghost b (u 1%Z j i) (u (gz g) j i) j i else u k j i.
Definition set_ox3 (g : grid) (b : mgbc) (u : arr) : arr := fun k j i =>
  if Z.eqb k (gz g + 1) && within 0 (gx g + 1) i && within 0 (gy g + 1) j then ghost b (u (gz g) j i) (u 1%Z j i) j i else u k j i.
(** bvals_mg.cpp 374-435 with all boundary functions applied. *)
Definition ApplyPhysicalBoundaries (g : grid) (b : bcset) (u : arr) : arr :=
  set_ox3 g (ox3 b) (set_ix3 g (ix3 b) (set_ox2 g (ox2 b) (set_ix2 g (ix2 b) (set_ox1 g (ox1 b) (set_ix1 g (ix1 b) u))))).
(** multigrid_driver.cpp 183-370: fsubtract_average_ and, with a multipole boundary, ffas_.  (The multipole boundary is one of the [Fixed] ones here; [multipole] tells whether there is one.) *)
Definition neutral1 (b : mgbc) : bool := match b with Periodic | ZeroGrad => true | _ => false end.
Definition neutral (b : bcset) : bool := neutral1 (ix1 b) && neutral1 (ox1 b) && neutral1 (ix2 b) && neutral1 (ox2 b) && neutral1 (ix3 b) && neutral1 (ox3 b).
Definition fsubtract_average (b : bcset) : bool := neutral b.
Definition ffas_final (ffas multipole : bool) : bool := if multipole then true else ffas.

(** ** The V-cycle: multigrid_driver.cpp 817-946, 1038-1082 *)
Record lstate := mkL { u_ : arr; src_ : arr; uold_ : arr }.
Definition hier := nat -> lstate.
Definition set_level (h : hier) (l : nat) (s : lstate) : hier := fun m => if Nat.eqb m l then s else h m.
(** The parameters of the driver: number of all levels and of the levels of the root grid, the finest grid, boundary conditions on each level, FAS or not, red-black, prolongation, relaxation parameter,
    number of smoothing steps, colour offset, subtraction of the average, and fmglevel_, the level on which the V-cycle starts. *)
Record driver := mkDr { top : grid; ntotal : nat; nroot : nat; bcs : nat -> bcset; fas : bool; redblack : bool; cubic : bool; omega : R; npre : nat; npost : nat; coffset : Z; fsub : bool; fmg : nat }.
Definition lg (d : driver) (l : nat) : grid := level (top d) (ntotal d) l.
Definition bnd (d : driver) (l : nat) (u : arr) : arr := ApplyPhysicalBoundaries (lg d l) (bcs d l) u.
(** The two colours: 851-854, 906-909 on the root grid; mg_task_list.cpp SmoothRed, SmoothBlack on the blocks. *)
Definition first_color (d : driver) (l : nat) : Z := if Nat.ltb l (nroot d) then coffset d else 0%Z.
Definition second_color (d : driver) (l : nat) : Z := if Nat.ltb l (nroot d) then (1 - coffset d)%Z else 1%Z.
Definition smooth (d : driver) (l : nat) (color : Z) (src u : arr) : arr := Smooth (lg d l) (omega d) (coffset d) color src u.
(** 905-912 (and the blocks: mg_task_list.cpp 408-506): smoothing, each followed by the boundaries. *)
Definition presmooth (d : driver) (l : nat) (src u : arr) : arr :=
  let u1 := bnd d l (smooth d l (first_color d l) src u) in if redblack d then bnd d l (smooth d l (second_color d l) src u1) else u1.
(** 849-856 (and mg_task_list.cpp 309-367): smoothing, each preceded by the boundaries. *)
Definition postsmooth (d : driver) (l : nat) (src u : arr) : arr :=
  let u1 := smooth d l (first_color d l) src (bnd d l u) in if redblack d then smooth d l (second_color d l) src (bnd d l u1) else u1.
Fixpoint times {A : Type} (n : nat) (f : A -> A) (x : A) : A := match n with O => x | S m => times m f (f x) end.
(** multigrid.cpp 387-414: RestrictBlock from level [S l] to level [l]. *)
Definition RestrictBlock (d : driver) (l : nat) (h : hier) : hier :=
  let f := h (S l) in let c := h l in
  let def := CalculateDefect (lg d (S l)) (u_ f) (src_ f) (fun _ _ _ => 0) in
  set_level h l (mkL (if fas d then Restrict (lg d l) (u_ f) (u_ c) else fun _ _ _ => 0) (Restrict (lg d l) def (src_ c)) (uold_ c)).
(** 867-917: from level [S l] to level [l]. *)
Definition OneStepToCoarser (d : driver) (l : nat) (h : hier) : hier :=
  let s := h (S l) in
  let u1 := bnd d (S l) (u_ s) in
  let s1 := if fas d && Nat.ltb (S l) (fmg d) then mkL u1 (CalculateFASRHS (lg d (S l)) u1 (src_ s)) u1 else mkL u1 (src_ s) (uold_ s) in
  let s2 := mkL (times (npre d) (presmooth d (S l) (src_ s1)) u1) (src_ s1) (uold_ s1) in
  RestrictBlock d l (set_level h (S l) s2).
(** multigrid.cpp 420-442: ProlongateAndCorrectBlock from level [l] to level [S l]. *)
Definition ProlongateAndCorrectBlock (d : driver) (l : nat) (h : hier) : hier :=
  let c := h l in let f := h (S l) in
  let corr := if fas d then (fun k j i => u_ c k j i - uold_ c k j i) else u_ c in
  let h1 := set_level h l (mkL corr (src_ c) (uold_ c)) in
  set_level h1 (S l) (mkL (ProlongateAndCorrect (cubic d) (lg d l) corr (u_ f)) (src_ f) (uold_ f)).
(** 817-860: from level [l] to level [S l]; on the finest level the boundaries are filled at the end (mg_task_list.cpp 368-383). *)
Definition OneStepToFiner (d : driver) (l : nat) (h : hier) : hier :=
  let c := h l in
  let h1 := ProlongateAndCorrectBlock d l (set_level h l (mkL (bnd d l (u_ c)) (src_ c) (uold_ c))) in
  let f := h1 (S l) in
  let u1 := times (npost d) (postsmooth d (S l) (src_ f)) (u_ f) in
  set_level h1 (S l) (mkL (if Nat.eqb (S (S l)) (ntotal d) then bnd d (S l) u1 else u1) (src_ f) (uold_ f)).
(** 1038-1082.  mgroot_->SubtractAverage (multigrid.cpp 704) acts on u_[nlevel_-1], the FINEST level of the root grid, while CalculateTotal (678) sums the current level 0. *)
Definition subtract_root (d : driver) (h : hier) : hier :=
  let ave := CalculateTotal (lg d 0) (u_ (h 0%nat)) / volume (lg d 0) in
  let r := (nroot d - 1)%nat in
  set_level h r (mkL (SubtractAverage (lg d r) ave (u_ (h r))) (src_ (h r)) (uold_ (h r))).
Definition iterations (d : driver) : Z := Z.max (gx (lg d 0)) (Z.max (gy (lg d 0)) (gz (lg d 0))).
Definition SolveCoarsestGrid (d : driver) (h : hier) : hier :=
  if fsub d && Z.eqb (iterations d) 1 then
    let s := h 0%nat in
    let s1 := if fas d then mkL (bnd d 0 (u_ s)) (src_ s) (bnd d 0 (u_ s)) else s in
    set_level h 0 (mkL (fun _ _ _ => 0) (src_ s1) (uold_ s1))
  else
    let h1 := if fsub d then subtract_root d h else h in
    let s := h1 0%nat in
    let u1 := bnd d 0 (u_ s) in
    let s1 := if fas d then mkL u1 (CalculateFASRHS (lg d 0) u1 (src_ s)) u1 else mkL u1 (src_ s) (uold_ s) in
    let h2 := set_level h1 0 (mkL (times (Z.to_nat (iterations d)) (presmooth d 0 (src_ s1)) u1) (src_ s1) (uold_ s1)) in
    if fsub d then subtract_root d h2 else h2.
(** 926-936: the loops over the levels. *)
Fixpoint down (d : driver) (l : nat) (h : hier) : hier := match l with O => h | S m => down d m (OneStepToCoarser d m h) end.
Fixpoint up (d : driver) (l : nat) (h : hier) : hier := match l with O => h | S m => OneStepToFiner d m (up d m h) end.
(** The V-cycle starts on level fmglevel_ (multigrid_driver.cpp 946-948, 424); coffset_ is its value after line 928. *)
Definition SolveVCycle (d : driver) (h : hier) : hier := up d (fmg d) (SolveCoarsestGrid d (down d (fmg d) h)).

(** ** Iteration: multigrid_driver.cpp 963-1010 for one variable; [norm] is CalculateDefectNorm(l2) of the state.  The result: the state, how it ended, and whether the slow-convergence warning was
    printed.  [None] = the fuel ran out. *)
Inductive ending := Converged | Saturated | Diverging | TooMany.
Fixpoint iterate {St : Type} (cycle : St -> St) (norm : St -> R) (eps : R) (fuel : nat) (n : Z) (def : R) (s : St) : option (St * ending) :=
  if Rlt_dec eps def then
    match fuel with
    | O => None
    | S fuel' =>
        let s1 := cycle s in let def1 := norm s1 in
        let slow := if Rlt_dec (9 / 10) (def1 / def) then true else false in
        if slow && (if Req_EM_T eps 0 then true else false) then Some (s1, Saturated)
        else if slow && (if Rlt_dec 1 (def1 / def) then true else false) then Some (s1, Diverging)
        else if Z.ltb 100 n then Some (s1, TooMany)
        else iterate cycle norm eps fuel' (n + 1) def1 s1
    end
  else Some (s, Converged).
Definition SolveIterative {St : Type} (cycle : St -> St) (norm : St -> R) (eps : R) (fuel : nat) (s : St) : option (St * ending) := iterate cycle norm eps fuel 0 (norm s) s.
