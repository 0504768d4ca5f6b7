(** Angular grids of the radiation module, src/nr_radiation/angulargrid.cpp and src/utils/permutation.cpp, exact arithmetic: angle_flag 0 in two and three dimensions and angle_flag 1
    in three dimensions without polar angles.  Every cell gets the same directions; the axes are named by axisx, axisy, axisz and ConvertAngle leaves the directions alone in Cartesian
    coordinates.  Not modelled: Gauss-Legendre angles in one dimension, angle_flag 10, the changes ConvertAngle makes in curvilinear coordinates. *)
From Coq Require Import Reals List Bool Arith.
From Verif Require Import Lud_Model.
Import ListNotations.
Local Open Scope R_scope.

Definition triple := (nat * nat * nat)%type.
(** pl(l,m), m = 0, 1, 2. *)
Definition at3 (p : triple) (m : nat) : nat := let '(a, b, c) := p in match m with O => a | S O => b | _ => c end.
(** The three nested loops of permutation.cpp 21-40 over the positions m, n, o for one row of the table. *)
Definition matches (p : triple) (i j k : nat) : bool :=
  existsb (fun m => (i =? at3 p m) && existsb (fun n => negb (n =? m) && (j =? at3 p n) && existsb (fun o => negb (o =? m) && negb (o =? n) && (k =? at3 p o)) (seq 0 3)) (seq 0 3)) (seq 0 3).
(** Permutation, permutation.cpp 19-42: the last row that matches, None for -1. *)
Definition Permutation (i j k : nat) (pl : list triple) : option nat :=
  fold_left (fun ip l => if matches (nth l pl (0, 0, 0)%nat) i j k then Some l else ip) (seq 0 (length pl)) None.

(** The directions of an octant in the order of the loops, angulargrid.cpp 113-116. *)
Definition triples (nmu : nat) : list triple :=
  flat_map (fun i => flat_map (fun j => flat_map (fun k => if (i + j + k =? nmu - 1)%nat then [(i, j, k)] else []) (seq 0 nmu)) (seq 0 nmu)) (seq 0 nmu).
(** Families: the table pl (np is its length), the labels plab of the directions so far and pmat, 122-133. *)
Definition family (st : list triple * list nat * mat) (t : triple) : list triple * list nat * mat :=
  let '(pl, plab, pmat) := st in let '(i, j, k) := t in
  match Permutation i j k pl with
  | None => let np := length pl in (pl ++ [(i, j, k)], plab ++ [np], set2 pmat i np (pmat i np + 1))
  | Some ip => (pl, plab ++ [ip], set2 pmat i ip (pmat i ip + 1))
  end.
Definition families (nmu : nat) : list triple * list nat * mat := fold_left family (triples nmu) ([], [], fun _ _ => 0).

(** mu2tmp, 78-82. *)
Definition deltamu (nmu : nat) : R := 2 / INR (2 * nmu - 1).
Fixpoint mu2tmp (nmu i : nat) : R := match i with O => 1 / (3 * INR (2 * nmu - 1)) | S m => mu2tmp nmu m + deltamu nmu end.
(** w2 before the square root is taken for entry i, 84-90. *)
Fixpoint w2 (nmu i : nat) : R := match i with O => 4 * mu2tmp nmu 0 | S m => w2 nmu m + deltamu nmu end.
(** wsum2 after the loop, 85-92, and wtmp2, 86-95. *)
Definition wsum2 (nmu : nat) : R := fold_left (fun s i => s + sqrt (w2 nmu i)) (seq 1 (nmu - 3)) (sqrt (w2 nmu 0)).
Definition wtmp2 (nmu i : nat) : R := if (2 <? nmu)%nat && (i =? nmu - 2)%nat then 2 * INR (nmu - 1) / 3 - wsum2 nmu else sqrt (w2 nmu i).
(** wtmp below nmu-1, 97-102; the entry nmu-1 (line 103) is not used later. *)
Definition wtmp (nmu i : nat) : R := match i with O => wtmp2 nmu 0 | S m => wtmp2 nmu i - wtmp2 nmu m end.

(** The weights of the directions of an octant before they are divided by the number of octants, 140-150.  None: an array is accessed outside its bounds or the matrix is singular.
    wtmp2 and wpf have nmu-1 entries; with nmu 1 line 86 writes to an array without entries. *)
Definition octant_weights (nmu : nat) (indx0 : nat -> nat) : option (list R) :=
  if (nmu <? 2)%nat then None else
  let '(_, plab, pmat) := families nmu in
  if forallb (fun l => l <? nmu - 1)%nat plab then
    match InverseMatrix (nmu - 1) pmat indx0 with
    | None => None
    | Some pinv => let wpf := MatrixMult (nmu - 1) pinv (wtmp nmu) in Some (map wpf plab)
    end
  else None.
(** mutmp, 118-120. *)
Definition mutmp (nmu : nat) (t : triple) : R * R * R := let '(i, j, k) := t in (sqrt (mu2tmp nmu j), sqrt (mu2tmp nmu k), sqrt (mu2tmp nmu i)).
Definition flip (b : bool) (x : R) : R := if b then - x else x.
Definition octant (j k l : bool) (d : R * R * R) : R * R * R := let '(x, y, z) := d in (flip l x, flip k y, flip j z).
Definition octants : list (bool * bool * bool) := [(false, false, false); (false, false, true); (false, true, false); (false, true, true); (true, false, false); (true, false, true); (true, true, false); (true, true, true)].
(** AngularGrid(0, nmu) in three dimensions, 200-236: directions (along axisx, axisy, axisz) and weights. *)
Definition AngularGrid3 (nmu : nat) (indx0 : nat -> nat) : option (list ((R * R * R) * R)) :=
  match octant_weights nmu indx0 with
  | None => None
  | Some w => Some (flat_map (fun '(j, k, l) => map (fun '(t, x) => (octant j k l (mutmp nmu t), x * (125 / 1000))) (combine (triples nmu) w)) octants)
  end.
(** In two dimensions, 172-199: quadrants, and no component along the third axis is stored. *)
Definition quadrants : list (bool * bool) := [(false, false); (false, true); (true, false); (true, true)].
Definition AngularGrid2 (nmu : nat) (indx0 : nat -> nat) : option (list ((R * R) * R)) :=
  match octant_weights nmu indx0 with
  | None => None
  | Some w => Some (flat_map (fun '(j, k) => map (fun '(t, x) => (let '(a, b, _) := mutmp nmu t in (flip k a, flip j b), x * (25 / 100))) (combine (triples nmu) w)) quadrants)
  end.

(** ** angle_flag 1 *)
(** coszeta_f, 337-344. *)
Definition coszeta_f (nzeta i : nat) : R :=
  let below i := match i with O => 1 | _ => 1 - INR i * (1 / INR nzeta) end in
  if (i <? nzeta)%nat then below i else if (i =? nzeta)%nat then 0 else - below (2 * nzeta - i)%nat.
(** coszeta_v, 346-360. *)
Definition coszeta_v (nzeta i : nat) : R :=
  let below i := (1 / 2) * (coszeta_f nzeta i + coszeta_f nzeta (i + 1)) * (2 * INR nzeta / sqrt (4 * INR nzeta * INR nzeta - 1)) in
  if (i <? nzeta)%nat then below i else - below (2 * nzeta - i - 1)%nat.
(** psi_v, 439-445. *)
Definition psi_v (npsi i : nat) : R :=
  let below i := (INR i + 1 / 2) * (PI / INR npsi) in if (i <? npsi)%nat then below i else 2 * PI - below (2 * npsi - i - 1)%nat.
(** nang in three dimensions, radiation.cpp 170-172 and 195: the division of integers drops the remainder. *)
Definition nang3 (nzeta npsi : nat) : nat := (nzeta * npsi / 2 * 8)%nat.
(** AngularGrid(1, nzeta, npsi) in three dimensions, 565-595.  None when direction ang_num = n*(2*npsi)+m is written outside mu. *)
Definition AngularGridPsi (nzeta npsi : nat) : option (list ((R * R * R) * R)) :=
  if (2 * nzeta * (2 * npsi) <=? nang3 nzeta npsi)%nat then
    Some (flat_map (fun n => map (fun m => let s := sqrt (1 - coszeta_v nzeta n * coszeta_v nzeta n) in
      ((s * cos (psi_v npsi m), s * sin (psi_v npsi m), coszeta_v nzeta n), 1 / INR (nang3 nzeta npsi))) (seq 0 (2 * npsi))) (seq 0 (2 * nzeta)))
  else None.
