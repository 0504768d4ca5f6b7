(** Small specification for C54. *)
From Coq Require Import Reals ZArith List.
From Verif Require Import Fv_Model Fv_Spec Rec_Model Rec_Spec.
Local Open Scope R_scope.

(** A function on the cells of a ring of N cells. *)
Definition periodic (N : Z) (g : Z -> R) : Prop := forall x, g (x + N)%Z = g x.
Definition ring_total (N : Z) (g : Z -> R) : R := sum (map g (upto 0 (N - 1))).
(** Block m of a ring of blocks of onx cells, whose first active cell has index js, holds its part of g. *)
Definition holds (onx js : Z) (u : Z -> R) (m : Z) (g : Z -> R) : Prop := forall a, (0 <= a < onx)%Z -> u (js + a)%Z = g (m * onx + a)%Z.

(** A profile inside the cells: [P x r] is the amount contained in the part [0, r] of cell x, which has unit width. *)
Definition profile := Z -> R -> R.
(** The amount in cell x after everything has moved by s cells to the right: cell x receives what was in [x - s, x + 1 - s]. *)
Definition displaced (P : profile) (s : R) (x : Z) : R :=
  let m := Int_part (IZR x - s) in
  let r := IZR x - s - IZR m in
  (P m 1 - P m r) + P (m + 1)%Z r.
(** A straight line in every cell, with the harmonic mean of the two one-sided differences as slope (zero at extrema). *)
Definition linear (g : Z -> R) : profile := fun x r => g x * r + plm_slope false true (fun _ => 0) (fun _ => 0) g x * (r * r - r) / 2.
(** A parabola in every cell with the mean g x and the two limited face values. *)
Definition parabola (g : Z -> R) : profile := fun x r =>
  let (qp, qm) := PiecewiseParabolic true true false uniform_c g x in
  let u6 := 6 * (g x - (qp + qm) / 2) in
  qm * r + (qp - qm + u6) * r * r / 2 - u6 * r * r * r / 3.
Definition reconstructed (ppm : bool) (g : Z -> R) : profile := if ppm then parabola g else linear g.
(** The lines of a block carry [nh] hydrodynamic variables each, visited first, and [ns] scalars; the offset of every row in the order of the loops. *)
Definition loops (nh ns : nat) (offsets : list Z) : list Z := flat_map (fun o => repeat o nh) offsets ++ flat_map (fun o => repeat o ns) offsets.
(** The ring made of the active cells of row r of nb blocks. *)
Definition ring_of (nb onx js : Z) (st : Z -> nat -> Z -> R) (r : nat) : Z -> R := fun x => st ((x / onx) mod nb)%Z r (js + x mod onx)%Z.
(** The sum of row r over all active cells of all blocks. *)
Definition blocks_total (nb onx js : Z) (st : Z -> nat -> Z -> R) (r : nat) : R := sum (map (fun m => sum (map (st m r) (upto js (js + onx - 1)))) (upto 0 (nb - 1))).
