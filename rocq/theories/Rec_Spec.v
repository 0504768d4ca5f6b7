(** What the reconstruction properties say; no reference to how states are computed. *)
From Coq Require Import Reals ZArith.
From Verif Require Import Rec_Model.
Local Open Scope R_scope.

(** x lies between a and b, in either order. *)
Definition between (a b x : R) : Prop := Rmin a b <= x <= Rmax a b.
(** The pair (state at the upper face, state at the lower face) of cell i lies between the cell and its neighbours. *)
Definition bounded (q : line) (i : Z) (s : R * R) : Prop := between (q i) (q (i + 1)%Z) (fst s) /\ between (q (i - 1)%Z) (q i) (snd s).
(** Cell centres lie inside their cells, around cell i. *)
Definition mesh (xf xv : line) (i : Z) : Prop := forall m, (i - 1 <= m <= i + 1)%Z -> xf m < xv m < xf (m + 1)%Z.
(** All cells have the same width and are centred. *)
Definition even (xf xv : line) : Prop := exists h, 0 < h /\ forall m, xf (m + 1)%Z = xf m + h /\ xv m = xf m + h / 2.
(** The centre of a neighbour is at least half the distance from centre to face beyond the face. *)
Definition smooth (xf xv : line) (i : Z) : Prop :=
  (xf (i + 1)%Z - xv i) / 2 <= xv (i + 1)%Z - xf (i + 1)%Z /\ (xv i - xf i) / 2 <= xf i - xv (i - 1)%Z.
(** The line seen from the other end: cell m becomes cell -m. *)
Definition flip (q : line) : line := fun m => q (- m)%Z.
(** The same for a mesh: face m (below cell m) becomes the face above cell -m, positions change sign. *)
Definition flip_f (xf : line) : line := fun m => - xf (- m + 1)%Z.
Definition flip_v (xv : line) : line := fun m => - xv (- m)%Z.
Definition swap (s : R * R) : R * R := (snd s, fst s).
Definition all_positive (dx : line) : Prop := forall m, 0 < dx m.
Definition monotone (q : line) (i : Z) : Prop :=
  (q (i - 2)%Z <= q (i - 1)%Z <= q i /\ q i <= q (i + 1)%Z <= q (i + 2)%Z) \/ (q (i + 2)%Z <= q (i + 1)%Z <= q i /\ q i <= q (i - 1)%Z <= q (i - 2)%Z).
(** Average over the cell [a, b] of x^p with the volume element x^m dx. *)
Definition mean (m p : nat) (a b : R) : R := INR (m + 1) / INR (p + m + 1) * (b ^ (p + m + 1) - a ^ (p + m + 1)) / (b ^ (m + 1) - a ^ (m + 1)).
Definition cubic (a0 a1 a2 a3 x : R) : R := a0 + a1 * x + a2 * x ^ 2 + a3 * x ^ 3.
(** Cell averages of a cubic. *)
Definition cubic_means (m : nat) (xf : line) (a0 a1 a2 a3 : R) : line := fun i =>
  a0 * mean m 0 (xf i) (xf (i + 1)%Z) + a1 * mean m 1 (xf i) (xf (i + 1)%Z) + a2 * mean m 2 (xf i) (xf (i + 1)%Z) + a3 * mean m 3 (xf i) (xf (i + 1)%Z).
