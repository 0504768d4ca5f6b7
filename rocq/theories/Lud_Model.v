(** Linear systems and rotations, src/utils/matrix_mult.cpp and rotate_vectors.cpp, exact arithmetic.  Arrays are functions of their indices; in the loops a loop variable
    only takes values inside the arrays, which are allocated with at least n entries in each dimension. *)
From Coq Require Import Reals List Bool Arith.
From Verif Require Import Time_Model.
Import ListNotations.
Local Open Scope R_scope.

Definition vec := nat -> R.
Definition mat := nat -> nat -> R.
(** b(i) = v, a(i,j) = v. *)
Definition set1 {A} (b : nat -> A) (i : nat) (v : A) : nat -> A := fun r => if r =? i then v else b r.
Definition set2 (a : mat) (i j : nat) (v : R) : mat := fun r c => if (r =? i) && (c =? j) then v else a r c.
Definition isZ (x : R) : bool := if Req_EM_T x 0 then true else false.
(** TINY_NUMBER, defs.hpp.in 146. *)
Definition TINY_NUMBER : R := / 10 ^ 20.

(** MatrixMult, matrix_mult.cpp 24-34: the entry c(i). *)
Definition MatrixMult (n : nat) (a : mat) (b : vec) : vec := fun i => fold_left (fun s j => s + a i j * b j) (seq 0 n) 0.

(** The largest magnitude in a row, 90-93. *)
Definition row_big (n : nat) (a : mat) (i : nat) : R := fold_left (fun big j => if ltR big (Rabs (a i j)) then Rabs (a i j) else big) (seq 0 n) 0.
(** Implicit scaling, 89-100.  None is the exception for a row of zeros. *)
Definition scaling (n : nat) (a : mat) : option vec :=
  if existsb (fun i => isZ (row_big n a i)) (seq 0 n) then None else Some (fun i => 1 / row_big n a i).
(** sum -= a(i,k)*a(k,j), k < m, starting from a(i,j); 105-110 and 116-121. *)
Definition reduced (a : mat) (i j m : nat) : R := fold_left (fun sum k => sum - a i k * a k j) (seq 0 m) (a i j).
(** Upper block, 104-112. *)
Definition upper_block (j : nat) (a : mat) : mat := fold_left (fun a i => set2 a i j (reduced a i j i)) (seq 0 j) a.
(** Lower block with the search for the pivot, 114-128: the array, big and imax. *)
Definition lower_block (n j : nat) (scale : vec) (st : mat * R * nat) : mat * R * nat :=
  fold_left (fun '(a, big, imax) i => let sum := reduced a i j j in let dum := scale i * Rabs sum in
    let a := set2 a i j sum in if leR big dum then (a, dum, i) else (a, big, imax)) (seq j (n - j)) st.
(** Row interchange, 131-135: columns below n of the rows imax and j. *)
Definition swap_rows (n p q : nat) (a : mat) : mat := fun r c => if c <? n then (if r =? p then a q c else if r =? q then a p c else a r c) else a r c.
(** Division by the pivot, 141-144. *)
Definition divide (n j : nat) (a : mat) : mat :=
  let a := if isZ (a j j) then set2 a j j TINY_NUMBER else a in
  let dum := 1 / a j j in fold_left (fun a i => set2 a i j (a i j * dum)) (seq (S j) (n - S j)) a.
(** One column of Crout's method, 102-145: array, recorded interchanges, scaling, sign d and the variable imax, which keeps its value from column to column. *)
Record lu := mkLU { la : mat; indx : nat -> nat; scale : vec; sign : R; last : nat }.
Definition column (n : nat) (s : lu) (j : nat) : lu :=
  let a := upper_block j (la s) in
  let '(a, _, imax) := lower_block n j (scale s) (a, 0, last s) in
  let sw := negb (j =? imax) in
  let a := if sw then swap_rows n imax j a else a in
  let d := if sw then - sign s else sign s in
  let sc := if sw then set1 (scale s) imax (scale s j) else scale s in
  mkLU (divide n j a) (set1 (indx s) j imax) sc d imax.
(** Ludcmp_nr, 80-146: array, interchanges and sign; the contents of indx before the call do not matter. *)
Definition Ludcmp_nr (n : nat) (a : mat) (indx0 : nat -> nat) : option lu :=
  match scaling n a with None => None | Some sc => Some (fold_left (column n) (seq 0 n) (mkLU a indx0 sc 1 0)) end.

(** Forward substitution, 165-175: the vector and ii, None for -1. *)
Definition forward_step (a : mat) (indx : nat -> nat) (st : vec * option nat) (i : nat) : vec * option nat :=
  let '(b, ii) := st in let ip := indx i in let sum := b ip in let b := set1 b ip (b i) in
  match ii with
  | Some l => (set1 b i (fold_left (fun s j => s - a i j * b j) (seq l (i - l)) sum), ii)
  | None => (set1 b i sum, if isZ sum then None else Some i)
  end.
(** Back substitution, 177-185. *)
Definition backward_step (n : nat) (a : mat) (b : vec) (i : nat) : vec :=
  set1 b i (fold_left (fun s j => s - a i j * b j) (seq (S i) (n - S i)) (b i) / a i i).
(** Lubksb_nr, 160-186. *)
Definition Lubksb_nr (n : nat) (a : mat) (indx : nat -> nat) (b : vec) : vec :=
  fold_left (backward_step n a) (rev (seq 0 n)) (fst (fold_left (forward_step a indx) (seq 0 n) (b, None))).
(** InverseMatrix, 42-62. *)
Definition InverseMatrix (n : nat) (a : mat) (indx0 : nat -> nat) : option mat :=
  match Ludcmp_nr n a indx0 with None => None | Some s => Some (fun i j => Lubksb_nr n (la s) (indx s) (fun r => if r =? j then 1 else 0) i) end.

(** RotateVec and InvRotateVec, rotate_vectors.cpp 19-71; the arguments are the sines and cosines and the vector. *)
Definition RotateVec (sint cost sinp cosp : R) (v : R * R * R) : R * R * R :=
  let '(v1, v2, v3) := v in
  let newv1 := cosp * v1 + sinp * v2 in
  let v2 := - sinp * v1 + cosp * v2 in
  let v1 := sint * newv1 + cost * v3 in
  let newv3 := - cost * newv1 + sint * v3 in (v1, v2, newv3).
Definition InvRotateVec (sint cost sinp cosp : R) (v : R * R * R) : R * R * R :=
  let '(v1, v2, v3) := v in
  let newv1 := sint * v1 - cost * v3 in
  let v3 := cost * v1 + sint * v3 in
  let v1 := cosp * newv1 - sinp * v2 in
  let newv2 := sinp * newv1 + cosp * v2 in (v1, newv2, v3).
