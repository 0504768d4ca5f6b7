(** Lookup in a two-dimensional table, src/utils/interp_table.cpp, in exact arithmetic. *)
From Coq Require Import Reals ZArith Bool.
From Verif Require Import Time_Model.
Local Open Scope R_scope.

(** interp_table.hpp 17-48; [data i j] is data(var,i,j) of one variable. *)
Record table := mkTab { nx2 : Z; nx1 : Z; data : Z -> Z -> R; x1min : R; x1norm : R; x2min : R; x2norm : R }.
(** 27-32, 35-46: SetSize, SetX1lim, SetX2lim. *)
Definition make (n2 n1 : Z) (d : Z -> Z -> R) (a2 b2 a1 b1 : R) : table := mkTab n2 n1 d a1 (IZR (n1 - 1) / (b1 - a1)) a2 (IZR (n2 - 1) / (b2 - a2)).
(** static_cast<int>(x): [None] outside the range of int (undefined behaviour). *)
Definition cast (x : R) : option Z := let z := trunc x in if Z.leb (- 2 ^ 31) z && Z.ltb z (2 ^ 31) then Some z else None.
(** 76-80 and 83-87: clamp the lower index to the table. *)
Definition clamp (i n : Z) : Z := if Z.ltb i 0 then 0%Z else if Z.leb (n - 1) i then (n - 2)%Z else i.
(** data(var,i,j): [None] outside the table. *)
Definition at_ (t : table) (i j : Z) : option R := if Z.leb 0 i && Z.ltb i (nx2 t) && Z.leb 0 j && Z.ltb j (nx1 t) then Some (data t i j) else None.
(** 67-98. *)
Definition interpolate (t : table) (x2 x1 : R) : option R :=
  let x := (x2 - x2min t) * x2norm t in
  let y := (x1 - x1min t) * x1norm t in
  match cast x, cast y with
  | Some xi, Some yi =>
    let xil := clamp xi (nx2 t) in let xrl := 1 + IZR xil - x in
    let yil := clamp yi (nx1 t) in let yrl := 1 + IZR yil - y in
    match at_ t xil yil, at_ t xil (yil + 1), at_ t (xil + 1) yil, at_ t (xil + 1) (yil + 1) with
    | Some a, Some b, Some c, Some d => Some (xrl * yrl * a + xrl * (1 - yrl) * b + (1 - xrl) * yrl * c + (1 - xrl) * (1 - yrl) * d)
    | _, _, _, _ => None
    end
  | _, _ => None
  end.
