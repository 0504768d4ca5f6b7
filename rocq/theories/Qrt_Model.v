(** FouthPolyRoot, src/utils/fourth_polynomial_root.cpp, exact arithmetic.  Implicit radiation source terms take the new gas temperature from it. *)
From Coq Require Import Reals Bool.
From Verif Require Import Time_Model.
Local Open Scope R_scope.

(** BIG_NUMBER, defs.hpp.in 147. *)
Definition BIG_NUMBER : R := 10 ^ 10.
(** std::pow of a base that is not negative with an exponent that is not 0: pow(0, y) is 0 for positive y. *)
Definition pow_ (x y : R) : R := if Req_EM_T x 0 then 0 else Rpower x y.
(** fourth_polynomial_root.cpp 22-60.  None is the return value -1 (the argument root may or may not have been assigned then), Some x the return value 0 with root
    set to x.  Simplification: the tests root != root and zroot != zroot for a value that is not a number are left out, every real number equals itself.
    std::sqrt is only called with numbers that are not negative. *)
Definition FouthPolyRoot (coef4 tconst : R) : option R :=
  let ccubic := tconst * tconst * tconst in
  let delta1 := 25 / 100 - 64 * ccubic * coef4 / 27 in
  if ltR delta1 0 then None else
  let delta1 := sqrt delta1 in
  if ltR delta1 (1 / 2) then None else
  let zroot := if ltR BIG_NUMBER delta1 then pow_ delta1 (- (2 / 3)) / 3
               else pow_ (1 / 2 + delta1) (1 / 3) - pow_ (- (1 / 2) + delta1) (1 / 3) in
  if ltR zroot 0 then None else
  let zroot := zroot * pow_ coef4 (- (2 / 3)) in
  let rcoef := sqrt zroot in
  let delta2 := - zroot + 2 / (coef4 * rcoef) in
  if ltR delta2 0 then None else
  let delta2 := sqrt delta2 in
  let root := (1 / 2) * (delta2 - rcoef) in
  if ltR root 0 then None else Some root.
