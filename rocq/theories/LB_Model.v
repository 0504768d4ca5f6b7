(** Load balancing: Mesh::CalculateLoadBalance, src/mesh/amr_loadbalance.cpp 73-137.
    Simplifications: the warning about uneven division is not modelled; a fatal error is [None].
    The floating point operations on costs are a parameter ([arith]), so that statements that do not
    depend on rounding hold for IEEE arithmetic as well; [exactQ] is exact rational arithmetic and
    [binary64] is IEEE double precision (SpecFloat of the standard library). *)
From Coq Require Import List Arith ZArith QArith Bool SpecFloat.
Import ListNotations.
Local Open Scope nat_scope.

Record arith (C : Type) := mkA {
  zero : C; add : C -> C -> C; sub : C -> C -> C; divn : C -> nat -> C;   (* divn x n = x / (double)n *)
  ge : C -> C -> bool; is_zero : C -> bool }.
Arguments zero {C}. Arguments add {C}. Arguments sub {C}. Arguments divn {C}. Arguments ge {C}. Arguments is_zero {C}.

(** 80-84: totalcost, summed in increasing block order. *)
Fixpoint sum_up {C} (a : arith C) (cl : list C) (acc : C) : C :=
  match cl with [] => acc | c :: cl => sum_up a cl (add a acc c) end.
Definition total_cost {C} (a : arith C) (cl : list C) : C := sum_up a cl (zero a).

(** 86-113: the loop for (i = nb-1; i >= 0; i--).  [n] is i+1; the result lists rlist[0..i]. *)
Fixpoint assign {C} (a : arith C) (cl : list C) (n j : nat) (total target mycost : C) : option (list nat) :=
  match n with
  | O => Some []
  | S i =>
      if Nat.eqb i j then Some (seq 0 (S i))          (* 91-97: rlist[i] = i for the rest *)
      else if is_zero a target then None               (* 98-103: FATAL ERROR *)
      else
        let mycost := add a mycost (nth i cl (zero a)) in
        if ge a mycost target && Nat.ltb 0 j then
          let total := sub a total mycost in
          option_map (fun l => l ++ [j]) (assign a cl i (j - 1) total (divn a total j) (zero a))
        else option_map (fun l => l ++ [j]) (assign a cl i j total target mycost)
  end.

(** 114-122: slist and nlist, one entry per run of equal ranks. *)
Fixpoint runs (i start prev : nat) (rl : list nat) : list (nat * nat) :=
  match rl with
  | [] => [ (start, i - start) ]
  | r :: rl => if Nat.eqb r prev then runs (S i) start prev rl
               else (start, i - start) :: runs (S i) i r rl
  end.
Definition tables (rl : list nat) : list (nat * nat) :=
  match rl with [] => [] | r :: rl => runs 1 0 r rl end.

Definition CalculateLoadBalance {C} (a : arith C) (nranks nthreads : nat) (cl : list C)
    : option (list nat * list (nat * nat)) :=
  let nb := length cl in
  let total := total_cost a cl in
  match assign a cl nb (nranks - 1) total (divn a total nranks) (zero a) with
  | None => None
  | Some rl => if Nat.ltb nb (nranks * nthreads) then None else Some (rl, tables rl)   (* 130-135 *)
  end.

(** Exact arithmetic. *)
Definition exactQ : arith Q :=
  mkA Q 0%Q Qplus Qminus (fun x n => (x / inject_Z (Z.of_nat n))%Q) (fun x y => Qle_bool y x) (fun x => Qeq_bool x 0).

(** IEEE 754 double precision, round to nearest even. *)
Definition b64_of_nat (n : nat) : spec_float :=
  match Z.of_nat n with Z0 => S754_zero false | Zpos p => binary_normalize 53 1024 (Zpos p) 0 false | Zneg _ => S754_nan end.
Definition binary64 : arith spec_float :=
  mkA spec_float (S754_zero false) (SFadd 53 1024) (SFsub 53 1024) (fun x n => SFdiv 53 1024 x (b64_of_nat n))
      (fun x y => SFleb y x) (fun x => SFeqb x (S754_zero false)).
