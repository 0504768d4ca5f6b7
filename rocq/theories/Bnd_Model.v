(** Physical boundary conditions of a MeshBlock: the reflecting, outflow and
    polar-wedge fill of the ghost zones, and the sequence in which
    [BoundaryValues::ApplyPhysicalBoundaries] applies them.

    Every ghost fill in the code is a loop nest whose body is one assignment
    between two elements of the same array.  The model keeps the loops and the
    sequential order of the assignments: a function yields the list of
    assignments it executes, in order, and [exec] runs them on the array.

    Modelled: src/bvals/cc/reflect_cc.cpp, cc/outflow_cc.cpp,
    cc/polarwedge_cc.cpp, cc/hydro/reflect_hydro.cpp, fc/reflect_fc.cpp,
    fc/outflow_fc.cpp, fc/polarwedge_fc.cpp,
    bvals.cpp 66-78 and 453-652 (hydro, field and passive scalars),
    DispatchBoundaryFunctions bvals.cpp 668-806.
    Not modelled: user-enrolled boundary functions, radiation and cosmic-ray
    variables; real numbers stand for doubles. *)
From Coq Require Import List ZArith Reals Bool.
Import ListNotations.
Local Open Scope Z_scope.

(** ** Arrays and assignments *)

(** index of an element: component, x3, x2, x1 (AthenaArray access [a(n,k,j,i)]);
    for a FaceField the component 0, 1, 2 stands for x1f, x2f, x3f *)
Definition idx : Type := (Z * Z * Z * Z)%type.
Definition cells : Type := idx -> R.

Definition idx_eqb (a b : idx) : bool :=
  let '(n, k, j, i) := a in
  let '(n', k', j', i') := b in
  (n =? n') && (k =? k') && (j =? j') && (i =? i').

(** right-hand side of an assignment: a signed copy, or a constant *)
Inductive rhs := Cp (g : R) (s : idx) | Cst (g : R).
Definition assign : Type := (idx * rhs)%type.

Definition eval (a : cells) (r : rhs) : R :=
  match r with Cp g s => (g * a s)%R | Cst g => g end.

(** one assignment, then a list of them in program order *)
Definition step (a : cells) (x : assign) : cells :=
  fun c => if idx_eqb c (fst x) then eval a (snd x) else a c.
Definition exec (l : list assign) (a : cells) : cells := fold_left step l a.

(** [for (int v=lo; v<=hi; ++v)] *)
Definition for_ {A} (lo hi : Z) (f : Z -> list A) : list A :=
  flat_map (fun m => f (lo + Z.of_nat m)) (seq 0 (Z.to_nat (hi - lo + 1))).

(** athena.hpp 169-174 *)
Definition IDN := 0. Definition IVX := 1. Definition IVY := 2. Definition IVZ := 3.
Definition IB1 := 0. Definition IB2 := 1. Definition IB3 := 2.

(** bvals_interfaces.hpp 95, 97 *)
Definition flip_across_pole_hydro (n : Z) : bool := (n =? 2) || (n =? 3).
Definition flip_across_pole_field (n : Z) : bool := (n =? 1) || (n =? 2).
Definition sign_of (flip : bool) : R := if flip then (-1)%R else 1%R.

(** ** Cell-centred variables *)

(** cc/reflect_cc.cpp 23-38, and cc/hydro/reflect_hydro.cpp 23-48 with [sg] the sign of
    component [n] (reflect_hydro.cpp negates the 1-velocity only) *)
Definition ReflectInnerX1 (sg : Z -> R) (nu il jl ju kl ku ngh : Z) : list assign :=
  for_ 0 nu (fun n => for_ kl ku (fun k => for_ jl ju (fun j => for_ 1 ngh (fun i =>
    [((n, k, j, il - i), Cp (sg n) (n, k, j, il + i - 1))])))).

(** cc/reflect_cc.cpp 43-58, and cc/hydro/reflect_hydro.cpp 55-80 with [sg] the sign of
    component [n] (reflect_hydro.cpp negates the 1-velocity only) *)
Definition ReflectOuterX1 (sg : Z -> R) (nu iu jl ju kl ku ngh : Z) : list assign :=
  for_ 0 nu (fun n => for_ kl ku (fun k => for_ jl ju (fun j => for_ 1 ngh (fun i =>
    [((n, k, j, iu + i), Cp (sg n) (n, k, j, iu - i + 1))])))).

(** cc/reflect_cc.cpp 63-78, and cc/hydro/reflect_hydro.cpp 87-112 with [sg] the sign of
    component [n] (reflect_hydro.cpp negates the 2-velocity only) *)
Definition ReflectInnerX2 (sg : Z -> R) (nu il iu jl kl ku ngh : Z) : list assign :=
  for_ 0 nu (fun n => for_ kl ku (fun k => for_ 1 ngh (fun j => for_ il iu (fun i =>
    [((n, k, jl - j, i), Cp (sg n) (n, k, jl + j - 1, i))])))).

(** cc/reflect_cc.cpp 83-98, and cc/hydro/reflect_hydro.cpp 119-144 with [sg] the sign of
    component [n] (reflect_hydro.cpp negates the 2-velocity only) *)
Definition ReflectOuterX2 (sg : Z -> R) (nu il iu ju kl ku ngh : Z) : list assign :=
  for_ 0 nu (fun n => for_ kl ku (fun k => for_ 1 ngh (fun j => for_ il iu (fun i =>
    [((n, k, ju + j, i), Cp (sg n) (n, k, ju - j + 1, i))])))).

(** cc/reflect_cc.cpp 103-118, and cc/hydro/reflect_hydro.cpp 151-176 with [sg] the sign of
    component [n] (reflect_hydro.cpp negates the 3-velocity only) *)
Definition ReflectInnerX3 (sg : Z -> R) (nu il iu jl ju kl ngh : Z) : list assign :=
  for_ 0 nu (fun n => for_ 1 ngh (fun k => for_ jl ju (fun j => for_ il iu (fun i =>
    [((n, kl - k, j, i), Cp (sg n) (n, kl + k - 1, j, i))])))).

(** cc/reflect_cc.cpp 123-138, and cc/hydro/reflect_hydro.cpp 183-208 with [sg] the sign of
    component [n] (reflect_hydro.cpp negates the 3-velocity only) *)
Definition ReflectOuterX3 (sg : Z -> R) (nu il iu jl ju ku ngh : Z) : list assign :=
  for_ 0 nu (fun n => for_ 1 ngh (fun k => for_ jl ju (fun j => for_ il iu (fun i =>
    [((n, ku + k, j, i), Cp (sg n) (n, ku - k + 1, j, i))])))).

(** cc/outflow_cc.cpp 23-38 *)
Definition OutflowInnerX1 (nu il jl ju kl ku ngh : Z) : list assign :=
  for_ 0 nu (fun n => for_ kl ku (fun k => for_ jl ju (fun j => for_ 1 ngh (fun i =>
    [((n, k, j, il - i), Cp 1%R (n, k, j, il))])))).

(** cc/outflow_cc.cpp 43-58 *)
Definition OutflowOuterX1 (nu iu jl ju kl ku ngh : Z) : list assign :=
  for_ 0 nu (fun n => for_ kl ku (fun k => for_ jl ju (fun j => for_ 1 ngh (fun i =>
    [((n, k, j, iu + i), Cp 1%R (n, k, j, iu))])))).

(** cc/outflow_cc.cpp 63-78 *)
Definition OutflowInnerX2 (nu il iu jl kl ku ngh : Z) : list assign :=
  for_ 0 nu (fun n => for_ kl ku (fun k => for_ 1 ngh (fun j => for_ il iu (fun i =>
    [((n, k, jl - j, i), Cp 1%R (n, k, jl, i))])))).

(** cc/outflow_cc.cpp 83-98 *)
Definition OutflowOuterX2 (nu il iu ju kl ku ngh : Z) : list assign :=
  for_ 0 nu (fun n => for_ kl ku (fun k => for_ 1 ngh (fun j => for_ il iu (fun i =>
    [((n, k, ju + j, i), Cp 1%R (n, k, ju, i))])))).

(** cc/outflow_cc.cpp 103-118 *)
Definition OutflowInnerX3 (nu il iu jl ju kl ngh : Z) : list assign :=
  for_ 0 nu (fun n => for_ 1 ngh (fun k => for_ jl ju (fun j => for_ il iu (fun i =>
    [((n, kl - k, j, i), Cp 1%R (n, kl, j, i))])))).

(** cc/outflow_cc.cpp 123-138 *)
Definition OutflowOuterX3 (nu il iu jl ju ku ngh : Z) : list assign :=
  for_ 0 nu (fun n => for_ 1 ngh (fun k => for_ jl ju (fun j => for_ il iu (fun i =>
    [((n, ku + k, j, i), Cp 1%R (n, ku, j, i))])))).

(** cc/polarwedge_cc.cpp 23-40; [flip] is the table flip_across_pole_ (all false when it is
    a null pointer) *)
Definition PolarWedgeInnerX2 (flip : Z -> bool) (nu il iu jl kl ku ngh : Z) : list assign :=
  for_ 0 nu (fun n => for_ kl ku (fun k => for_ 1 ngh (fun j => for_ il iu (fun i =>
    [((n, k, jl - j, i), Cp (sign_of (flip n)) (n, k, jl + j - 1, i))])))).

(** cc/polarwedge_cc.cpp 45-62; [flip] is the table flip_across_pole_ (all false when it is
    a null pointer) *)
Definition PolarWedgeOuterX2 (flip : Z -> bool) (nu il iu ju kl ku ngh : Z) : list assign :=
  for_ 0 nu (fun n => for_ kl ku (fun k => for_ 1 ngh (fun j => for_ il iu (fun i =>
    [((n, k, ju + j, i), Cp (sign_of (flip n)) (n, k, ju - j + 1, i))])))).

(** reflect_hydro.cpp: the component normal to the wall changes sign *)
Definition neg_at (m n : Z) : R := if n =? m then (-1)%R else 1%R.
Definition plain (n : Z) : R := 1%R.

(** ** Face-centred field *)

(** fc/reflect_fc.cpp 23-51 *)
Definition FReflectInnerX1 (il jl ju kl ku ngh : Z) : list assign :=
  (for_ kl ku (fun k => for_ jl ju (fun j => for_ 1 ngh (fun i =>
    [((IB1, k, j, il - i), Cp (-1)%R (IB1, k, j, il + i))]))))
  ++ (for_ kl ku (fun k => for_ jl (ju + 1) (fun j => for_ 1 ngh (fun i =>
    [((IB2, k, j, il - i), Cp 1%R (IB2, k, j, il + i - 1))]))))
  ++ (for_ kl (ku + 1) (fun k => for_ jl ju (fun j => for_ 1 ngh (fun i =>
    [((IB3, k, j, il - i), Cp 1%R (IB3, k, j, il + i - 1))])))).

(** fc/reflect_fc.cpp 60-88 *)
Definition FReflectOuterX1 (iu jl ju kl ku ngh : Z) : list assign :=
  (for_ kl ku (fun k => for_ jl ju (fun j => for_ 1 ngh (fun i =>
    [((IB1, k, j, iu + i + 1), Cp (-1)%R (IB1, k, j, iu - i + 1))]))))
  ++ (for_ kl ku (fun k => for_ jl (ju + 1) (fun j => for_ 1 ngh (fun i =>
    [((IB2, k, j, iu + i), Cp 1%R (IB2, k, j, iu - i + 1))]))))
  ++ (for_ kl (ku + 1) (fun k => for_ jl ju (fun j => for_ 1 ngh (fun i =>
    [((IB3, k, j, iu + i), Cp 1%R (IB3, k, j, iu - i + 1))])))).

(** fc/reflect_fc.cpp 97-125 *)
Definition FReflectInnerX2 (il iu jl kl ku ngh : Z) : list assign :=
  (for_ kl ku (fun k => for_ 1 ngh (fun j => for_ il (iu + 1) (fun i =>
    [((IB1, k, jl - j, i), Cp 1%R (IB1, k, jl + j - 1, i))]))))
  ++ (for_ kl ku (fun k => for_ 1 ngh (fun j => for_ il iu (fun i =>
    [((IB2, k, jl - j, i), Cp (-1)%R (IB2, k, jl + j, i))]))))
  ++ (for_ kl (ku + 1) (fun k => for_ 1 ngh (fun j => for_ il iu (fun i =>
    [((IB3, k, jl - j, i), Cp 1%R (IB3, k, jl + j - 1, i))])))).

(** fc/reflect_fc.cpp 132-160 *)
Definition FReflectOuterX2 (il iu ju kl ku ngh : Z) : list assign :=
  (for_ kl ku (fun k => for_ 1 ngh (fun j => for_ il (iu + 1) (fun i =>
    [((IB1, k, ju + j, i), Cp 1%R (IB1, k, ju - j + 1, i))]))))
  ++ (for_ kl ku (fun k => for_ 1 ngh (fun j => for_ il iu (fun i =>
    [((IB2, k, ju + j + 1, i), Cp (-1)%R (IB2, k, ju - j + 1, i))]))))
  ++ (for_ kl (ku + 1) (fun k => for_ 1 ngh (fun j => for_ il iu (fun i =>
    [((IB3, k, ju + j, i), Cp 1%R (IB3, k, ju - j + 1, i))])))).

(** fc/reflect_fc.cpp 167-195 *)
Definition FReflectInnerX3 (il iu jl ju kl ngh : Z) : list assign :=
  (for_ 1 ngh (fun k => for_ jl ju (fun j => for_ il (iu + 1) (fun i =>
    [((IB1, kl - k, j, i), Cp 1%R (IB1, kl + k - 1, j, i))]))))
  ++ (for_ 1 ngh (fun k => for_ jl (ju + 1) (fun j => for_ il iu (fun i =>
    [((IB2, kl - k, j, i), Cp 1%R (IB2, kl + k - 1, j, i))]))))
  ++ (for_ 1 ngh (fun k => for_ jl ju (fun j => for_ il iu (fun i =>
    [((IB3, kl - k, j, i), Cp (-1)%R (IB3, kl + k, j, i))])))).

(** fc/reflect_fc.cpp 202-230 *)
Definition FReflectOuterX3 (il iu jl ju ku ngh : Z) : list assign :=
  (for_ 1 ngh (fun k => for_ jl ju (fun j => for_ il (iu + 1) (fun i =>
    [((IB1, ku + k, j, i), Cp 1%R (IB1, ku - k + 1, j, i))]))))
  ++ (for_ 1 ngh (fun k => for_ jl (ju + 1) (fun j => for_ il iu (fun i =>
    [((IB2, ku + k, j, i), Cp 1%R (IB2, ku - k + 1, j, i))]))))
  ++ (for_ 1 ngh (fun k => for_ jl ju (fun j => for_ il iu (fun i =>
    [((IB3, ku + k + 1, j, i), Cp (-1)%R (IB3, ku - k + 1, j, i))])))).

(** fc/outflow_fc.cpp 23-51 *)
Definition FOutflowInnerX1 (il jl ju kl ku ngh : Z) : list assign :=
  (for_ kl ku (fun k => for_ jl ju (fun j => for_ 1 ngh (fun i =>
    [((IB1, k, j, il - i), Cp 1%R (IB1, k, j, il))]))))
  ++ (for_ kl ku (fun k => for_ jl (ju + 1) (fun j => for_ 1 ngh (fun i =>
    [((IB2, k, j, il - i), Cp 1%R (IB2, k, j, il))]))))
  ++ (for_ kl (ku + 1) (fun k => for_ jl ju (fun j => for_ 1 ngh (fun i =>
    [((IB3, k, j, il - i), Cp 1%R (IB3, k, j, il))])))).

(** fc/outflow_fc.cpp 58-86 *)
Definition FOutflowOuterX1 (iu jl ju kl ku ngh : Z) : list assign :=
  (for_ kl ku (fun k => for_ jl ju (fun j => for_ 1 ngh (fun i =>
    [((IB1, k, j, iu + i + 1), Cp 1%R (IB1, k, j, iu + 1))]))))
  ++ (for_ kl ku (fun k => for_ jl (ju + 1) (fun j => for_ 1 ngh (fun i =>
    [((IB2, k, j, iu + i), Cp 1%R (IB2, k, j, iu))]))))
  ++ (for_ kl (ku + 1) (fun k => for_ jl ju (fun j => for_ 1 ngh (fun i =>
    [((IB3, k, j, iu + i), Cp 1%R (IB3, k, j, iu))])))).

(** fc/outflow_fc.cpp 93-121 *)
Definition FOutflowInnerX2 (il iu jl kl ku ngh : Z) : list assign :=
  (for_ kl ku (fun k => for_ 1 ngh (fun j => for_ il (iu + 1) (fun i =>
    [((IB1, k, jl - j, i), Cp 1%R (IB1, k, jl, i))]))))
  ++ (for_ kl ku (fun k => for_ 1 ngh (fun j => for_ il iu (fun i =>
    [((IB2, k, jl - j, i), Cp 1%R (IB2, k, jl, i))]))))
  ++ (for_ kl (ku + 1) (fun k => for_ 1 ngh (fun j => for_ il iu (fun i =>
    [((IB3, k, jl - j, i), Cp 1%R (IB3, k, jl, i))])))).

(** fc/outflow_fc.cpp 128-156 *)
Definition FOutflowOuterX2 (il iu ju kl ku ngh : Z) : list assign :=
  (for_ kl ku (fun k => for_ 1 ngh (fun j => for_ il (iu + 1) (fun i =>
    [((IB1, k, ju + j, i), Cp 1%R (IB1, k, ju, i))]))))
  ++ (for_ kl ku (fun k => for_ 1 ngh (fun j => for_ il iu (fun i =>
    [((IB2, k, ju + j + 1, i), Cp 1%R (IB2, k, ju + 1, i))]))))
  ++ (for_ kl (ku + 1) (fun k => for_ 1 ngh (fun j => for_ il iu (fun i =>
    [((IB3, k, ju + j, i), Cp 1%R (IB3, k, ju, i))])))).

(** fc/outflow_fc.cpp 163-191 *)
Definition FOutflowInnerX3 (il iu jl ju kl ngh : Z) : list assign :=
  (for_ 1 ngh (fun k => for_ jl ju (fun j => for_ il (iu + 1) (fun i =>
    [((IB1, kl - k, j, i), Cp 1%R (IB1, kl, j, i))]))))
  ++ (for_ 1 ngh (fun k => for_ jl (ju + 1) (fun j => for_ il iu (fun i =>
    [((IB2, kl - k, j, i), Cp 1%R (IB2, kl, j, i))]))))
  ++ (for_ 1 ngh (fun k => for_ jl ju (fun j => for_ il iu (fun i =>
    [((IB3, kl - k, j, i), Cp 1%R (IB3, kl, j, i))])))).

(** fc/outflow_fc.cpp 198-226 *)
Definition FOutflowOuterX3 (il iu jl ju ku ngh : Z) : list assign :=
  (for_ 1 ngh (fun k => for_ jl ju (fun j => for_ il (iu + 1) (fun i =>
    [((IB1, ku + k, j, i), Cp 1%R (IB1, ku, j, i))]))))
  ++ (for_ 1 ngh (fun k => for_ jl (ju + 1) (fun j => for_ il iu (fun i =>
    [((IB2, ku + k, j, i), Cp 1%R (IB2, ku, j, i))]))))
  ++ (for_ 1 ngh (fun k => for_ jl ju (fun j => for_ il iu (fun i =>
    [((IB3, ku + k + 1, j, i), Cp 1%R (IB3, ku + 1, j, i))])))).

(** fc/polarwedge_fc.cpp 23-60 *)
Definition FPolarWedgeInnerX2 (il iu jl kl ku ngh : Z) : list assign :=
  (for_ kl ku (fun k => for_ 1 ngh (fun j => for_ il (iu + 1) (fun i =>
    [((IB1, k, jl - j, i), Cp (sign_of (flip_across_pole_field IB1)) (IB1, k, jl + j - 1, i))]))))
  ++ (for_ kl ku (fun k => for_ 1 ngh (fun j => for_ il iu (fun i =>
    [((IB2, k, jl - j, i), Cp (sign_of (flip_across_pole_field IB2)) (IB2, k, jl + j, i))]))))
  ++ (for_ kl ku (fun k => for_ il iu (fun i =>
    [((IB2, k, jl, i), Cst 0%R)])))
  ++ (for_ kl (ku + 1) (fun k => for_ 1 ngh (fun j => for_ il iu (fun i =>
    [((IB3, k, jl - j, i), Cp (sign_of (flip_across_pole_field IB3)) (IB3, k, jl + j - 1, i))])))).

(** fc/polarwedge_fc.cpp 67-104 *)
Definition FPolarWedgeOuterX2 (il iu ju kl ku ngh : Z) : list assign :=
  (for_ kl ku (fun k => for_ 1 ngh (fun j => for_ il (iu + 1) (fun i =>
    [((IB1, k, ju + j, i), Cp (sign_of (flip_across_pole_field IB1)) (IB1, k, ju - j + 1, i))]))))
  ++ (for_ kl ku (fun k => for_ 1 ngh (fun j => for_ il iu (fun i =>
    [((IB2, k, ju + j + 1, i), Cp (sign_of (flip_across_pole_field IB2)) (IB2, k, ju - j + 1, i))]))))
  ++ (for_ kl ku (fun k => for_ il iu (fun i =>
    [((IB2, k, ju + 1, i), Cst 0%R)])))
  ++ (for_ kl (ku + 1) (fun k => for_ 1 ngh (fun j => for_ il iu (fun i =>
    [((IB3, k, ju + j, i), Cp (sign_of (flip_across_pole_field IB3)) (IB3, k, ju - j + 1, i))])))).

(** ** Dispatch *)

(** block_bcs[face]: [Comm] stands for every flag whose ghost zones are filled by
    communication (block, periodic, polar, shear_periodic, undef) *)
Inductive flag := Comm | Reflect | Outflow | PolarWedge.

(** bvals.cpp 66-78: apply_bndry_fn_ *)
Definition applied (f : flag) : bool := match f with Comm => false | _ => true end.

Inductive face := inner_x1 | outer_x1 | inner_x2 | outer_x2 | inner_x3 | outer_x3.

(** which variable a BoundaryVariable object holds *)
Inductive var := Hydro | Scalars (ns : Z) | Field.

(** number of components minus one: nu_ *)
Definition nu_of (v : var) : Z :=
  match v with Hydro => 4 | Scalars ns => ns - 1 | Field => 2 end.

(** sign used by the reflecting function of the class: HydroBoundaryVariable overrides
    the plain copies of CellCenteredBoundaryVariable *)
Definition refl_sign (v : var) (m n : Z) : R :=
  match v with Hydro => neg_at m n | _ => plain n end.
Definition pole_flip (v : var) (n : Z) : bool :=
  match v with Hydro => flip_across_pole_hydro n | _ => false end.

(** bvals.cpp 668-806 for one BoundaryVariable; [None] is the fatal error of a polar
    wedge on a face other than x2 *)
Definition Dispatch (v : var) (bc : flag) (fc : face)
    (il iu jl ju kl ku ngh : Z) : option (list assign) :=
  let nu := nu_of v in
  match bc with
  | Comm => Some []
  | Reflect =>
      Some match v, fc with
      | Field, inner_x1 => FReflectInnerX1 il jl ju kl ku ngh
      | Field, outer_x1 => FReflectOuterX1 iu jl ju kl ku ngh
      | Field, inner_x2 => FReflectInnerX2 il iu jl kl ku ngh
      | Field, outer_x2 => FReflectOuterX2 il iu ju kl ku ngh
      | Field, inner_x3 => FReflectInnerX3 il iu jl ju kl ngh
      | Field, outer_x3 => FReflectOuterX3 il iu jl ju ku ngh
      | _, inner_x1 => ReflectInnerX1 (refl_sign v IVX) nu il jl ju kl ku ngh
      | _, outer_x1 => ReflectOuterX1 (refl_sign v IVX) nu iu jl ju kl ku ngh
      | _, inner_x2 => ReflectInnerX2 (refl_sign v IVY) nu il iu jl kl ku ngh
      | _, outer_x2 => ReflectOuterX2 (refl_sign v IVY) nu il iu ju kl ku ngh
      | _, inner_x3 => ReflectInnerX3 (refl_sign v IVZ) nu il iu jl ju kl ngh
      | _, outer_x3 => ReflectOuterX3 (refl_sign v IVZ) nu il iu jl ju ku ngh
      end
  | Outflow =>
      Some match v, fc with
      | Field, inner_x1 => FOutflowInnerX1 il jl ju kl ku ngh
      | Field, outer_x1 => FOutflowOuterX1 iu jl ju kl ku ngh
      | Field, inner_x2 => FOutflowInnerX2 il iu jl kl ku ngh
      | Field, outer_x2 => FOutflowOuterX2 il iu ju kl ku ngh
      | Field, inner_x3 => FOutflowInnerX3 il iu jl ju kl ngh
      | Field, outer_x3 => FOutflowOuterX3 il iu jl ju ku ngh
      | _, inner_x1 => OutflowInnerX1 nu il jl ju kl ku ngh
      | _, outer_x1 => OutflowOuterX1 nu iu jl ju kl ku ngh
      | _, inner_x2 => OutflowInnerX2 nu il iu jl kl ku ngh
      | _, outer_x2 => OutflowOuterX2 nu il iu ju kl ku ngh
      | _, inner_x3 => OutflowInnerX3 nu il iu jl ju kl ngh
      | _, outer_x3 => OutflowOuterX3 nu il iu jl ju ku ngh
      end
  | PolarWedge =>
      match v, fc with
      | Field, inner_x2 => Some (FPolarWedgeInnerX2 il iu jl kl ku ngh)
      | Field, outer_x2 => Some (FPolarWedgeOuterX2 il iu ju kl ku ngh)
      | _, inner_x2 => Some (PolarWedgeInnerX2 (pole_flip v) nu il iu jl kl ku ngh)
      | _, outer_x2 => Some (PolarWedgeOuterX2 (pole_flip v) nu il iu ju kl ku ngh)
      | _, _ => None
      end
  end.

(** ** ApplyPhysicalBoundaries *)

(** the MeshBlock as seen by the function: index limits, dimensionality (nx2>1,
    nx3>1), ghost width, number of scalars, block_bcs *)
Record block := mkB {
  b_is : Z; b_ie : Z; b_js : Z; b_je : Z; b_ks : Z; b_ke : Z;
  f2 : bool; f3 : bool; NGHOST : Z; NSCALARS : Z;
  bcs : face -> flag }.

(** interpolation weights of Field::CalculateCellCenteredField (field.cpp 136-185) as
    functions of component and cell, and the pointwise map from primitive and cell-centred
    magnetic variables to conserved ones (EquationOfState::PrimitiveToConserved) *)
Record physics := mkP {
  lw : Z -> Z -> Z -> Z -> R;
  rw : Z -> Z -> Z -> Z -> R;
  p2c : list R -> list R -> Z -> R }.

(** primitive variables, scalar concentrations, face field, cell-centred field,
    conserved variables, conserved scalars *)
Record state := mkS {
  s_w : cells; s_r : cells; s_b : cells; s_bcc : cells; s_u : cells; s_s : cells }.

Definition inb (lo hi x : Z) : bool := (lo <=? x) && (x <=? hi).

(** field.cpp 112-190 over a box of cells *)
Definition CalculateCellCenteredField (p : physics) (b bcc : cells)
    (il iu jl ju kl ku : Z) : cells := fun c =>
  let '(n, k, j, i) := c in
  if inb il iu i && inb jl ju j && inb kl ku k then
    if n =? IB1 then (lw p n k j i * b (IB1, k, j, i) + rw p n k j i * b (IB1, k, j, i + 1)%Z)%R
    else if n =? IB2 then
      (lw p n k j i * b (IB2, k, j, i) + rw p n k j i * b (IB2, k, (j + 1)%Z, i))%R
    else if n =? IB3 then
      (lw p n k j i * b (IB3, k, j, i) + rw p n k j i * b (IB3, (k + 1)%Z, j, i))%R
    else bcc c
  else bcc c.

(** the variables of one cell *)
Definition column (nu : Z) (a : cells) (k j i : Z) : list R :=
  for_ 0 nu (fun n => [a (n, k, j, i)]).

(** EquationOfState::PrimitiveToConserved over a box of cells *)
Definition PrimitiveToConserved (p : physics) (w bcc u : cells)
    (il iu jl ju kl ku : Z) : cells := fun c =>
  let '(n, k, j, i) := c in
  if inb il iu i && inb jl ju j && inb kl ku k && inb 0 4 n
  then p2c p (column 4 w k j i) (column 2 bcc k j i) n else u c.

(** eos_scalars.cpp 133-152 *)
Definition PassiveScalarPrimitiveToConserved (ns : Z) (r u s : cells)
    (il iu jl ju kl ku : Z) : cells := fun c =>
  let '(n, k, j, i) := c in
  if inb il iu i && inb jl ju j && inb kl ku k && inb 0 (ns - 1) n
  then (r c * u (IDN, k, j, i))%R else s c.

(** one "if (apply_bndry_fn_[face]) {...}" block of bvals.cpp 510-652: the dispatch with
    limits [il..ku], then the update of the cell-centred field and the conserved variables on
    the slab [sil..sku] *)
Definition face_step (p : physics) (g : block) (fc : face)
    (il iu jl ju kl ku : Z) (sil siu sjl sju skl sku : Z) (s : state) : option state :=
  if applied (bcs g fc) then
    match Dispatch Hydro (bcs g fc) fc il iu jl ju kl ku (NGHOST g),
          Dispatch (Scalars (NSCALARS g)) (bcs g fc) fc il iu jl ju kl ku (NGHOST g),
          Dispatch Field (bcs g fc) fc il iu jl ju kl ku (NGHOST g) with
    | Some lh, Some lr, Some lb =>
        let w := exec lh (s_w s) in
        let r := exec lr (s_r s) in
        let b := exec lb (s_b s) in
        let bcc := CalculateCellCenteredField p b (s_bcc s) sil siu sjl sju skl sku in
        let u := PrimitiveToConserved p w bcc (s_u s) sil siu sjl sju skl sku in
        let sc := PassiveScalarPrimitiveToConserved (NSCALARS g) r u (s_s s)
                    sil siu sjl sju skl sku in
        Some (mkS w r b bcc u sc)
    | _, _, _ => None
    end
  else Some s.

Definition bind {A B} (x : option A) (f : A -> option B) : option B :=
  match x with Some a => f a | None => None end.

(** bvals.cpp 453-652 *)
Definition ApplyPhysicalBoundaries (p : physics) (g : block) (s : state) : option state :=
  let is := b_is g in let ie := b_ie g in
  let js := b_js g in let je := b_je g in
  let ks := b_ks g in let ke := b_ke g in
  let ng := NGHOST g in
  let bis := is - ng in let bie := ie + ng in
  let bjs := if negb (applied (bcs g inner_x2)) && f2 g then js - ng else js in
  let bje := if negb (applied (bcs g outer_x2)) && f2 g then je + ng else je in
  let bks := if negb (applied (bcs g inner_x3)) && f3 g then ks - ng else ks in
  let bke := if negb (applied (bcs g outer_x3)) && f3 g then ke + ng else ke in
  bind (face_step p g inner_x1 is ie bjs bje bks bke (is - ng) (is - 1) bjs bje bks bke s)
  (fun s =>
  bind (face_step p g outer_x1 is ie bjs bje bks bke (ie + 1) (ie + ng) bjs bje bks bke s)
  (fun s =>
  bind (if f2 g then
          bind (face_step p g inner_x2 bis bie js je bks bke bis bie (js - ng) (js - 1) bks bke s)
          (fun s =>
           face_step p g outer_x2 bis bie js je bks bke bis bie (je + 1) (je + ng) bks bke s)
        else Some s)
  (fun s =>
  if f3 g then
    let bjs := js - ng in let bje := je + ng in
    bind (face_step p g inner_x3 bis bie bjs bje ks ke bis bie bjs bje (ks - ng) (ks - 1) s)
    (fun s =>
     face_step p g outer_x3 bis bie bjs bje ks ke bis bie bjs bje (ke + 1) (ke + ng) s)
  else Some s))).
