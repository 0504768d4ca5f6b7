(** Super-time-stepping (RKL1, RKL2), exact arithmetic: src/task_list/sts_task_list.cpp, src/main.cpp 455-530, the updates of src/hydro/add_flux_divergence.cpp 100-175,
    src/scalars/add_scalar_flux_divergence.cpp 105-170, src/field/ct.cpp 120-241 and mesh/weighted_ave.cpp.
    A variable is a function from an index set [I] (component and active cell or face) to R.  The diffusive fluxes, ghost zones and primitives that a stage uses are functions of the conserved
    state left by the previous stage, so the whole right-hand side (minus flux divergence over volume plus coordinate terms, or minus curl) is one function [F] of that state. *)
From Coq Require Import Reals ZArith List Bool.
From Verif Require Import Fv_Model Time_Model.
Import ListNotations.
Local Open Scope R_scope.

(** Mesh::sts_integrator, mesh.cpp 106; other names are rejected (sts_task_list.cpp 52-59). *)
Inductive scheme := rkl1 | rkl2.

(** main.cpp 465-476: the number of stages of the super-time-step of this cycle. *)
Definition nstages (sc : scheme) (dt dt_parabolic : R) : Z :=
  let n := match sc with
    | rkl2 => (trunc (1 / 2 * (-1 + sqrt (9 + 16 * (1 / 2 * dt) / dt_parabolic))) + 1)%Z
    | rkl1 => (trunc (1 / 2 * (-1 + sqrt (1 + 8 * dt / dt_parabolic))) + 1)%Z
    end in
  if Z.eqb (n mod 2) 0 then (n + 1)%Z else n.

(** StartupTaskList, sts_task_list.cpp 582-616: the weights of a stage. *)
Record coef := mkC { muj : R; nuj : R; muj_tilde : R; gammaj_tilde : R }.
(** 586-591: (j^2 + j - 2) / (2 j (j + 1)). *)
Definition bfrac (j : R) : R := (j * j + j - 2) / (2 * j * (j + 1)).
Definition StartupTaskList (sc : scheme) (ns stage : nat) : coef :=
  let j := INR stage in let s := INR ns in
  match sc with
  | rkl2 =>
      let bj := bfrac j in let bj_m1 := bfrac (j - 1) in let bj_m2 := bfrac (j - 2) in
      let '(bj, bj_m1, bj_m2) :=
        if Nat.eqb stage 1 || Nat.eqb stage 2 then (1 / 3, 1 / 3, 1 / 3)
        else if Nat.eqb stage 3 then (bj, 1 / 3, 1 / 3)
        else if Nat.eqb stage 4 then (bj, bj_m1, 1 / 3)
        else (bj, bj_m1, bj_m2) in
      let mu := (2 * j - 1) / j * bj / bj_m1 in
      let nu := -1 * (j - 1) / j * bj / bj_m2 in
      if Nat.eqb stage 1 then mkC mu nu (bj * 4 / (s * s + s - 2)) 0
      else let mt := mu * 4 / (s * s + s - 2) in mkC mu nu mt (-1 * (1 - bj_m1) * mt)
  | rkl1 =>
      let mu := (2 * j - 1) / j in
      mkC mu ((1 - j) / j) (mu * 2 / (s * s + s)) 0
  end.

(** The registers of a variable: hydro.hpp 44-46, scalars.hpp 39-41, field.hpp 39-41. *)
Record regs (I : Type) := mkR { u : I -> R; u1 : I -> R; u2 : I -> R; u0 : I -> R; fl_div : I -> R }.
Arguments mkR {I}. Arguments u {I}. Arguments u1 {I}. Arguments u2 {I}. Arguments u0 {I}. Arguments fl_div {I}.

Definition is_rkl2 (sc : scheme) : bool := match sc with rkl2 => true | rkl1 => false end.
(** IntegrateHydro_STS 720-765, IntegrateScalars_STS 770-806, IntegrateField_STS 811-860.  [sub] tells which entries the diffusion updates: sts_idx_subset (60-88) for the hydro variables, everything for
    scalars and fields.  [L] is the right-hand side from the fluxes of this stage. *)
Definition Integrate_STS {I} (sc : scheme) (sub : I -> bool) (ns stage : nat) (dt : R) (L : I -> R) (r : regs I) : regs I :=
  let first := is_rkl2 sc && Nat.eqb stage 1 in
  let v0 := if first then u r else u0 r in
  (* u2.SwapAthenaArray(u1); u1.SwapAthenaArray(u): the storage of u is the old u2 *)
  let v2 := u1 r in let v1 := u r in let out := u2 r in
  let c := StartupTaskList sc ns stage in
  let w3 := if is_rkl2 sc then 1 - muj c - nuj c else 0 in
  let w4 := if is_rkl2 sc then gammaj_tilde c else 0 in
  let wght := if is_rkl2 sc then muj_tilde c * dt * (1 / 2) else muj_tilde c * dt in
  mkR (fun x => let a := ave 0 (muj c) (nuj c) w3 w4 (out x) (v1 x) (v2 x) (v0 x) (fl_div r x) in if sub x then a + wght * L x else a)
      v1 v2 v0
      (fun x => if sub x && first then 1 / 2 * dt * L x else fl_div r x).

(** main.cpp 478-479 and 528-529: for (stage=1; stage<=nstages; ++stage) DoTaskListOneStage; the fluxes of a stage come from the state left by the previous one. *)
Fixpoint stages {I} (sc : scheme) (sub : I -> bool) (ns : nat) (dt : R) (F : (I -> R) -> I -> R) (n : nat) (r : regs I) : regs I :=
  match n with
  | O => r
  | S n => let r := stages sc sub ns dt F n r in Integrate_STS sc sub ns (S n) dt (F (u r)) r
  end.
Definition sweep {I} (sc : scheme) (sub : I -> bool) (ns : nat) (dt : R) (F : (I -> R) -> I -> R) (r : regs I) : regs I := stages sc sub ns dt F ns r.

(** The cycle of main.cpp 461-530: super-time-step, main integrator (any function of the registers), and for RKL2 a second super-time-step with the same number of stages. *)
Definition cycle {I} (sc : scheme) (sub : I -> bool) (dt dt_parabolic : R) (F : (I -> R) -> I -> R) (main : regs I -> regs I) (r : regs I) : regs I :=
  let ns := Z.to_nat (nstages sc dt dt_parabolic) in
  let r := main (sweep sc sub ns dt F r) in
  match sc with rkl2 => sweep sc sub ns dt F r | rkl1 => r end.
