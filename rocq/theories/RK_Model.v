(** Time integrator weights and the register updates of one time step.
    Models src/task_list/time_integrator.cpp (constructor lines 62-900, StartupTaskList 1606-1672,
    IntegrateHydro 1797-1846, AddSourceTerms 1890-1913, CalculateHydroOrbital 2626-2640) and
    src/mesh/weighted_ave.cpp (WeightedAve 35-230).
    Simplifications: exact rational coefficients (the decimal literals of the source; ONE_3RD and
    TWO_3RD are 1/3 and 2/3) and exact real arithmetic; a register is a function from an arbitrary
    type of cells to R, so the loops over n,k,j,i disappear; the flux divergence together with the
    coordinate source terms is an arbitrary function [F] of the register (AddFluxDivergence and
    AddCoordTermsDivergence add wght*F); the explicit source terms are an arbitrary function [S] of
    time and register; the orbital remap is an arbitrary function [O] of a time interval and register. *)
From Coq Require Import List QArith Qreals Reals Bool.
Import ListNotations.

(** time_integrator.cpp 111, 243, 338, 466, 607, 737: the accepted integrator strings. *)
Inductive integrator := vl2 | rk1 | rk2 | rk3 | rk4 | ssprk5_4.

(** pm->orbital_advection: 0, 1 or 2 (time_integrator.cpp 86, 124, 143). *)
Inductive splitting := NoOrb | Orb1 | Orb2.

(** struct IntegratorWeight, src/task_list/task_list.hpp 133-140. *)
Record wght := mkW { delta : Q; gamma_1 : Q; gamma_2 : Q; gamma_3 : Q; beta : Q;
                     sbeta : Q; ebeta : Q; main_stage : bool; orbital_stage : bool }.

Definition dec (n : Z) : Q := n # 1000000000000000.   (* a 15-digit decimal literal *)

(** (delta, gamma_1, gamma_2, gamma_3, beta) of the main stages, in order.
    vl2: 111-242; rk1: 243-337; rk2: 338-465; rk3: 466-606; rk4: 607-701; ssprk5_4: 737-844. *)
Definition coeffs (i : integrator) : list (Q * Q * Q * Q * Q) :=
  match i with
  | vl2 => [ (1, 0, 1, 0, 1#2); (0, 0, 1, 0, 1) ]
  | rk1 => [ (1, 0, 1, 0, 1) ]
  | rk2 => [ (1, 0, 1, 0, 1); (0, 1#2, 1#2, 0, 1#2) ]
  | rk3 => [ (1, 0, 1, 0, 1); (0, 1#4, 3#4, 0, 1#4); (0, 2#3, 1#3, 0, 2#3) ]
  | rk4 => [ (1, 0, 1, 0, dec 1193743905974738);
             (dec 217683334308543, dec 121098479554482, dec 721781678111411, 0, dec 99279895495783);
             (dec 1065841341361089, dec (-3843833699660025), dec 2121209265338722, 0, dec 1131678018054042);
             (0, dec 546370891121863, dec 198653035682705, 0, dec 310665766509336) ]
  | ssprk5_4 => [ (1, 0, 1, 0, dec 391752226571890);
             (0, dec 555629506348765, dec 444370493651235, 0, dec 368410593050371);
             (dec 517231671970585, dec 379898148511597, 0, dec 620101851488403, dec 251891774271694);
             (dec 96059710526147, dec 821920045606868, 0, dec 178079954393132, dec 544974750228521);
             (0, dec 386708617503268, 1, 1, dec 226007483236906) ]
  end%Q.

(** sbeta/ebeta without orbital advection: literals for vl2 (206-218), rk1 (315-322), rk2 (432-444),
    rk3 (564-579); for rk4 (722-736) and ssprk5_4 (870-884) a loop over temp, temp_prev. *)
Fixpoint abscissa_loop (cs : list (Q * Q * Q * Q * Q)) (sb temp_prev : Q) : list (Q * Q) :=
  match cs with
  | [] => []
  | [_] => [ (sb, 1%Q) ]                       (* stage_wghts[nstages-1].ebeta = 1.0 *)
  | (d, g1, g2, g3, b) :: r =>
      let temp := (temp_prev + d * sb)%Q in
      let eb := (g1 * temp_prev + g2 * temp + g3 * 0 + b)%Q in
      (sb, eb) :: abscissa_loop r eb temp
  end.
Definition abscissae (i : integrator) : list (Q * Q) :=
  match i with
  | vl2 => [ (0, 1#2); (1#2, 1) ]
  | rk1 => [ (0, 1) ]
  | rk2 => [ (0, 1); (1, 1) ]
  | rk3 => [ (0, 1); (1, 1#2); (1#2, 1) ]
  | rk4 | ssprk5_4 => abscissa_loop (coeffs i) 0 0
  end%Q.

Definition main_w (c : Q * Q * Q * Q * Q) (sb eb : Q) (orb : bool) : wght :=
  let '(d, g1, g2, g3, b) := c in mkW d g1 g2 g3 b sb eb true orb.
(** A stage that only does orbital advection; delta and gamma stay unset in the code and are never
    read (IntegrateHydro tests main_stage first), beta is 0.0. *)
Definition orb_w (sb eb : Q) : wght := mkW 0 0 0 0 0 sb eb false true.

Fixpoint zipw (cs : list (Q * Q * Q * Q * Q)) (ab : list (Q * Q)) : list wght :=
  match cs, ab with c :: cs, (s, e) :: ab => main_w c s e false :: zipw cs ab | _, _ => [] end.

(** The main stages of a split scheme; the last one also does orbital advection if [lastorb]. *)
Fixpoint split_main (cs : list (Q * Q * Q * Q * Q)) (sb eb : Q) (lastorb : bool) : list wght :=
  match cs with
  | [] => []
  | [c] => [ if lastorb then main_w c sb 1 true else main_w c sb eb false ]
  | c :: r => main_w c sb eb false :: split_main r sb eb lastorb
  end.

(** The constructor.  [shml] is SHEAR_PERIODIC || multilevel.  None: FATAL ERROR (91-110). *)
Definition stage_wghts (i : integrator) (o : splitting) (shear multilevel : bool) : option (list wght) :=
  let high := match i with rk4 | ssprk5_4 => true | _ => false end in
  let orb := match o with NoOrb => false | _ => true end in
  if high && (shear || (orb && multilevel)) then None
  else Some (match o with
  | NoOrb => zipw (coeffs i) (abscissae i)
  | Orb1 => if shear || multilevel then split_main (coeffs i) 0 0 false ++ [ orb_w 0 1 ]
            else split_main (coeffs i) 0 0 true
  | Orb2 => orb_w 0 (1#2) ::
            (if shear || multilevel then split_main (coeffs i) (1#2) (1#2) false ++ [ orb_w (1#2) 1 ]
             else split_main (coeffs i) (1#2) (1#2) true)
  end).

(** weighted_ave.cpp 35-230: WeightedAve on one array element.  The tests are on the weights. *)
Definition WeightedAve (w0 w1 w2 w3 w4 : Q) (out in1 in2 in3 in4 : R) : R :=
  let a := Q2R w0 in let b := Q2R w1 in let c := Q2R w2 in let d := Q2R w3 in let e := Q2R w4 in
  if Qeq_bool w0 1 then
    (if negb (Qeq_bool w4 0) then out + (b*in1 + c*in2 + d*in3 + e*in4)
     else if negb (Qeq_bool w3 0) then out + (b*in1 + c*in2 + d*in3)
     else if negb (Qeq_bool w2 0) then out + (b*in1 + c*in2)
     else if negb (Qeq_bool w1 0) then out + b*in1
     else out)%R
  else if Qeq_bool w0 0 then
    (if negb (Qeq_bool w4 0) then b*in1 + c*in2 + d*in3 + e*in4
     else if negb (Qeq_bool w3 0) then b*in1 + c*in2 + d*in3
     else if negb (Qeq_bool w2 0) then b*in1 + c*in2
     else if Qeq_bool w1 1 then in1
     else b*in1)%R
  else
    (if negb (Qeq_bool w4 0) then a*out + b*in1 + c*in2 + d*in3 + e*in4
     else if negb (Qeq_bool w3 0) then a*out + b*in1 + c*in2 + d*in3
     else if negb (Qeq_bool w2 0) then a*out + b*in1 + c*in2
     else if negb (Qeq_bool w1 0) then a*out + b*in1
     else out*a)%R.

(** Registers u, u1, u2 of one variable. *)
Record regs (I : Type) := mkR { u : I -> R; u1 : I -> R; u2 : I -> R }.
Arguments mkR {I}. Arguments u {I}. Arguments u1 {I}. Arguments u2 {I}.

(** StartupTaskList 1606-1643. *)
Definition Startup {I} (i : integrator) (stage : nat) (r : regs I) : regs I :=
  if Nat.eqb stage 1 then
    mkR (u r) (fun _ => 0%R) (match i with ssprk5_4 => u r | _ => u2 r end)
  else r.

Definition is_swap (w : wght) : bool :=
  Qeq_bool (gamma_1 w) 0 && Qeq_bool (gamma_2 w) 1 && Qeq_bool (gamma_3 w) 0.

(** IntegrateHydro 1797-1846; [L] is the right-hand side computed from the fluxes of this stage. *)
Definition IntegrateHydro {I} (i : integrator) (stage : nat) (w : wght) (dt : R) (L : I -> R)
    (r : regs I) : regs I :=
  if main_stage w then
    let v1 := fun x => WeightedAve 1 (delta w) 0 0 0 (u1 r x) (u r x) (u2 r x) 0 0 in
    let '(v, v1) :=
      if is_swap w then (v1, u r)
      else (fun x => WeightedAve (gamma_1 w) (gamma_2 w) (gamma_3 w) 0 0 (u r x) (v1 x) (u2 r x) 0 0, v1) in
    let v := fun x => (v x + Q2R (beta w) * dt * L x)%R in
    let v2 :=
      match i with
      | ssprk5_4 => if Nat.eqb stage 4 then
            fun x => (WeightedAve (-1) 0 0 0 0 (u2 r x) (v1 x) (u2 r x) 0 0
                      + Q2R (dec 63692468666290) * dt * L x)%R
          else u2 r
      | _ => u2 r
      end in
    mkR v v1 v2
  else r.

(** AddSourceTerms 1890-1913. *)
Definition AddSourceTerms {I} (w : wght) (t dt : R) (S : R -> (I -> R) -> I -> R) (prim : I -> R)
    (r : regs I) : regs I :=
  if main_stage w then
    mkR (fun x => u r x + Q2R (beta w) * dt * S (t + Q2R (sbeta w) * dt) prim x)%R (u1 r) (u2 r)
  else r.

(** CalculateHydroOrbital 2626-2640. *)
Definition CalculateHydroOrbital {I} (w : wght) (dt : R) (O : R -> (I -> R) -> I -> R) (r : regs I) : regs I :=
  if orbital_stage w then mkR (O (dt * (Q2R (ebeta w) - Q2R (sbeta w)))%R (u r)) (u1 r) (u2 r) else r.

(** One stage: the right-hand side and the sources are evaluated on the solution left by the previous
    stage (primitives are recovered at the end of each stage). *)
Definition do_stage {I} (i : integrator) (stage : nat) (w : wght) (t dt : R)
    (F : (I -> R) -> I -> R) (S : R -> (I -> R) -> I -> R) (O : R -> (I -> R) -> I -> R)
    (r : regs I) : regs I :=
  let r := Startup i stage r in
  let prim := u r in
  CalculateHydroOrbital w dt O (AddSourceTerms w t dt S prim (IntegrateHydro i stage w dt (F prim) r)).

(** main.cpp 512-513: for (stage=1; stage<=nstages; ++stage) ptlist->DoTaskListOneStage(pmesh, stage);
    the registers before stage [stage] and after it are kept in a trace. *)
Fixpoint do_stages {I} (i : integrator) (stage : nat) (ws : list wght) (t dt : R)
    (F : (I -> R) -> I -> R) (S O : R -> (I -> R) -> I -> R) (r : regs I) : regs I :=
  match ws with
  | [] => r
  | w :: ws => do_stages i (Datatypes.S stage) ws t dt F S O (do_stage i stage w t dt F S O r)
  end.

(** A whole step from u = [v]; u1 and u2 hold whatever the previous step left. *)
Definition step {I} (i : integrator) (ws : list wght) (t dt : R) F S O (v v1 v2 : I -> R) : I -> R :=
  u (do_stages i 1 ws t dt F S O (mkR v v1 v2)).

(** The cfl limit (219-222, 323, 445, 580, 616, 752) and its use (892-904). *)
Definition cfl_limit (i : integrator) (ndim : nat) : Q :=
  match i with
  | vl2 => if Nat.eqb ndim 2 || Nat.eqb ndim 3 then 1#2 else 1
  | rk1 | rk2 | rk3 => 1
  | rk4 => 13925 # 10000
  | ssprk5_4 => 1508 # 1000
  end.
Definition cfl_used (i : integrator) (ndim : nat) (evolve : bool) (cfl_number : Q) : Q :=
  if negb (Qle_bool cfl_number (cfl_limit i ndim)) && evolve then cfl_limit i ndim else cfl_number.
