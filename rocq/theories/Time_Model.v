(** Time steps and output scheduling, in exact arithmetic: src/hydro/new_blockdt.cpp, src/mesh/mesh.cpp (NewTimeStep), src/main.cpp (main loop),
    src/outputs/outputs.cpp (MakeOutputs), src/parameter_input.cpp (RollbackNextTime, ForwardNextTime). *)
From Coq Require Import Reals List ZArith Bool.
Import ListNotations.
Local Open Scope R_scope.

(** The comparisons <=, <, == of Real. *)
Definition leR (a b : R) : bool := if Rle_dec a b then true else false.
Definition ltR (a b : R) : bool := if Rlt_dec a b then true else false.
Definition eqR (a b : R) : bool := if Req_EM_T a b then true else false.
(** std::min over a list, starting from a value. *)
Definition min_list (x : R) (l : list R) : R := fold_left Rmin l x.

(** ** new_blockdt.cpp 46-231 *)
(** A cell: width and largest signal speed (82-119; 124-139 with general relativity) in each direction. *)
Record cell := mkC { w1 : R; s1 : R; w2 : R; s2 : R; w3 : R; s3 : R }.
(** The other limits, before the factor of cfl_number: diffusion (161-183; each process that is switched on), Hall effect; and after it: orbital advection,
    user function; cfl_rad of implicit radiation. *)
Record limits := mkLim { parab : list R; hall : list R; orb : list R; user : option R; cfl_rad : option R }.
Record blockdt := mkDt { new_dt : R; new_hyp : R; new_par : R; new_user : R }.
Definition NewBlockTimeStep (real_max cfl : R) (sts : bool) (two_d three_d : bool) (cells : list cell) (l : limits) : blockdt :=
  let hyp := min_list real_max (map (fun c => w1 c / s1 c) cells) in
  let hyp := if two_d then min_list hyp (map (fun c => w2 c / s2 c) cells) else hyp in
  let hyp := if three_d then min_list hyp (map (fun c => w3 c / s3 c) cells) else hyp in
  let par := min_list real_max (parab l) in
  let hyp := min_list hyp (hall l) in
  let hyp := hyp * cfl in
  let par := par * cfl in
  let hyp := match cfl_rad l with Some r => hyp * r | None => hyp end in
  let par := match cfl_rad l with Some r => par * r | None => par end in
  let hyp := min_list hyp (orb l) in
  let dt := Rmin real_max hyp in
  let usr := match user l with Some u => u | None => real_max end in
  let dt := match user l with Some u => Rmin dt u | None => dt end in
  let dt := if sts then dt else Rmin dt par in
  mkDt dt hyp par usr.

(** ** Mesh::NewTimeStep, mesh.cpp 1236-1282.  One rank, then MPI_Allreduce; the blocks of each rank ([b :: bs]: at least one). *)
Definition rank_dt (dt : R) (b : blockdt) (bs : list blockdt) : R := min_list (Rmin (2 * dt) (new_dt b)) (map new_dt (b :: bs)).
Definition rank_par (b : blockdt) (bs : list blockdt) : R := min_list (new_par b) (map new_par (b :: bs)).
Definition min_of (l : list R) : R := match l with [] => 0 | x :: l => min_list x l end.
(** [fixed]: FluidFormulation::fixed; [sts]: Some sts_max_dt_ratio with STS_ENABLED. *)
Definition NewTimeStep (fixed : bool) (sts : option R) (tlim : R) (nlim : Z) (time dt : R) (ranks : list (blockdt * list blockdt)) : R :=
  if fixed then tlim / IZR nlim else
  let dt := min_of (map (fun r => rank_dt dt (fst r) (snd r)) ranks) in
  let par := min_of (map (fun r => rank_par (fst r) (snd r)) ranks) in
  let dt := if ltR time tlim && ltR (tlim - time) dt then tlim - time else dt in
  match sts with Some ratio => if ltR 0 ratio && ltR ratio (dt / par) then ratio * par else dt | None => dt end.

(** ** The main loop, main.cpp 457-553 (what is done inside a step is left out): time += dt; NewTimeStep.  [ranks n]: the blocks after cycle [n].  [None]: the loop has ended. *)
Record clock := mkCl { ncycle : Z; time : R; dt : R }.
Definition cycle (sts : option R) (tlim : R) (nlim : Z) (ranks : list (blockdt * list blockdt)) (s : clock) : option clock :=
  if ltR (time s) tlim && (Z.ltb nlim 0 || Z.ltb (ncycle s) nlim) then
    let t := time s + dt s in Some (mkCl (ncycle s + 1) t (NewTimeStep false sts tlim nlim t (dt s) ranks))
  else None.
Fixpoint loop (sts : option R) (tlim : R) (nlim : Z) (ranks : nat -> list (blockdt * list blockdt)) (n : nat) (s : clock) : clock :=
  match n with O => s | S n => let s := loop sts tlim nlim ranks n s in match cycle sts tlim nlim (ranks n) s with Some s => s | None => s end end.

(** ** Outputs *)
Record out := mkO { next : R; odt : R; dcycle : Z; fnum : Z; isrst : bool }.
(** outputs.cpp 1498-1505. *)
Definition due (start tlim t : R) (ncyc : Z) (wtflag : bool) (o : out) : bool :=
  (eqR t start && leR (next o) start) || (ltR 0 (odt o) && leR (next o) t) || (Z.ltb 0 (dcycle o) && Z.eqb (Z.rem ncyc (dcycle o)) 0) || leR tlim t || (wtflag && isrst o).
(** WriteOutputFile of all formats: the counters (restart.cpp 62-70: not if forced; vtk.cpp 217-220 etc.). *)
Definition counted (wtflag : bool) (o : out) : out := if wtflag && isrst o then o else mkO (next o + odt o) (odt o) (dcycle o) (fnum o + 1) (isrst o).
Definition MakeOutput (start tlim t : R) (ncyc : Z) (wtflag : bool) (o : out) : out * bool := if due start tlim t ncyc wtflag o then (counted wtflag o, true) else (o, false).
(** main.cpp 424 and 547: a sequence of calls at times [ts] with cycle numbers; returns the file numbers and times of the files written. *)
Fixpoint outputs (start tlim : R) (calls : list (R * Z)) (o : out) : out * list (Z * R) :=
  match calls with
  | [] => (o, [])
  | (t, n) :: calls => let '(o1, w) := MakeOutput start tlim t n false o in let '(o2, l) := outputs start tlim calls o1 in (o2, if w then (fnum o, t) :: l else l)
  end.
(** static_cast<int> (parameter_input.cpp 816): toward zero; [None] for a quotient by zero (the conversion is undefined). *)
Definition trunc (x : R) : Z := if leR 0 x then Int_part x else (- Int_part (- x))%Z.
Definition to_int (a b : R) : option Z := if eqR b 0 then None else Some (trunc (a / b)).
Definition fmod (a b : R) : R := a - b * IZR (trunc (a / b)).
(** RollbackNextTime, parameter_input.cpp 754-784 (exact arithmetic: texts have 6 digits): next_time and dt as stored in the restart file. *)
Definition Rollback (next dt : R) : R := next - dt.
(** ForwardNextTime, parameter_input.cpp 790-829: next_time of one output block ([None]: not there, a new output), its dt (maybe changed by the user), and [fresh] from the blocks before it. *)
Definition Forward (t : R) (fresh : bool) (next : option R) (dt0 : R) : option (bool * R) :=
  let fresh := match next with None => true | Some _ => fresh end in
  let nt := match next with None => t | Some x => x end in
  match to_int (t - nt) dt0 with
  | None => None
  | Some q => let d := dt0 * IZR q + dt0 in
      Some (fresh, if ltR 0 d then (let nt := nt + d in if fresh then nt - (fmod nt dt0 + dt0) else nt) else nt)
  end.
Fixpoint ForwardNextTime (t : R) (fresh : bool) (bs : list (option R * R)) : option (list R) :=
  match bs with
  | [] => Some []
  | (n, d) :: bs => match Forward t fresh n d with None => None | Some (f, x) => match ForwardNextTime t f bs with Some l => Some (x :: l) | None => None end end
  end.
