(** Model of the task-list machinery of Athena++.
    Models: src/task_list/task_id.cpp, task_list.hpp, task_list.cpp and the assembly of every
    concrete task list (time_integrator.cpp, sts_task_list.cpp, grav_task_list.cpp,
    crdiffusion_task_list.cpp, chem_rad_task_list.cpp, im_rad*_task_list.cpp, mg_task_list.cpp). *)
From Coq Require Import List Arith ZArith NArith Bool.
Import ListNotations.

(** * TaskID: two 64-bit fields (task_list.hpp 44-65, kNField_ = 2; task_id.cpp 13-89) *)

(** [TaskID::bitfld_[2]]; each component is a [std::uint64_t]. *)
Definition taskid : Type := (N * N)%type.

(** task_id.cpp 13-21: [TaskID::TaskID(unsigned int id)].  [bitfld_[n]] with n >= kNField_ is an
    out-of-bounds write (undefined behaviour): [None]. *)
Definition TaskID (id : nat) : option taskid :=
  match id with
  | O => Some (0%N, 0%N)
  | S p =>
      let n := p / 64 in let m := p mod 64 in
      match n with
      | 0 => Some (N.shiftl 1 (N.of_nat m), 0%N)
      | 1 => Some (0%N, N.shiftl 1 (N.of_nat m))
      | _ => None
      end
  end.

(** task_id.cpp 38-43. *)
Definition IsUnfinished (fin id : taskid) : bool :=
  N.eqb (N.lor (N.land (fst fin) (fst id)) (N.land (snd fin) (snd id))) 0.

(** task_id.cpp 50-55. *)
Definition CheckDependencies (fin dep : taskid) : bool :=
  andb (N.eqb (N.land (fst fin) (fst dep)) (fst dep))
       (N.eqb (N.land (snd fin) (snd dep)) (snd dep)).

(** task_id.cpp 63-66. *)
Definition SetFinished (fin id : taskid) : taskid :=
  (N.lor (fst fin) (fst id), N.lor (snd fin) (snd id)).

(** task_id.cpp 84-89: operator|. *)
Definition tid_or (a b : taskid) : taskid := (N.lor (fst a) (fst b), N.lor (snd a) (snd b)).

(** task_list.hpp 73-79: [struct Task]; TaskFunc is represented by the outcome oracle of the
    scheduler below, [lb_time] (timing of tasks) is not modelled. *)
Record task := { t_id : taskid; t_dep : taskid }.

(** athena.hpp: enum class TaskStatus {fail, success, next}; TaskListStatus. *)
Inductive tstatus := TFail | TSuccess | TNext.
Inductive tlstatus := Running | Stuck | Complete | NothingToDo.

(** task_list.hpp 85-93: [struct TaskStates]. *)
Record tstates := { finished : taskid; indx_first : nat; num_left : Z }.

(** task_list.hpp 88-92: [TaskStates::Reset(ntasks)]. *)
Definition reset (ntasks : nat) : tstates :=
  {| finished := (0%N, 0%N); indx_first := 0; num_left := Z.of_nat ntasks |}.

(** One execution of a task function: (index in the list, returned status). *)
Definition event : Type := (nat * tstatus)%type.

Definition bump_first (skip : nat) (st : tstates) : tstates :=
  if Nat.eqb skip 0
  then {| finished := finished st; indx_first := S (indx_first st); num_left := num_left st |}
  else st.

(** task_list.cpp 35-59, the loop over [i]; [l] is the rest of the list starting at index [i];
    [oc i] is what TaskFunc of task [i] returns in this call.  Also models the identical loops
    mg_task_list.cpp 62-87 and im_rad_task_list.cpp 34-60. Returns the state, the status and the
    tasks executed in order. *)
Fixpoint scan (oc : nat -> tstatus) (i skip : nat) (l : list task) (st : tstates)
  : tstates * tlstatus * list event :=
  match l with
  | [] => (st, Stuck, [])
  | t :: l' =>
      if IsUnfinished (finished st) (t_id t) then
        if CheckDependencies (finished st) (t_dep t) then
          match oc i with
          | TFail =>
              let '(st', r, ev) := scan oc (S i) (S skip) l' st in (st', r, (i, TFail) :: ev)
          | TNext =>
              let st1 := bump_first skip
                {| finished := SetFinished (finished st) (t_id t);
                   indx_first := indx_first st; num_left := (num_left st - 1)%Z |} in
              if Z.eqb (num_left st1) 0 then (st1, Complete, [(i, TNext)])
              else let '(st', r, ev) := scan oc (S i) skip l' st1 in (st', r, (i, TNext) :: ev)
          | TSuccess =>
              let st1 := bump_first skip
                {| finished := SetFinished (finished st) (t_id t);
                   indx_first := indx_first st; num_left := (num_left st - 1)%Z |} in
              if Z.eqb (num_left st1) 0 then (st1, Complete, [(i, TSuccess)])
              else (st1, Running, [(i, TSuccess)])
          end
        else scan oc (S i) (S skip) l' st
      else scan oc (S i) skip l' (bump_first skip st)
  end.

(** task_list.cpp 30-60: [TaskList::DoAllAvailableTasks]. *)
Definition DoAllAvailableTasks (tasks : list task) (oc : nat -> tstatus) (st : tstates)
  : tstates * tlstatus * list event :=
  if Z.eqb (num_left st) 0 then (st, NothingToDo, [])
  else scan oc (indx_first st) 0 (skipn (indx_first st) tasks) st.

(** A sequence of calls of DoAllAvailableTasks on one MeshBlock, one oracle per call
    (the calls made for this block by the loop of task_list.cpp 79-89). *)
Fixpoint run_calls (tasks : list task) (ocs : list (nat -> tstatus)) (st : tstates)
  : tstates * list tlstatus * list event :=
  match ocs with
  | [] => (st, [], [])
  | oc :: ocs' =>
      let '(st1, r, ev) := DoAllAvailableTasks tasks oc st in
      let '(st2, rs, ev2) := run_calls tasks ocs' st1 in
      (st2, r :: rs, ev ++ ev2)
  end.

(** task_list.cpp 83-88: one trip of the [for] loop over all blocks, sequentially (the OpenMP
    parallelism over blocks is not modelled: the blocks' task states are disjoint).
    Returns the new states and how many blocks reported [complete]. *)
Fixpoint sweep (tasks : list task) (oc : nat -> nat -> tstatus) (b : nat) (sts : list tstates)
  : list tstates * nat :=
  match sts with
  | [] => ([], 0)
  | st :: rest =>
      let '(st', r, _) := DoAllAvailableTasks tasks (oc b) st in
      let '(rest', c) := sweep tasks oc (S b) rest in
      (st' :: rest', match r with Complete => S c | _ => c end)
  end.

(** task_list.cpp 66-91: [TaskList::DoTaskListOneStage] with [nmb] blocks; [oc n b i] is the
    outcome of task [i] of block [b] in trip [n] of the while loop; [fuel] bounds the number of
    trips, [None] = still looping. StartupTaskList is not modelled. *)
Fixpoint stage_loop (fuel n : nat) (tasks : list task) (oc : nat -> nat -> nat -> tstatus)
         (nmb_left : Z) (sts : list tstates) : option (list tstates) :=
  if Z.leb nmb_left 0 then Some sts else
  match fuel with
  | O => None
  | S f =>
      let '(sts', c) := sweep tasks (oc n) 0 sts in
      stage_loop f (S n) tasks oc (nmb_left - Z.of_nat c) sts'
  end.

Definition DoTaskListOneStage (fuel : nat) (tasks : list task)
           (oc : nat -> nat -> nat -> tstatus) (nmb : nat) : option (list tstates) :=
  stage_loop fuel 0 tasks oc (Z.of_nat nmb) (repeat (reset (length tasks)) nmb).

(** * Task lists *)

(** A call AddTask(id, d1|d2|...) with the numeric ids of task_list.hpp; NONE is the empty list. *)
Notation gtask := (nat * list nat)%type.

(** The bit fields that AddTask stores (time_integrator.cpp 1212-1214 and the other AddTask). *)
Definition or_all (ds : list nat) : option taskid :=
  fold_right (fun d acc => match TaskID d, acc with Some a, Some b => Some (tid_or a b) | _, _ => None end)
             (Some (0%N, 0%N)) ds.
Definition compile1 (g : gtask) : option task :=
  match TaskID (fst g), or_all (snd g) with
  | Some i, Some d => Some {| t_id := i; t_dep := d |}
  | _, _ => None
  end.
Fixpoint compile (g : list gtask) : option (list task) :=
  match g with
  | [] => Some []
  | x :: r => match compile1 x, compile r with Some t, Some ts => Some (t :: ts) | _, _ => None end
  end.

Definition when (b : bool) (l : list gtask) : list gtask := if b then l else [].
Definition opt (b : bool) (l : list nat) : list nat := if b then l else [].

(** ** task_list.hpp 301-403: HydroIntegratorTaskNames *)
Definition CLEAR_ALLBND := 1. Definition CALC_HYDFLX := 2. Definition CALC_FLDFLX := 3.
Definition CALC_RADFLX := 4. Definition SEND_HYDFLX := 5. Definition SEND_FLDFLX := 6.
Definition SEND_RADFLX := 7. Definition SEND_CRTCFLX := 8. Definition RECV_HYDFLX := 9.
Definition RECV_FLDFLX := 10. Definition RECV_RADFLX := 11. Definition RECV_CRTCFLX := 12.
Definition SRC_TERM := 13. Definition SRCTERM_CRTC := 14. Definition SRCTERM_RAD := 15.
Definition INT_CRTC := 16. Definition INT_HYD := 17. Definition INT_FLD := 18.
Definition INT_RAD := 19. Definition INT_CHM := 20. Definition SEND_CRTC := 21.
Definition SEND_HYD := 22. Definition SEND_FLD := 23. Definition SEND_RAD := 24.
Definition RECV_CRTC := 25. Definition RECV_HYD := 26. Definition RECV_FLD := 27.
Definition RECV_RAD := 28. Definition SETB_CRTC := 29. Definition SETB_HYD := 30.
Definition SETB_FLD := 31. Definition SETB_RAD := 32. Definition CALC_CRTCFLX := 33.
Definition PROLONG := 34. Definition CONS2PRIM := 35. Definition PHY_BVAL := 36.
Definition USERWORK := 37. Definition NEW_DT := 38. Definition FLAG_AMR := 39.
Definition SEND_HYDFLXSH := 40. Definition SEND_HYDSH := 41. Definition SEND_EMFSH := 42.
Definition SEND_FLDSH := 43. Definition RECV_HYDFLXSH := 44. Definition RECV_HYDSH := 45.
Definition RECV_EMFSH := 46. Definition RECV_FLDSH := 47. Definition DIFFUSE_HYD := 48.
Definition DIFFUSE_FLD := 49. Definition CALC_SCLRFLX := 50. Definition SEND_SCLRFLX := 51.
Definition RECV_SCLRFLX := 52. Definition INT_SCLR := 53. Definition SEND_SCLR := 54.
Definition RECV_SCLR := 55. Definition SETB_SCLR := 56. Definition DIFFUSE_SCLR := 57.
Definition SEND_SCLRFLXSH := 58. Definition SEND_SCLRSH := 59. Definition RECV_SCLRFLXSH := 60.
Definition RECV_SCLRSH := 61. Definition SEND_HYDORB := 62. Definition RECV_HYDORB := 63.
Definition CALC_HYDORB := 64. Definition SEND_FLDORB := 65. Definition RECV_FLDORB := 66.
Definition CALC_FLDORB := 67. Definition CRTC_OPACITY := 68. Definition RAD_MOMOPACITY := 69.
Definition SEND_RADFLXSH := 70. Definition RECV_RADFLXSH := 71. Definition SEND_RADSH := 72.
Definition RECV_RADSH := 73. Definition SRCTERM_IMRAD := 74.

(** The compile-time and run-time switches consulted by the constructor of
    TimeIntegratorTaskList (time_integrator.cpp 83-89, 905-1205). [rad] is [radiation_flag]. *)
Record config := { sts : bool; mhd : bool; scal : bool; ml : bool; shear : bool;
                   orb : bool; rad : bool; cr : bool; adaptive : bool; rkl1 : bool }.

(** time_integrator.cpp 905-1205. Each block of AddTask calls is kept in source order. *)
Definition TimeIntegratorTasks (c : config) : list gtask :=
  let mlsh := ml c || shear c in
  (* 908-925 *)
  (if negb (sts c) then
     [(DIFFUSE_HYD, [])] ++
     (if mhd c then [(DIFFUSE_FLD, []); (CALC_HYDFLX, [DIFFUSE_HYD; DIFFUSE_FLD])]
      else [(CALC_HYDFLX, [DIFFUSE_HYD])]) ++
     when (scal c) [(DIFFUSE_SCLR, []); (CALC_SCLRFLX, [CALC_HYDFLX; DIFFUSE_SCLR])]
   else [(CALC_HYDFLX, [])] ++ when (scal c) [(CALC_SCLRFLX, [CALC_HYDFLX])]) ++
  (* 926-938 *)
  (if mlsh then
     [(SEND_HYDFLX, [CALC_HYDFLX]); (RECV_HYDFLX, [CALC_HYDFLX])] ++
     (if shear c then [(SEND_HYDFLXSH, [RECV_HYDFLX]);
                       (RECV_HYDFLXSH, [SEND_HYDFLX; RECV_HYDFLX]); (INT_HYD, [RECV_HYDFLXSH])]
      else [(INT_HYD, [RECV_HYDFLX])])
   else [(INT_HYD, [CALC_HYDFLX])]) ++
  (* 940-959 *)
  when (rad c)
   ([(CALC_RADFLX, [])] ++
    (if mlsh then
       [(SEND_RADFLX, [CALC_RADFLX]); (RECV_RADFLX, [CALC_RADFLX])] ++
       (if shear c then [(SEND_RADFLXSH, [RECV_RADFLX]);
                         (RECV_RADFLXSH, [SEND_RADFLX; RECV_RADFLX]); (INT_RAD, [RECV_RADFLXSH])]
        else [(INT_RAD, [RECV_RADFLX])])
     else [(INT_RAD, [CALC_RADFLX])]) ++
    [(SRCTERM_RAD, [INT_RAD]); (SEND_RAD, [SRCTERM_RAD]); (RECV_RAD, []);
     (SETB_RAD, [RECV_RAD; SRCTERM_RAD])]) ++
  (* 961-974 *)
  when (cr c)
   ([(CALC_CRTCFLX, [])] ++
    (if ml c then [(SEND_CRTCFLX, [CALC_CRTCFLX]); (RECV_CRTCFLX, [CALC_CRTCFLX]);
                   (INT_CRTC, [RECV_CRTCFLX])]
     else [(INT_CRTC, [CALC_CRTCFLX])]) ++
    [(SRCTERM_CRTC, [INT_CRTC]); (SEND_CRTC, [SRCTERM_CRTC]); (RECV_CRTC, []);
     (SETB_CRTC, [RECV_CRTC; SRCTERM_CRTC])]) ++
  (* 976-980 *)
  [(SRC_TERM, if scal c then [INT_HYD; INT_SCLR; INT_CHM] else [INT_HYD])] ++
  (* 982-1001 *)
  (let src_aterm := [SRC_TERM] ++ opt (rad c) [SRCTERM_RAD] ++ opt (cr c) [SRCTERM_CRTC] in
   if orb c then
     [(SEND_HYDORB, src_aterm); (RECV_HYDORB, []); (CALC_HYDORB, [SEND_HYDORB; RECV_HYDORB]);
      (SEND_HYD, [CALC_HYDORB]); (RECV_HYD, []); (SETB_HYD, [RECV_HYD; CALC_HYDORB])]
   else [(SEND_HYD, src_aterm); (RECV_HYD, []); (SETB_HYD, [RECV_HYD; SRC_TERM])]) ++
  (* 1003-1013 *)
  when (shear c)
   ([(SEND_HYDSH, [SETB_HYD]); (RECV_HYDSH, [SEND_HYDSH])] ++
    when (rad c) [(SEND_RADSH, [SETB_RAD]); (RECV_RADSH, [SEND_RADSH; RECV_HYDSH])]) ++
  (* 1015-1043 *)
  when (scal c)
   ((if mlsh then
       [(SEND_SCLRFLX, [CALC_SCLRFLX]); (RECV_SCLRFLX, [CALC_SCLRFLX])] ++
       (if shear c then [(SEND_SCLRFLXSH, [RECV_SCLRFLX]);
                         (RECV_SCLRFLXSH, [SEND_SCLRFLX; RECV_SCLRFLX]); (INT_SCLR, [RECV_SCLRFLXSH])]
        else [(INT_SCLR, [RECV_SCLRFLX])])
     else [(INT_SCLR, [CALC_SCLRFLX])]) ++
    [(INT_CHM, [INT_HYD; INT_SCLR])] ++
    (if orb c then [(SEND_SCLR, [CALC_HYDORB]); (RECV_SCLR, []); (SETB_SCLR, [RECV_SCLR; CALC_HYDORB])]
     else [(SEND_SCLR, [SRC_TERM]); (RECV_SCLR, []); (SETB_SCLR, [RECV_SCLR; SRC_TERM])]) ++
    when (shear c) [(SEND_SCLRSH, [SETB_SCLR]); (RECV_SCLRSH, [SEND_SCLRSH])]) ++
  (* 1045-1166 *)
  (if mhd c then
     [(CALC_FLDFLX, [CALC_HYDFLX]); (SEND_FLDFLX, [CALC_FLDFLX]); (RECV_FLDFLX, [SEND_FLDFLX])] ++
     (if shear c then [(SEND_EMFSH, [RECV_FLDFLX]); (RECV_EMFSH, [RECV_FLDFLX]); (INT_FLD, [RECV_EMFSH])]
      else [(INT_FLD, [RECV_FLDFLX])]) ++
     (if orb c then
        [(SEND_FLDORB, [INT_FLD]); (RECV_FLDORB, []); (CALC_FLDORB, [SEND_FLDORB; RECV_FLDORB]);
         (SEND_FLD, [CALC_FLDORB]); (RECV_FLD, []); (SETB_FLD, [RECV_FLD; CALC_FLDORB])]
      else [(SEND_FLD, [INT_FLD]); (RECV_FLD, []); (SETB_FLD, [RECV_FLD; INT_FLD])]) ++
     when (shear c) [(SEND_FLDSH, [SETB_FLD]); (RECV_FLDSH, [SEND_FLDSH])] ++
     (if ml c then
        [(PROLONG, [SEND_HYD; SEND_FLD] ++
            (if shear c then
               if scal c then [RECV_HYDSH; SEND_SCLR; RECV_SCLRSH; RECV_FLDSH]
               else [RECV_HYDSH; RECV_FLDSH]
             else
               if scal c then [SETB_HYD; SETB_FLD; SEND_SCLR; SETB_SCLR] else [SETB_HYD; SETB_FLD]) ++
            opt (rad c) ([SEND_RAD; SETB_RAD] ++ opt (shear c) [RECV_RADSH]) ++
            opt (cr c) [SEND_CRTC; SETB_CRTC]);
         (CONS2PRIM, [PROLONG])]
      else
        [(CONS2PRIM,
          if shear c then
            if scal c then [RECV_HYDSH; RECV_FLDSH; RECV_SCLRSH] else [RECV_HYDSH; RECV_FLDSH]
          else
            if scal c then [SETB_HYD; SETB_FLD; SETB_SCLR] else [SETB_HYD; SETB_FLD])])
   else
     (if ml c then
        [(PROLONG, [SEND_HYD] ++
            (if shear c then
               if scal c then [RECV_HYDSH; SEND_SCLR; RECV_SCLRSH] else [RECV_HYDSH]
             else
               if scal c then [SETB_HYD; SEND_SCLR; SETB_SCLR] else [SETB_HYD]) ++
            opt (rad c) ([SEND_RAD; SETB_RAD] ++ opt (shear c) [RECV_RADSH]) ++
            opt (cr c) [SEND_CRTC; SETB_CRTC]);
         (CONS2PRIM, [PROLONG])]
      else
        [(CONS2PRIM,
          if shear c then
            if scal c then [RECV_HYDSH; RECV_SCLRSH] else [RECV_HYDSH]
          else
            if scal c then [SETB_HYD; SETB_SCLR] else [SETB_HYD])])) ++
  (* 1168-1191 *)
  [(PHY_BVAL, [CONS2PRIM] ++ opt (rad c) ([SETB_RAD; SEND_RAD] ++ opt (shear c) [RECV_RADSH])
              ++ opt (cr c) [SETB_CRTC; SEND_CRTC])] ++
  when (rad c) [(RAD_MOMOPACITY, [PHY_BVAL])] ++
  when (cr c) [(CRTC_OPACITY, [PHY_BVAL])] ++
  (* 1193-1204 *)
  (if negb (sts c) || rkl1 c then
     [(USERWORK, [PHY_BVAL] ++ opt (rad c) [RAD_MOMOPACITY] ++ opt (cr c) [CRTC_OPACITY]);
      (NEW_DT, [USERWORK])] ++
     (if adaptive c then [(FLAG_AMR, [USERWORK]); (CLEAR_ALLBND, [FLAG_AMR])]
      else [(CLEAR_ALLBND, [NEW_DT])])
   else [(CLEAR_ALLBND, [PHY_BVAL])]).

(** Switches of SuperTimeStepTaskList (sts_task_list.cpp 73-113). *)
Record sts_config := { s_hyd : bool; s_fld : bool; s_scl : bool; s_ml : bool;
                       s_shear : bool; s_adaptive : bool; s_rkl2 : bool }.

(** sts_task_list.cpp 115-337. *)
Definition SuperTimeStepTasks (c : sts_config) : list gtask :=
  let mlsh := s_ml c || s_shear c in
  when (s_hyd c) [(DIFFUSE_HYD, [])] ++
  (if s_fld c then
     [(DIFFUSE_FLD, [])] ++ when (s_hyd c) [(CALC_HYDFLX, [DIFFUSE_HYD; DIFFUSE_FLD])]
   else when (s_hyd c) [(CALC_HYDFLX, [DIFFUSE_HYD])]) ++
  when (s_scl c)
   [(DIFFUSE_SCLR, []);
    (CALC_SCLRFLX, if s_hyd c then [CALC_HYDFLX; DIFFUSE_SCLR] else [DIFFUSE_SCLR])] ++
  when (s_hyd c)
   ((if mlsh then
       [(SEND_HYDFLX, [CALC_HYDFLX]); (RECV_HYDFLX, [CALC_HYDFLX])] ++
       (if s_shear c then [(SEND_HYDFLXSH, [RECV_HYDFLX]);
                           (RECV_HYDFLXSH, [SEND_HYDFLX; RECV_HYDFLX]); (INT_HYD, [RECV_HYDFLXSH])]
        else [(INT_HYD, [RECV_HYDFLX])])
     else [(INT_HYD, [CALC_HYDFLX])]) ++
    [(SEND_HYD, [INT_HYD]); (RECV_HYD, []); (SETB_HYD, [RECV_HYD; INT_HYD])] ++
    when (s_shear c) [(SEND_HYDSH, [SETB_HYD]); (RECV_HYDSH, [SEND_HYDSH])]) ++
  when (s_scl c)
   ((if mlsh then
       [(SEND_SCLRFLX, [CALC_SCLRFLX]); (RECV_SCLRFLX, [CALC_SCLRFLX])] ++
       (if s_shear c then [(SEND_SCLRFLXSH, [RECV_SCLRFLX]);
                           (RECV_SCLRFLXSH, [SEND_SCLRFLX; RECV_SCLRFLX]); (INT_SCLR, [RECV_SCLRFLXSH])]
        else [(INT_SCLR, [RECV_SCLRFLX])])
     else [(INT_SCLR, [CALC_SCLRFLX])]) ++
    [(SEND_SCLR, [INT_SCLR]); (RECV_SCLR, []); (SETB_SCLR, [RECV_SCLR; INT_SCLR])] ++
    when (s_shear c) [(SEND_SCLRSH, [SETB_SCLR]); (RECV_SCLRSH, [SEND_SCLRSH])]) ++
  (if s_fld c then
     [(CALC_FLDFLX, if s_hyd c then [CALC_HYDFLX] else [DIFFUSE_FLD]);
      (SEND_FLDFLX, [CALC_FLDFLX]); (RECV_FLDFLX, [SEND_FLDFLX])] ++
     (if s_shear c then [(SEND_EMFSH, [RECV_FLDFLX]); (RECV_EMFSH, [RECV_FLDFLX]); (INT_FLD, [RECV_EMFSH])]
      else [(INT_FLD, [RECV_FLDFLX])]) ++
     [(SEND_FLD, [INT_FLD]); (RECV_FLD, []); (SETB_FLD, [RECV_FLD; INT_FLD])] ++
     when (s_shear c) [(SEND_FLDSH, [SETB_FLD]); (RECV_FLDSH, [SEND_FLDSH])] ++
     (if s_ml c then
        [(PROLONG,
          if s_scl c then
            if s_hyd c then
              if s_shear c then [SEND_HYD; RECV_HYDSH; SEND_FLD; RECV_FLDSH; SEND_SCLR; RECV_SCLRSH]
              else [SEND_HYD; SETB_HYD; SEND_FLD; SETB_FLD; SEND_SCLR; SETB_SCLR]
            else
              if s_shear c then [SEND_FLD; RECV_FLDSH; SEND_SCLR; RECV_SCLRSH]
              else [SEND_FLD; SETB_FLD; SEND_SCLR; SETB_SCLR]
          else
            if s_hyd c then
              if s_shear c then [SEND_HYD; RECV_HYDSH; SEND_FLD; RECV_FLDSH]
              else [SEND_HYD; SETB_HYD; SEND_FLD; SETB_FLD]
            else
              if s_shear c then [SEND_FLD; RECV_FLDSH] else [SEND_FLD; SETB_FLD]);
         (CONS2PRIM, [PROLONG])]
      else
        [(CONS2PRIM,
          if s_scl c then
            if s_hyd c then
              if s_shear c then [RECV_HYDSH; RECV_FLDSH; RECV_SCLRSH] else [SETB_HYD; SETB_FLD; SETB_SCLR]
            else
              if s_shear c then [RECV_FLDSH; RECV_SCLRSH] else [SETB_FLD; SETB_SCLR]
          else
            if s_hyd c then
              if s_shear c then [RECV_HYDSH; RECV_FLDSH] else [SETB_HYD; SETB_FLD]
            else
              if s_shear c then [RECV_FLDSH] else [SETB_FLD])])
   else if s_hyd c then
     (if s_ml c then
        [(PROLONG,
          if s_scl c then
            if s_shear c then [SEND_HYD; RECV_HYDSH; SEND_SCLR; RECV_SCLRSH]
            else [SEND_HYD; SETB_HYD; SEND_SCLR; SETB_SCLR]
          else if s_shear c then [SEND_HYD; RECV_HYDSH] else [SEND_HYD; SETB_HYD]);
         (CONS2PRIM, [PROLONG])]
      else
        [(CONS2PRIM,
          if s_scl c then
            if s_shear c then [RECV_HYDSH; RECV_SCLRSH] else [SETB_HYD; SETB_SCLR]
          else if s_shear c then [RECV_HYDSH] else [SETB_HYD])])
   else
     (if s_ml c then
        [(PROLONG, if s_shear c then [SEND_SCLR; RECV_SCLRSH] else [SEND_SCLR; SETB_SCLR]);
         (CONS2PRIM, [PROLONG])]
      else [(CONS2PRIM, if s_shear c then [RECV_SCLRSH] else [SETB_SCLR])])) ++
  [(PHY_BVAL, [CONS2PRIM])] ++
  (if s_rkl2 c then
     [(USERWORK, [PHY_BVAL]); (NEW_DT, [USERWORK])] ++
     (if s_adaptive c then [(FLAG_AMR, [USERWORK]); (CLEAR_ALLBND, [FLAG_AMR])]
      else [(CLEAR_ALLBND, [NEW_DT])])
   else [(CLEAR_ALLBND, [PHY_BVAL])]).

(** grav_task_list.cpp 28-39 and crdiffusion_task_list.cpp 29-40 (same ids 1..6:
    grav_task_list.hpp 49-56, crdiffusion_task_list.hpp 49-56). CLEAR=1 SEND=2 RECV=3 SETB=4 PROLONG=5 PHYS=6. *)
Definition BoundaryTasks (multilevel : bool) : list gtask :=
  [(2, []); (3, []); (4, [3; 2])] ++
  (if multilevel then [(5, [4]); (6, [5])] else [(6, [4])]) ++ [(1, [6])].

(** chem_rad_task_list.cpp 31-50; ids chem_rad_task_list.hpp 62-78. *)
Definition ChemRadTasks (six_ray : bool) : list gtask :=
  if six_ray then
    [(2, []); (8, [2]); (3, []); (9, [3]); (4, []); (10, [4]); (5, []); (11, [5]);
     (6, []); (12, [6]); (7, []); (13, [7]); (15, [8; 9; 10; 11; 12; 13]); (14, [15])]
  else [(1, [])].

(** im_radit_task_list.cpp 30-52 (first task FLX_AND_SRC=10, last CHK_RAD_RES=9) and
    im_rad_compt_task_list.cpp 30-49 (first task CAL_COMPT=9); ids im_rad_task_list.hpp 129-168:
    CLEAR=1 SEND=2 RECV=3 SETB=4 PHYS=5 PRLN=6 SEND_SH=7 RECV_SH=8. *)
Definition IMRadITTasks (shear_p multilevel : bool) : list gtask :=
  [(10, []); (2, [10]); (3, [10]); (4, [3; 2])] ++
  when shear_p [(7, [4]); (8, [7; 3])] ++
  (let setb := [4] ++ opt shear_p [8] in
   if multilevel then [(6, setb); (5, [6])] else [(5, setb)]) ++
  [(1, [5]); (9, [10])].
Definition IMRadComptTasks (shear_p multilevel : bool) : list gtask :=
  [(9, []); (2, [9]); (3, [9]); (4, [3; 2])] ++
  when shear_p [(7, [4]); (8, [7; 3])] ++
  (let setb := [4] ++ opt shear_p [8] in
   if multilevel then [(6, setb); (5, [6])] else [(5, setb)]) ++
  [(1, [5])].

(** im_radhydro_task_list.cpp 37-58; ids im_rad_task_list.hpp 144-155: CLEAR=1 SEND=2 RECV=3 SETB=4
    PHYS=5 PRLN=6 SEND_SH=7 RECV_SH=8 UPD_OPA=9 ADD_RAD_SRC=10 CONS_TO_PRIM=11. *)
Definition IMRadHydroTasks (shear_p multilevel : bool) : list gtask :=
  [(10, []); (2, [10]); (3, []); (4, [3; 2])] ++
  when shear_p [(7, [4]); (8, [7; 3])] ++
  (let setb := [4] ++ opt shear_p [8] in
   if multilevel then [(6, setb); (11, [6])] else [(11, setb)]) ++
  [(5, [11]); (1, [5]); (9, [5])].

(** ** Multigrid lists; ids mg_task_list.hpp 90-139. *)
Definition MG_STARTRECV0 := 1. Definition MG_STARTRECV1R := 2. Definition MG_STARTRECV1B := 3.
Definition MG_STARTRECV2R := 4. Definition MG_STARTRECV2B := 5. Definition MG_STARTRECVP := 6.
Definition MG_STARTRECVL := 7. Definition MG_CLEARBND0 := 8. Definition MG_CLEARBND1R := 9.
Definition MG_CLEARBND1B := 10. Definition MG_CLEARBND2R := 11. Definition MG_CLEARBND2B := 12.
Definition MG_CLEARBNDP := 13. Definition MG_CLEARBNDL := 14. Definition MG_SENDBND0 := 15.
Definition MG_SENDBND1R := 16. Definition MG_SENDBND1B := 17. Definition MG_SENDBND2R := 18.
Definition MG_SENDBND2B := 19. Definition MG_SENDBNDP := 20. Definition MG_SENDBNDL := 21.
Definition MG_RECVBND0 := 22. Definition MG_RECVBND1R := 23. Definition MG_RECVBND1B := 24.
Definition MG_RECVBND2R := 25. Definition MG_RECVBND2B := 26. Definition MG_RECVBNDP := 27.
Definition MG_RECVBNDL := 28. Definition MG_PRLNGBNDP := 29. Definition MG_PRLNGFC0 := 30.
Definition MG_PRLNGFC1R := 31. Definition MG_PRLNGFC1B := 32. Definition MG_PRLNGFC2R := 33.
Definition MG_PRLNGFC2B := 34. Definition MG_PRLNGFCL := 35. Definition MG_SMOOTH1R := 36.
Definition MG_SMOOTH1B := 37. Definition MG_SMOOTH2R := 38. Definition MG_SMOOTH2B := 39.
Definition MG_PHYSBND0 := 40. Definition MG_PHYSBND1R := 41. Definition MG_PHYSBND1B := 42.
Definition MG_PHYSBND2R := 43. Definition MG_PHYSBND2B := 44. Definition MG_PHYSBNDL := 45.
Definition MG_RESTRICT := 46. Definition MG_PROLONG := 47. Definition MG_FMGPROLONG := 48.
Definition MG_CALCFASRHS := 49.

(** The recurring group: start receive, send, receive, [prolongate at level boundaries,] physical
    boundary (e.g. mg_task_list.cpp 314-322). *)
Definition mg_comm (multilevel : bool) (start : gtask) (send recv prln phys : nat) : list gtask :=
  [start; (send, [fst start]); (recv, [fst start])] ++
  (if multilevel then [(prln, [send; recv]); (phys, [prln])] else [(phys, [send; recv])]).

(** mg_task_list.cpp 293-383: SetMGTaskListToFiner(nsmooth, ngh, flag). *)
Definition MGToFiner (multilevel redblack : bool) (nsmooth flag : nat) : list gtask :=
  (if Nat.eqb flag 1 then [(MG_PROLONG, [])]
   else mg_comm multilevel (MG_STARTRECVP, []) MG_SENDBNDP MG_RECVBNDP MG_PRLNGBNDP MG_PHYSBND0 ++
        [(MG_PROLONG, [MG_PHYSBND0]); (MG_CLEARBNDP, [MG_PROLONG])]) ++
  when (1 <=? nsmooth)
   (mg_comm multilevel (MG_STARTRECV1R, if Nat.eqb flag 1 then [MG_PROLONG] else [MG_CLEARBNDP])
            MG_SENDBND1R MG_RECVBND1R MG_PRLNGFC1R MG_PHYSBND1R ++
    [(MG_SMOOTH1R, [MG_PHYSBND1R])] ++
    (if redblack then
       [(MG_CLEARBND1R, [MG_SMOOTH1R])] ++
       mg_comm multilevel (MG_STARTRECV1B, [MG_CLEARBND1R]) MG_SENDBND1B MG_RECVBND1B MG_PRLNGFC1B MG_PHYSBND1B ++
       [(MG_SMOOTH1B, [MG_PHYSBND1B]); (MG_CLEARBND1B, [MG_SMOOTH1B])]
     else [(MG_CLEARBND1B, [MG_SMOOTH1R])])) ++
  when (Nat.eqb nsmooth 2)
   (mg_comm multilevel (MG_STARTRECV2R, [MG_CLEARBND1B]) MG_SENDBND2R MG_RECVBND2R MG_PRLNGFC2R MG_PHYSBND2R ++
    [(MG_SMOOTH2R, [MG_PHYSBND2R])] ++
    (if redblack then
       [(MG_CLEARBND2R, [MG_SMOOTH2R])] ++
       mg_comm multilevel (MG_STARTRECV2B, [MG_CLEARBND2R]) MG_SENDBND2B MG_RECVBND2B MG_PRLNGFC2B MG_PHYSBND2B ++
       [(MG_SMOOTH2B, [MG_PHYSBND2B]); (MG_CLEARBND2B, [MG_SMOOTH2B])]
     else [(MG_CLEARBND2B, [MG_SMOOTH2R])])) ++
  when (Nat.eqb flag 2)
   (mg_comm multilevel
      (MG_STARTRECVL, if Nat.eqb nsmooth 0 then [MG_CLEARBND0]
                      else if Nat.eqb nsmooth 1 then [MG_CLEARBND1B] else [MG_CLEARBND2B])
      MG_SENDBNDL MG_RECVBNDL MG_PRLNGFCL MG_PHYSBNDL ++
    [(MG_CLEARBNDL, [MG_PHYSBNDL])]).

(** One (red or red-black) presmoothing of mg_task_list.cpp 411-445 (first smoothing). *)
Definition mg_presmooth1 (multilevel redblack ffas : bool) : list gtask :=
  mg_comm multilevel (MG_STARTRECV1R, []) MG_SENDBND1R MG_RECVBND1R MG_PRLNGFC1R MG_PHYSBND1R ++
  (if ffas then [(MG_CALCFASRHS, [MG_PHYSBND1R]); (MG_SMOOTH1R, [MG_CALCFASRHS])]
   else [(MG_SMOOTH1R, [MG_PHYSBND1R])]) ++
  (if redblack then
     [(MG_CLEARBND1R, [MG_SMOOTH1R])] ++
     mg_comm multilevel (MG_STARTRECV1B, [MG_CLEARBND1R]) MG_SENDBND1B MG_RECVBND1B MG_PRLNGFC1B MG_PHYSBND1B ++
     [(MG_SMOOTH1B, [MG_PHYSBND1B]); (MG_CLEARBND1B, [MG_SMOOTH1B])]
   else [(MG_CLEARBND1B, [MG_SMOOTH1R])]).

(** mg_task_list.cpp 390-520: SetMGTaskListToCoarser(nsmooth, ngh); nothing is added for nsmooth > 2. *)
Definition MGToCoarser (multilevel redblack ffas : bool) (nsmooth : nat) : list gtask :=
  match nsmooth with
  | 0 =>
      mg_comm multilevel (MG_STARTRECV0, []) MG_SENDBND0 MG_RECVBND0 MG_PRLNGFC0 MG_PHYSBND0 ++
      (if ffas then [(MG_CALCFASRHS, [MG_PHYSBND0]); (MG_RESTRICT, [MG_CALCFASRHS])]
       else [(MG_RESTRICT, [MG_PHYSBND0])]) ++
      [(MG_CLEARBND0, [MG_RESTRICT])]
  | 1 =>
      mg_presmooth1 multilevel redblack ffas ++
      mg_comm multilevel (MG_STARTRECV0, [MG_CLEARBND1B]) MG_SENDBND0 MG_RECVBND0 MG_PRLNGFC0 MG_PHYSBND0 ++
      [(MG_RESTRICT, [MG_PHYSBND0]); (MG_CLEARBND0, [MG_RESTRICT])]
  | 2 =>
      mg_presmooth1 multilevel redblack ffas ++
      mg_comm multilevel (MG_STARTRECV2R, [MG_CLEARBND1B]) MG_SENDBND2R MG_RECVBND2R MG_PRLNGFC2R MG_PHYSBND2R ++
      [(MG_SMOOTH2R, [MG_PHYSBND2R])] ++
      (if redblack then
         [(MG_CLEARBND2R, [MG_SMOOTH2R])] ++
         mg_comm multilevel (MG_STARTRECV2B, [MG_CLEARBND2R]) MG_SENDBND2B MG_RECVBND2B MG_PRLNGFC2B MG_PHYSBND2B ++
         [(MG_SMOOTH2B, [MG_PHYSBND2B]); (MG_CLEARBND2B, [MG_SMOOTH2B])]
       else [(MG_CLEARBND2B, [MG_SMOOTH2R])]) ++
      mg_comm multilevel (MG_STARTRECV0, [MG_CLEARBND2B]) MG_SENDBND0 MG_RECVBND0 MG_PRLNGFC0 MG_PHYSBND0 ++
      [(MG_RESTRICT, [MG_PHYSBND0]); (MG_CLEARBND0, [MG_RESTRICT])]
  | _ => []
  end.

(** mg_task_list.cpp 527-545: SetMGTaskListFMGProlongate(flag). *)
Definition MGFMGProlongate (multilevel : bool) (flag : nat) : list gtask :=
  if Nat.eqb flag 1 then [(MG_FMGPROLONG, [])]
  else mg_comm multilevel (MG_STARTRECVP, []) MG_SENDBNDP MG_RECVBNDP MG_PRLNGBNDP MG_PHYSBND0 ++
       [(MG_FMGPROLONG, [MG_PHYSBND0]); (MG_CLEARBNDP, [MG_FMGPROLONG])].

(** mg_task_list.cpp 552-569: SetMGTaskListBoundaryCommunication(). *)
Definition MGBoundaryCommunication (multilevel : bool) : list gtask :=
  mg_comm multilevel (MG_STARTRECVL, []) MG_SENDBNDL MG_RECVBNDL MG_PRLNGFCL MG_PHYSBNDL ++
  [(MG_CLEARBNDL, [MG_PHYSBNDL])].

(** ** Which tasks can report [fail] (be retried), and which receive waits for which send.
    In the time integrator and STS lists exactly the receive tasks return [fail] while the stage
    number is valid (time_integrator.cpp 1690-3080; sts_task_list.cpp 480-1265). *)
Definition recv_of : list (nat * nat) :=   (* (receive task, matching send task) *)
  [(RECV_HYDFLX, SEND_HYDFLX); (RECV_FLDFLX, SEND_FLDFLX); (RECV_RADFLX, SEND_RADFLX);
   (RECV_CRTCFLX, SEND_CRTCFLX); (RECV_CRTC, SEND_CRTC); (RECV_HYD, SEND_HYD); (RECV_FLD, SEND_FLD);
   (RECV_RAD, SEND_RAD); (RECV_HYDFLXSH, SEND_HYDFLXSH); (RECV_HYDSH, SEND_HYDSH);
   (RECV_EMFSH, SEND_EMFSH); (RECV_FLDSH, SEND_FLDSH); (RECV_SCLRFLX, SEND_SCLRFLX);
   (RECV_SCLR, SEND_SCLR); (RECV_SCLRFLXSH, SEND_SCLRFLXSH); (RECV_SCLRSH, SEND_SCLRSH);
   (RECV_HYDORB, SEND_HYDORB); (RECV_FLDORB, SEND_FLDORB); (RECV_RADFLXSH, SEND_RADFLXSH);
   (RECV_RADSH, SEND_RADSH)].
Definition recv_of_bnd : list (nat * nat) := [(3, 2)].           (* gravity / CR diffusion *)
Definition recv_of_imrad : list (nat * nat) := [(3, 2); (8, 7)]. (* implicit radiation lists *)
Definition recv_of_mg : list (nat * nat) :=
  [(MG_RECVBND0, MG_SENDBND0); (MG_RECVBND1R, MG_SENDBND1R); (MG_RECVBND1B, MG_SENDBND1B);
   (MG_RECVBND2R, MG_SENDBND2R); (MG_RECVBND2B, MG_SENDBND2B); (MG_RECVBNDP, MG_SENDBNDP);
   (MG_RECVBNDL, MG_SENDBNDL)].
