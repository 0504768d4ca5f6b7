(** Specification vocabulary for task lists: traces of task executions. *)
From Coq Require Import List Arith ZArith NArith Bool Permutation.
From Verif Require Import Tasks_Model.
Import ListNotations.

(** Task at position [i] of list [g] has completed (returned something else than [fail]) in trace [tr]. *)
Definition completed (tr : list event) (i : nat) : Prop :=
  exists s, s <> TFail /\ In (i, s) tr.

(** Position [j] holds the task called [k]. *)
Definition at_pos (g : list gtask) (j k : nat) : Prop := exists ds, nth_error g j = Some (k, ds).

(** The task called [k] has completed in [tr]. *)
Definition completed_id (g : list gtask) (tr : list event) (k : nat) : Prop :=
  exists j, at_pos g j k /\ completed tr j.

(** [d] is one of the dependencies of the task at position [i]. *)
Definition depends (g : list gtask) (i d : nat) : Prop :=
  exists k ds, nth_error g i = Some (k, ds) /\ In d ds.

(** Well-formed list: distinct names, names and dependencies within the 128 available bits. *)
Definition wf_graph (g : list gtask) : Prop :=
  NoDup (map fst g) /\
  (forall k ds, In (k, ds) g -> 1 <= k <= 128 /\ (forall d, In d ds -> 1 <= d <= 128)).

(** Every dependency is itself a task of the list. *)
Definition closed_graph (g : list gtask) : Prop :=
  forall i d, depends g i d -> In d (map fst g).

(** The tasks can be ordered so that each one comes after everything it depends on. *)
Definition orderable (g : list gtask) : Prop :=
  exists ord : list nat, Permutation ord (map fst g) /\
    forall l1 k l2, ord = l1 ++ k :: l2 ->
      forall i d, at_pos g i k -> depends g i d -> In d l1.

(** Same, when in addition each receive task [r] must come after the send task [s] it is paired
    with in [pairs] (the send of the neighbouring block, which runs the same list). *)
Definition orderable_with (pairs : list (nat * nat)) (g : list gtask) : Prop :=
  exists ord : list nat, Permutation ord (map fst g) /\
    forall l1 k l2, ord = l1 ++ k :: l2 ->
      (forall i d, at_pos g i k -> depends g i d -> In d l1) /\
      (forall s, In (k, s) pairs -> In s (map fst g) -> In s l1).

(** * Concurrent executions of one stage on many blocks.
    At each step [n] the blocks [b] with [act n b = true] execute one call of DoAllAvailableTasks
    (on one rank: all of them, in one trip of the while loop of DoTaskListOneStage; on several
    ranks: those whose rank happens to move).  [oc n b i] is the outcome that the function of
    task [i] of block [b] would have in that call.  The state of a block is its TaskStates and the
    list of task executions so far. *)
Fixpoint world (tasks : list task) (act : nat -> nat -> bool) (oc : nat -> nat -> nat -> tstatus)
         (n b : nat) : tstates * list event :=
  match n with
  | O => (reset (length tasks), [])
  | S m =>
      let '(st, tr) := world tasks act oc m b in
      if act m b then
        let '(st', _, ev) := DoAllAvailableTasks tasks (oc m b) st in (st', tr ++ ev)
      else (st, tr)
  end.

(** Communication requirement: [needs b i b' j] = task [i] of block [b] cannot succeed before task
    [j] of block [b'] has completed (a receive waits for the neighbour's send). *)
Definition fair (nb : nat) (needs : nat -> nat -> nat -> nat -> Prop) (tasks : list task)
           (act : nat -> nat -> bool) (oc : nat -> nat -> nat -> tstatus) : Prop :=
  (* every block is served again and again *)
  (forall b n, b < nb -> exists m, n <= m /\ act m b = true) /\
  (* once everything a task waits for on other blocks has happened, it eventually stops failing *)
  (forall b i n, b < nb -> i < length tasks ->
     (forall b' j, needs b i b' j -> completed (snd (world tasks act oc n b')) j) ->
     exists m, forall m', m <= m' -> oc m' b i <> TFail).

(** The tasks that completed, in order of completion. *)
Definition is_fail (s : tstatus) : bool := match s with TFail => true | _ => false end.
Definition completions (tr : list event) : list nat :=
  map fst (filter (fun e => negb (is_fail (snd e))) tr).

(** In this trace task [t] of list [g] starts only after all tasks named in [W] have completed. *)
Definition runs_after (g : list gtask) (tr : list event) (t : nat) (W : list nat) : Prop :=
  forall i tr1 s tr2, at_pos g i t -> tr = tr1 ++ (i, s) :: tr2 ->
    forall k, In k W -> In k (map fst g) -> completed_id g tr1 k.

(** In these calls only tasks named in [R] report [fail]. *)
Definition only_fail (g : list gtask) (R : list nat) (ocs : list (nat -> tstatus)) : Prop :=
  forall oc, In oc ocs -> forall i k, at_pos g i k -> ~ In k R -> oc i <> TFail.

(** Receives wait for the matching send of the neighbouring blocks. *)
Definition needs_of (g : list gtask) (pairs : list (nat * nat)) (nbr : nat -> nat -> Prop)
  (b i b' j : nat) : Prop :=
  nbr b b' /\ exists r s, at_pos g i r /\ at_pos g j s /\ In (r, s) pairs.

(** Communication tasks of a family of (receive, send) pairs. *)
Definition comm_tasks (pairs : list (nat * nat)) : list nat := map fst pairs ++ map snd pairs.

(** Tasks that change the conserved variables (or their ghost zones) in the time integrator. *)
Definition conserved_updates : list nat :=
  [INT_HYD; SRC_TERM; SRCTERM_RAD; SRCTERM_CRTC; INT_SCLR; INT_CHM; INT_FLD; CALC_HYDORB;
   CALC_FLDORB; SETB_HYD; SETB_FLD; SETB_SCLR; RECV_HYDSH; RECV_FLDSH; RECV_SCLRSH; PROLONG].

(** A task list that can be executed: names distinct and within the bit field, every dependency
    present, and an execution order exists in which also every receive follows the matching send. *)
Definition executable (pairs : list (nat * nat)) (g : list gtask) : Prop :=
  wf_graph g /\ closed_graph g /\ orderable_with pairs g.
