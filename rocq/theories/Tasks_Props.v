(** C01-C04, C55: task lists.  Vocabulary: Tasks_Spec.v; model: Tasks_Model.v. *)
From Coq Require Import List Arith ZArith NArith Bool Lia Permutation.
From Verif Require Import Tasks_Model Tasks_Spec Tasks_Closure Tasks_Proofs.
Import ListNotations.

(** ** C01: every task list that can be assembled is executable. *)
Theorem C01_time_integrator_lists : forall c, executable recv_of (TimeIntegratorTasks c).
Proof. exact ti_graph. Qed.
Print Assumptions C01_time_integrator_lists.

Theorem C01_super_time_step_lists : forall c, s_hyd c = true \/ s_fld c = true \/ s_scl c = true ->
  executable recv_of (SuperTimeStepTasks c).
Proof. exact sts_graph. Qed.
Print Assumptions C01_super_time_step_lists.

Theorem C01_gravity_chemistry_radiation_lists : forall a b,
  executable recv_of_bnd (BoundaryTasks a) /\ executable [] (ChemRadTasks a) /\
  executable recv_of_imrad (IMRadITTasks a b) /\ executable recv_of_imrad (IMRadComptTasks a b) /\
  executable recv_of_imrad (IMRadHydroTasks a b).
Proof. exact small_graphs. Qed.
Print Assumptions C01_gravity_chemistry_radiation_lists.

Theorem C01_multigrid_lists : forall mlv rb ffas ns flag, ns = 1 \/ ns = 2 ->
  executable recv_of_mg (MGToFiner mlv rb ns flag) /\
  executable recv_of_mg (MGToCoarser mlv rb ffas ns) /\
  executable recv_of_mg (MGFMGProlongate mlv flag) /\ executable recv_of_mg (MGBoundaryCommunication mlv).
Proof.
  intros mlv rb ffas ns flag H. split; [|split; [|exact (mg_other_graphs mlv flag)]].
  - apply mg_finer_graph. right. exact H.
  - apply mg_coarser_graph. destruct H as [-> | ->]; repeat constructor.
Qed.
Print Assumptions C01_multigrid_lists.

(** Finding: with npostsmooth = 0 or npostsmooth >= 3 the list that ends an FMG level waits for a task
    that is not in it, and with npresmooth >= 3 the list is empty and a stage never ends. *)
Theorem C01_multigrid_postsmooth_0_refuted : forall mlv rb, ~ closed_graph (MGToFiner mlv rb 0 2).
Proof. exact mg_finer_nosmooth_not_closed. Qed.
Print Assumptions C01_multigrid_postsmooth_0_refuted.
Theorem C01_multigrid_postsmooth_3_refuted : forall mlv rb ns, 3 <= ns -> ~ closed_graph (MGToFiner mlv rb ns 2).
Proof. exact mg_finer_three_not_closed. Qed.
Print Assumptions C01_multigrid_postsmooth_3_refuted.
Theorem C01_multigrid_presmooth_3_refuted : forall mlv rb ffas ns fuel oc nmb, 3 <= ns -> 0 < nmb ->
  MGToCoarser mlv rb ffas ns = [] /\ DoTaskListOneStage fuel [] oc nmb = None.
Proof.
  intros mlv rb ffas ns fuel oc nmb H Hn. split; [destruct ns as [|[|[|ns]]]; [lia|lia|lia|reflexivity]|].
  apply empty_list_loops. exact Hn.
Qed.
Print Assumptions C01_multigrid_presmooth_3_refuted.

(** ** C02: exactly once, dependencies first. *)
Theorem C02_tasks_run_once_after_dependencies : forall g tasks ocs st rs ev,
  wf_graph g -> compile g = Some tasks ->
  run_calls tasks ocs (reset (length tasks)) = (st, rs, ev) ->
  NoDup (completions ev) /\
  (forall ev1 i s ev2, ev = ev1 ++ (i, s) :: ev2 ->
     i < length g /\ ~ completed ev1 i /\ forall d, depends g i d -> completed_id g ev1 d) /\
  (In Complete rs -> Permutation (completions ev) (seq 0 (length g))) /\
  (g <> [] -> Permutation (completions ev) (seq 0 (length g)) -> In Complete rs).
Proof. exact tasks_once_in_order. Qed.
Print Assumptions C02_tasks_run_once_after_dependencies.

Definition ex_config : config := {| sts := false; mhd := true; scal := true; ml := true; shear := true;
  orb := true; rad := true; cr := true; adaptive := true; rkl1 := false |}.
(* in call n only the first n+1 receive tasks succeed *)
Definition ex_oracle (n : nat) (i : nat) : tstatus :=
  let k := fst (nth i (TimeIntegratorTasks ex_config) (0, [])) in
  if mem (skipn n (map fst recv_of)) k then TFail else if Nat.eqb k NEW_DT then TSuccess else TNext.
Example C02_example : exists tasks st rs ev,
  wf_graph (TimeIntegratorTasks ex_config) /\ compile (TimeIntegratorTasks ex_config) = Some tasks /\
  run_calls tasks (map ex_oracle (seq 0 30)) (reset (length tasks)) = (st, rs, ev) /\
  In Complete rs /\ 100 < length ev.
Proof.
  destruct (compile (TimeIntegratorTasks ex_config)) as [tasks|] eqn:E; [|vm_compute in E; discriminate E].
  destruct (run_calls tasks (map ex_oracle (seq 0 30)) (reset (length tasks))) as [[st rs] ev] eqn:R.
  exists tasks, st, rs, ev. split; [apply ti_graph|]. split; [reflexivity|]. split; [exact R|].
  vm_compute in E. injection E as <-. vm_compute in R. injection R as _ <- <-.
  split; [|apply Nat.ltb_lt; vm_compute; reflexivity].
  repeat (first [left; reflexivity|right]).
Qed.

(** ** C03: a stage always finishes. *)
Theorem C03_all_tasks_eventually_complete : forall g tasks pairs nb (nbr : nat -> nat -> Prop) act oc,
  executable pairs g -> compile g = Some tasks ->
  (forall b b', b < nb -> nbr b b' -> b' < nb) ->
  fair nb (needs_of g pairs nbr) tasks act oc ->
  exists n, forall m, n <= m -> forall b i, b < nb -> i < length g ->
    completed (snd (world tasks act oc m b)) i.
Proof. exact live_executable. Qed.
Print Assumptions C03_all_tasks_eventually_complete.

Theorem C03_stage_terminates : forall g tasks pairs nmb (nbr : nat -> nat -> Prop) oc,
  executable pairs g -> compile g = Some tasks -> g <> [] ->
  (forall b b', b < nmb -> nbr b b' -> b' < nmb) ->
  fair nmb (needs_of g pairs nbr) tasks (fun _ _ => true) oc ->
  exists fuel sts n, DoTaskListOneStage fuel tasks oc nmb = Some sts /\ length sts = nmb /\
    forall b, b < nmb -> nth_error sts b = Some (fst (world tasks (fun _ _ => true) oc n b)) /\
      forall i, i < length g -> completed (snd (world tasks (fun _ _ => true) oc n b)) i.
Proof. exact stage_terminates_executable. Qed.
Print Assumptions C03_stage_terminates.

Theorem C03_time_integrator_stage_terminates : forall c tasks nmb (nbr : nat -> nat -> Prop) oc,
  compile (TimeIntegratorTasks c) = Some tasks ->
  (forall b b', b < nmb -> nbr b b' -> b' < nmb) ->
  fair nmb (needs_of (TimeIntegratorTasks c) recv_of nbr) tasks (fun _ _ => true) oc ->
  exists fuel sts, DoTaskListOneStage fuel tasks oc nmb = Some sts /\ length sts = nmb.
Proof.
  intros c tasks nmb nbr oc Hc Hn Hf.
  destruct (stage_terminates_executable _ tasks recv_of nmb nbr oc (ti_graph c) Hc) as (fuel & sts & n & E & L & _).
  - unfold TimeIntegratorTasks. destruct (negb (sts c)); discriminate.
  - exact Hn.
  - exact Hf.
  - exists fuel, sts. split; assumption.
Qed.
Print Assumptions C03_time_integrator_stage_terminates.

(* Three blocks in a ring; each receive fails in the first five trips of the loop. *)
Definition ring (b b' : nat) : Prop := b' = (b + 1) mod 3.
Definition ring_oracle (n b i : nat) : tstatus :=
  let k := fst (nth i (TimeIntegratorTasks ex_config) (0, [])) in
  if mem (map fst recv_of) k && (n <? 5 + b) then TFail else TNext.
Example C03_example : exists tasks, compile (TimeIntegratorTasks ex_config) = Some tasks /\
  (forall b b', b < 3 -> ring b b' -> b' < 3) /\
  fair 3 (needs_of (TimeIntegratorTasks ex_config) recv_of ring) tasks (fun _ _ => true) ring_oracle /\
  needs_of (TimeIntegratorTasks ex_config) recv_of ring 2 6 0 5.
Proof.
  destruct (compile (TimeIntegratorTasks ex_config)) as [tasks|] eqn:E; [|vm_compute in E; discriminate E].
  exists tasks. split; [reflexivity|]. split; [|split].
  - intros b b' Hb ->. apply Nat.mod_upper_bound. discriminate.
  - split.
    + intros b n _. exists n. split; [lia|reflexivity].
    + intros b i n Hb _ _. exists (5 + b). intros m Hm. unfold ring_oracle.
      replace (m <? 5 + b) with false by (symmetry; apply Nat.ltb_ge; exact Hm).
      rewrite andb_false_r. discriminate.
  - split; [reflexivity|]. exists RECV_HYDFLX, SEND_HYDFLX. split; [eexists; reflexivity|].
    split; [eexists; reflexivity|]. left. reflexivity.
Qed.

(** ** C04: the communication state is cleared last. *)
Theorem C04_clear_after_all_communication : forall c tasks ocs st rs ev,
  compile (TimeIntegratorTasks c) = Some tasks ->
  only_fail (TimeIntegratorTasks c) (map fst recv_of) ocs ->
  run_calls tasks ocs (reset (length tasks)) = (st, rs, ev) ->
  runs_after (TimeIntegratorTasks c) ev CLEAR_ALLBND (comm_tasks recv_of).
Proof.
  intros c tasks ocs st rs ev Hc Ho Hr. eapply ti_clear; try eassumption.
  rewrite <- mem_spec. vm_compute. discriminate.
Qed.
Print Assumptions C04_clear_after_all_communication.

Theorem C04_clear_is_last : forall c tasks ocs st rs ev,
  compile (TimeIntegratorTasks c) = Some tasks ->
  only_fail (TimeIntegratorTasks c) (map fst recv_of) ocs ->
  run_calls tasks ocs (reset (length tasks)) = (st, rs, ev) ->
  forall W, ~ In CLEAR_ALLBND W -> runs_after (TimeIntegratorTasks c) ev CLEAR_ALLBND W.
Proof. exact ti_clear. Qed.
Print Assumptions C04_clear_is_last.

Theorem C04_sts_clear_is_last : forall c tasks ocs st rs ev,
  s_hyd c = true \/ s_fld c = true \/ s_scl c = true ->
  compile (SuperTimeStepTasks c) = Some tasks ->
  only_fail (SuperTimeStepTasks c) (map fst recv_of) ocs ->
  run_calls tasks ocs (reset (length tasks)) = (st, rs, ev) ->
  forall W, ~ In CLEAR_ALLBND W -> runs_after (SuperTimeStepTasks c) ev CLEAR_ALLBND W.
Proof. exact sts_clear. Qed.
Print Assumptions C04_sts_clear_is_last.

Example C04_example : only_fail (TimeIntegratorTasks ex_config) (map fst recv_of) (map ex_oracle (seq 0 30)) /\
  In CLEAR_ALLBND (map fst (TimeIntegratorTasks ex_config)) /\
  In SEND_RADFLXSH (map fst (TimeIntegratorTasks ex_config)) /\ In SEND_RADFLXSH (comm_tasks recv_of).
Proof.
  split; [|split; [|split]].
  - intros oc Hoc i k [ds E] Hk. apply in_map_iff in Hoc. destruct Hoc as (n & <- & _).
    unfold ex_oracle. rewrite (nth_error_nth _ _ _ E). simpl fst.
    destruct (mem (skipn n (map fst recv_of)) k) eqn:M.
    + exfalso. apply Hk. apply mem_spec in M. rewrite <- (firstn_skipn n (map fst recv_of)). apply in_or_app. right. exact M.
    + destruct (Nat.eqb k NEW_DT); discriminate.
  - apply mem_spec. vm_compute. reflexivity.
  - apply mem_spec. vm_compute. reflexivity.
  - apply mem_spec. vm_compute. reflexivity.
Qed.

(** ** C55: primitives are computed from fully updated conserved variables. *)
Theorem C55_primitives_after_all_updates_partial : forall c tasks ocs st rs ev,
  ~ (shear c = true /\ rad c = true /\ ml c = false /\ orb c = false) ->
  compile (TimeIntegratorTasks c) = Some tasks ->
  only_fail (TimeIntegratorTasks c) (map fst recv_of) ocs ->
  run_calls tasks ocs (reset (length tasks)) = (st, rs, ev) ->
  runs_after (TimeIntegratorTasks c) ev CONS2PRIM conserved_updates.
Proof. exact ti_cons2prim. Qed.
Print Assumptions C55_primitives_after_all_updates_partial.

(** The excluded configurations really fail: the radiation source term can be applied to the gas
    after the primitives have been computed. *)
Definition bad_config : config := {| sts := false; mhd := false; scal := false; ml := false; shear := true;
  orb := false; rad := true; cr := false; adaptive := false; rkl1 := false |}.
Definition late_oracle (n i : nat) : tstatus :=
  let k := fst (nth i (TimeIntegratorTasks bad_config) (0, [])) in
  if Nat.eqb k RECV_RADFLX && (n <? 2) then TFail else TNext.
Theorem C55_shearing_radiation_refuted :
  exists tasks ocs st rs ev, compile (TimeIntegratorTasks bad_config) = Some tasks /\
  only_fail (TimeIntegratorTasks bad_config) (map fst recv_of) ocs /\
  run_calls tasks ocs (reset (length tasks)) = (st, rs, ev) /\ In Complete rs /\
  ~ runs_after (TimeIntegratorTasks bad_config) ev CONS2PRIM [SRCTERM_RAD].
Proof.
  destruct (compile (TimeIntegratorTasks bad_config)) as [tasks|] eqn:E; [|vm_compute in E; discriminate E].
  destruct (run_calls tasks (map late_oracle (seq 0 8)) (reset (length tasks))) as [[st rs] ev] eqn:R.
  exists tasks, (map late_oracle (seq 0 8)), st, rs, ev. split; [reflexivity|]. split.
  { intros oc Hoc i k [ds Ei] Hk. apply in_map_iff in Hoc. destruct Hoc as (n & <- & _).
    unfold late_oracle. rewrite (nth_error_nth _ _ _ Ei). simpl fst.
    destruct (Nat.eqb_spec k RECV_RADFLX) as [->|_]; [|discriminate].
    exfalso. apply Hk. apply mem_spec. vm_compute. reflexivity. }
  split; [exact R|].
  vm_compute in E. injection E as <-. vm_compute in R. injection R as _ <- <-.
  split; [repeat (first [left; reflexivity|right])|].
  intros H. unfold runs_after in H.
  assert (X := fun l1 l2 => H 25 l1 TNext l2 (ex_intro _ [RECV_HYDSH] eq_refl)). clear H.
  match type of X with forall l1 l2, ?e = _ -> _ =>
    assert (Y : e = firstn 16 e ++ (25, TNext) :: skipn 17 e) by reflexivity end.
  specialize (X _ _ Y SRCTERM_RAD (or_introl eq_refl)). clear Y.
  destruct X as (j & [ds Ej] & s & Hs & Hin).
  - apply mem_spec. vm_compute. reflexivity.
  - simpl in Hin. unfold TimeIntegratorTasks in Ej. simpl in Ej.
    repeat (destruct Hin as [Hin|Hin]; [injection Hin as <- <-; try congruence; simpl in Ej; discriminate Ej|]).
    destruct Hin.
Qed.
Print Assumptions C55_shearing_radiation_refuted.
