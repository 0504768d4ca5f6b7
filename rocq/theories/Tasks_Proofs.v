(** Proofs of the task-list properties (statements restated in Tasks_Props.v). *)
From Coq Require Import List Arith ZArith NArith Bool Lia Permutation.
From Verif Require Import Tasks_Model Tasks_Spec Tasks_Bits Tasks_Sched Tasks_Live Tasks_Closure.
Import ListNotations.

Lemma completions_app a b : completions (a ++ b) = completions a ++ completions b.
Proof. unfold completions. rewrite filter_app, map_app. reflexivity. Qed.
Lemma in_completions tr i : In i (completions tr) <-> completed tr i.
Proof.
  unfold completions, completed. rewrite in_map_iff. split.
  - intros ([j s] & <- & H). apply filter_In in H. destruct H as [H1 H2]. exists s. split; [|exact H1].
    destruct s; simpl in H2; congruence.
  - intros (s & Hs & H). exists (i, s). split; [reflexivity|]. apply filter_In. split; [exact H|].
    destruct s; [congruence|reflexivity|reflexivity].
Qed.
Lemma NoDup_snoc {A} (l : list A) x : NoDup l -> ~ In x l -> NoDup (l ++ [x]).
Proof.
  intros H N0. apply (Permutation_NoDup (l := x :: l)).
  - eapply perm_trans; [apply Permutation_cons_append|reflexivity].
  - constructor; assumption.
Qed.
Lemma trace_nodup g nf tr : Trace_ok g nf tr -> NoDup (completions tr) /\ (forall i, In i (completions tr) -> i < length g).
Proof.
  induction tr as [|[i s] tr IH] using rev_ind; intros T.
  - split; [constructor|intros i []].
  - assert (T' : Trace_ok g nf tr).
    { intros a j s' b E. apply (T a j s' (b ++ [(i, s)])). rewrite E, <- app_assoc. reflexivity. }
    destruct (IH T') as [N1 R1]. destruct (T tr i s [] eq_refl) as (Hi & Hn & _).
    rewrite completions_app. unfold completions at 2 4. simpl.
    destruct (is_fail s); simpl; [rewrite app_nil_r; split; assumption|].
    split.
    + apply NoDup_snoc; [exact N1|]. intros X. apply Hn. apply in_completions. exact X.
    + intros j Hj. apply in_app_or in Hj. destruct Hj as [Hj|[<-|[]]]; [auto|exact Hi].
Qed.

Theorem tasks_once_in_order g tasks ocs st rs ev :
  wf_graph g -> compile g = Some tasks ->
  run_calls tasks ocs (reset (length tasks)) = (st, rs, ev) ->
  NoDup (completions ev) /\
  (forall ev1 i s ev2, ev = ev1 ++ (i, s) :: ev2 ->
     i < length g /\ ~ completed ev1 i /\ forall d, depends g i d -> completed_id g ev1 d) /\
  (In Complete rs -> Permutation (completions ev) (seq 0 (length g))) /\
  (g <> [] -> Permutation (completions ev) (seq 0 (length g)) -> In Complete rs).
Proof.
  intros Hwf Hc Hrun.
  assert (Hnf : forall oc, In oc ocs -> forall i, (fun _ : nat => False) i -> oc i <> TFail) by (intros ? ? ? []).
  destruct (run_inv g tasks Hwf Hc _ ocs Hnf _ [] st rs ev (Inv_reset g tasks Hc) (Trace_ok_nil g _) Hrun) as [I T].
  simpl in I, T.
  destruct (run_complete g tasks Hwf Hc _ ocs Hnf _ [] st rs ev (Inv_reset g tasks Hc) (Trace_ok_nil g _) Hrun) as [C0 C1].
  destruct (trace_nodup _ _ _ T) as [ND R].
  assert (G : num_left st = 0%Z <-> Permutation (completions ev) (seq 0 (length g))).
  { rewrite (uncompleted_zero g Hwf st ev I). split.
    - intros H. apply NoDup_Permutation; [exact ND|apply seq_NoDup|]. intros i. rewrite in_seq. split.
      + intros Hi. apply R in Hi. lia.
      + intros Hi. apply in_completions. apply H. lia.
    - intros P i Hi. apply in_completions. apply (Permutation_in _ (Permutation_sym P)). apply in_seq. lia. }
  split; [exact ND|]. split.
  { intros ev1 i s ev2 E. destruct (T _ _ _ _ E) as (A & B & D & _). split; [exact A|split; assumption]. }
  assert (L : num_left (reset (length tasks)) = Z.of_nat (length g)).
  { simpl. rewrite (len_tasks g tasks Hc). reflexivity. }
  split.
  - intros HC. apply G. destruct (Z.eq_dec (num_left (reset (length tasks))) 0) as [E|NE].
    + apply (C0 E).
    + apply (C1 NE). exact HC.
  - intros Hne P. apply C1; [|apply G; exact P]. rewrite L. destruct g; [congruence|]. simpl. lia.
Qed.

(** * Finite families of lists: checked by evaluation, lifted to all configurations *)
Definition mem (l : list nat) (k : nat) : bool := existsb (Nat.eqb k) l.
Lemma mem_spec l k : mem l k = true <-> In k l.
Proof.
  unfold mem. rewrite existsb_exists. split.
  - intros (x & Hx & E). apply Nat.eqb_eq in E. subst x. exact Hx.
  - intros H. exists k. split; [exact H|apply Nat.eqb_refl].
Qed.

Definition graphb pairs g := wfb g && orderb pairs g.
Lemma graphb_spec pairs g : graphb pairs g = true ->
  executable pairs g.
Proof.
  unfold graphb. rewrite andb_true_iff. intros [H1 H2]. apply wfb_spec in H1.
  assert (O := orderb_spec pairs g H1 H2). split; [exact H1|]. split; [|exact O].
  eapply orderable_with_closed; eassumption.
Qed.

Definition notin (R : N) (k : nat) : bool := negb (inm R k).
Definition afterb' (n : nat) (g : list gtask) (R : list nat) (t : nat) (W : N) : bool :=
  afterb g (notin (mask R)) n t (N.land W (mask (map fst g))).
Lemma afterb'_spec n g R t W : wf_graph g -> afterb' n g R t (mask W) = true ->
  forall tasks ocs st rs ev, compile g = Some tasks -> only_fail g R ocs ->
  run_calls tasks ocs (reset (length tasks)) = (st, rs, ev) -> runs_after g ev t W.
Proof.
  unfold afterb'. intros H1 H2 tasks ocs st rs ev Hc Hof Hrun i tr1 s tr2 Hi E k Hk Hin.
  eapply (after_sound g _ tasks n t _ H1 Hc H2 ocs st rs ev); [|exact Hrun|exact Hi|exact E|].
  - intros oc Hoc j k' Hj Hn. apply (Hof oc Hoc j k' Hj). intros X. unfold notin in Hn.
    apply inm_mask in X. rewrite X in Hn. discriminate.
  - rewrite inm_testbit, N.land_spec, <- !inm_testbit. apply andb_true_iff. split; apply inm_mask; assumption.
Qed.

(** An order of all tasks that is valid in every configuration (found by inspection). *)
Definition ti_rank_table : list N := [0; 26; 2; 3; 1; 3; 4; 2; 2; 4; 5; 3; 3; 10; 5; 7; 4; 7; 8; 6; 9; 6; 14; 12; 8; 7; 15; 13; 9; 8; 16; 14; 10; 1; 20; 21; 22; 24; 25; 25; 5; 17; 6; 15; 6; 18; 7; 16; 1; 1; 3; 4; 5; 8; 14; 15; 16; 1; 6; 17; 7; 18; 11; 12; 13; 9; 10; 11; 23; 23; 4; 5; 11; 19; 1]%N.
Definition ti_rank (k : nat) : N := nth k ti_rank_table 0%N.
Lemma ti_graphs : forallb (fun c => execb ti_rank (TimeIntegratorTasks c)) all_configs = true.
Proof. vm_compute. reflexivity. Qed.
Lemma ti_pairs : pairsb ti_rank recv_of = true.
Proof. reflexivity. Qed.
Theorem ti_graph c : executable recv_of (TimeIntegratorTasks c).
Proof.
  rewrite <- canon_tasks. apply (execb_spec ti_rank); [exact ti_pairs|].
  exact (proj1 (forallb_forall _ _) ti_graphs _ (in_all_configs c)).
Qed.

Definition sts_enabled (c : sts_config) : bool := s_hyd c || s_fld c || s_scl c.
Lemma sts_graphs : forallb (fun c => if sts_enabled c then execb ti_rank (SuperTimeStepTasks c) else true) all_sts = true.
Proof. vm_compute. reflexivity. Qed.
Theorem sts_graph c : s_hyd c = true \/ s_fld c = true \/ s_scl c = true ->
  executable recv_of (SuperTimeStepTasks c).
Proof.
  intros H0. assert (H : sts_enabled c = true).
  { unfold sts_enabled. destruct H0 as [->|[->| ->]]; [reflexivity| |]; repeat rewrite orb_true_r; reflexivity. }
  apply (execb_spec ti_rank); [exact ti_pairs|]. assert (X := proj1 (forallb_forall _ _) sts_graphs c (in_all_sts c)).
  cbv beta in X. rewrite H in X. exact X.
Qed.

Theorem small_graphs : forall a b,
  executable recv_of_bnd (BoundaryTasks a) /\ executable [] (ChemRadTasks a) /\
  executable recv_of_imrad (IMRadITTasks a b) /\ executable recv_of_imrad (IMRadComptTasks a b) /\
  executable recv_of_imrad (IMRadHydroTasks a b).
Proof.
  intros [] []; (split; [|split; [|split; [|split]]]); apply graphb_spec; vm_compute; reflexivity.
Qed.

Theorem mg_finer_graph mlv rb ns flag : (ns = 0 /\ flag <> 2) \/ ns = 1 \/ ns = 2 ->
  executable recv_of_mg (MGToFiner mlv rb ns flag).
Proof.
  intros H. apply graphb_spec.
  destruct flag as [|[|[|flag]]].
  - destruct mlv, rb, H as [[-> _]|[-> | ->]]; vm_compute; reflexivity.
  - destruct mlv, rb, H as [[-> _]|[-> | ->]]; vm_compute; reflexivity.
  - destruct mlv, rb, H as [[-> H]|[-> | ->]]; try congruence; vm_compute; reflexivity.
  - replace (MGToFiner mlv rb ns (S (S (S flag)))) with (MGToFiner mlv rb ns 0) by reflexivity.
    destruct mlv, rb, H as [[-> _]|[-> | ->]]; vm_compute; reflexivity.
Qed.
Theorem mg_coarser_graph mlv rb ffas ns : ns <= 2 -> executable recv_of_mg (MGToCoarser mlv rb ffas ns).
Proof.
  intros H. apply graphb_spec.
  destruct ns as [|[|[|ns]]]; [| | |lia]; destruct mlv, rb, ffas; vm_compute; reflexivity.
Qed.
Theorem mg_other_graphs mlv flag :
  executable recv_of_mg (MGFMGProlongate mlv flag) /\ executable recv_of_mg (MGBoundaryCommunication mlv).
Proof.
  split; apply graphb_spec; [unfold MGFMGProlongate; destruct (Nat.eqb flag 1)|]; destruct mlv; vm_compute; reflexivity.
Qed.

(** The multigrid lists for the smoothing counts that the constructor does not handle. *)
Lemma not_closed g i k ds d : nth_error g i = Some (k, ds) -> In d ds -> ~ In d (map fst g) -> ~ closed_graph g.
Proof. intros E Hd Hn C. apply Hn. apply (C i d). exists k, ds. split; assumption. Qed.
Theorem mg_finer_nosmooth_not_closed mlv rb : ~ closed_graph (MGToFiner mlv rb 0 2).
Proof.
  destruct mlv.
  - apply (not_closed _ 7 MG_STARTRECVL [MG_CLEARBND0] MG_CLEARBND0); [destruct rb; reflexivity|left; reflexivity|].
    rewrite <- mem_spec. destruct rb; vm_compute; discriminate.
  - apply (not_closed _ 6 MG_STARTRECVL [MG_CLEARBND0] MG_CLEARBND0); [destruct rb; reflexivity|left; reflexivity|].
    rewrite <- mem_spec. destruct rb; vm_compute; discriminate.
Qed.
Theorem mg_finer_three_not_closed mlv rb ns : 3 <= ns -> ~ closed_graph (MGToFiner mlv rb ns 2).
Proof.
  intros H. destruct ns as [|[|[|ns]]]; try lia.
  replace (MGToFiner mlv rb (S (S (S ns))) 2) with (MGToFiner mlv rb 3 2) by reflexivity.
  intros C.
  assert (X : In MG_CLEARBND2B (map fst (MGToFiner mlv rb 3 2))).
  { assert (In (MG_STARTRECVL, [MG_CLEARBND2B]) (MGToFiner mlv rb 3 2)) as Hin
      by (destruct mlv, rb; vm_compute; repeat (first [left; reflexivity|right])).
    apply In_nth_error in Hin. destruct Hin as [i E].
    apply (C i). exists MG_STARTRECVL, [MG_CLEARBND2B]. split; [exact E|left; reflexivity]. }
  apply mem_spec in X. destruct mlv, rb; vm_compute in X; discriminate X.
Qed.

(** * C03 *)
Theorem live_executable g tasks pairs nb (nbr : nat -> nat -> Prop) act oc :
  executable pairs g -> compile g = Some tasks ->
  (forall b b', b < nb -> nbr b b' -> b' < nb) ->
  fair nb (needs_of g pairs nbr) tasks act oc ->
  exists n, forall m, n <= m -> forall b i, b < nb -> i < length g ->
    completed (snd (world tasks act oc m b)) i.
Proof.
  intros (Hwf & _ & Hord) Hc Hn Hfair.
  apply (live g tasks Hwf Hc pairs Hord nb (needs_of g pairs nbr)); [|exact Hfair].
  intros b i b' j Hb (H1 & H2). split; [eapply Hn; eassumption|exact H2].
Qed.

Theorem stage_terminates_executable g tasks pairs nmb (nbr : nat -> nat -> Prop) oc :
  executable pairs g -> compile g = Some tasks -> g <> [] ->
  (forall b b', b < nmb -> nbr b b' -> b' < nmb) ->
  fair nmb (needs_of g pairs nbr) tasks (fun _ _ => true) oc ->
  exists fuel sts n, DoTaskListOneStage fuel tasks oc nmb = Some sts /\ length sts = nmb /\
    forall b, b < nmb -> nth_error sts b = Some (fst (world tasks (fun _ _ => true) oc n b)) /\
      forall i, i < length g -> completed (snd (world tasks (fun _ _ => true) oc n b)) i.
Proof.
  intros (Hwf & _ & Hord) Hc Hne Hn Hfair.
  assert (Hne' : tasks <> []).
  { intros ->. apply Hne. destruct g; [reflexivity|]. assert (L := len_tasks _ _ Hc). discriminate L. }
  destruct (stage_terminates g tasks Hwf Hc oc pairs nmb (needs_of g pairs nbr) Hne' Hord) as (fuel & sts & E); [|exact Hfair|].
  { intros b i b' j Hb (H1 & H2). split; [eapply Hn; eassumption|exact H2]. }
  destruct (stage_safe g tasks Hwf Hc oc fuel nmb sts Hne' E) as (L & n & _ & H).
  exists fuel, sts, n. split; [exact E|split; [exact L|exact H]].
Qed.

(** An empty list never completes (the while loop of DoTaskListOneStage never ends). *)
Theorem empty_list_loops fuel oc nmb : 0 < nmb -> DoTaskListOneStage fuel [] oc nmb = None.
Proof.
  intros H. unfold DoTaskListOneStage.
  assert (G : forall fuel n sts left, (0 < left)%Z -> (forall st, In st sts -> num_left st = 0%Z) ->
     stage_loop fuel n [] oc left sts = None).
  { clear. induction fuel as [|f IH]; intros n sts left Hl Hs; simpl.
    - destruct (Z.leb_spec left 0); [lia|reflexivity].
    - destruct (Z.leb_spec left 0); [lia|].
      assert (S0 : forall b, sweep [] (oc n) b sts = (sts, 0)).
      { clear - Hs. induction sts as [|st sts IHs]; intros b; simpl; [reflexivity|].
        unfold DoAllAvailableTasks. rewrite (Hs st (or_introl eq_refl)). simpl.
        rewrite IHs; [reflexivity|intros; apply Hs; right; assumption]. }
      rewrite S0. apply IH; [lia|exact Hs]. }
  apply G; [lia|]. intros st Hin. apply repeat_spec in Hin. subst st. reflexivity.
Qed.

(** * C04, C55 *)
Definition others (t : nat) (g : list gtask) := filter (fun k => negb (Nat.eqb k t)) (map fst g).
Lemma runs_after_others g ev t W : runs_after g ev t (others t g) -> ~ In t W -> runs_after g ev t W.
Proof.
  intros H Hn i tr1 s tr2 Hi E k Hk Hin. apply (H i tr1 s tr2 Hi E k); [|exact Hin].
  unfold others. apply filter_In. split; [exact Hin|]. destruct (Nat.eqb_spec k t); [congruence|reflexivity].
Qed.

Lemma others_spec t g k : In k (map fst g) -> k <> t -> In k (others t g).
Proof. intros H Hn. unfold others. apply filter_In. split; [exact H|]. destruct (Nat.eqb_spec k t); [contradiction|reflexivity]. Qed.

Definition all74 := seq 2 73.   (* all ids except CLEAR_ALLBND = 1 *)
Lemma runs_after_incl g ev t W W' : runs_after g ev t W ->
  (forall k, In k W' -> In k (map fst g) -> In k W) -> runs_after g ev t W'.
Proof. intros H Hi i tr1 s tr2 Hp E k Hk Hin. apply (H i tr1 s tr2 Hp E k); [apply Hi; assumption|exact Hin]. Qed.

Lemma ti_clear_b : forallb (fun c => afterb' 1 (TimeIntegratorTasks c) (map fst recv_of) CLEAR_ALLBND (mask all74)) all_configs = true.
Proof. vm_compute. reflexivity. Qed.
Lemma ti_names : forall c k, In k (map fst (TimeIntegratorTasks c)) -> k <> CLEAR_ALLBND -> In k all74.
Proof.
  intros c k Hin Hn. unfold all74. apply in_seq. apply in_map_iff in Hin. destruct Hin as ([k' ds] & <- & Hin). simpl in *.
  assert (X : forallb (fun c => forallb (fun x => fst x <=? 74) (TimeIntegratorTasks c)) all_configs = true) by (vm_compute; reflexivity).
  rewrite forallb_forall in X. specialize (X _ (in_all_configs c)). rewrite canon_tasks in X.
  rewrite forallb_forall in X. specialize (X _ Hin). simpl in X. apply Nat.leb_le in X.
  destruct (ti_graph c) as [[_ Hr] _]. destruct (Hr _ _ Hin) as [R _]. unfold CLEAR_ALLBND in Hn. lia.
Qed.
Theorem ti_clear c tasks ocs st rs ev :
  compile (TimeIntegratorTasks c) = Some tasks ->
  only_fail (TimeIntegratorTasks c) (map fst recv_of) ocs ->
  run_calls tasks ocs (reset (length tasks)) = (st, rs, ev) ->
  forall W, ~ In CLEAR_ALLBND W -> runs_after (TimeIntegratorTasks c) ev CLEAR_ALLBND W.
Proof.
  intros Hc Ho Hr W HW. apply (runs_after_incl _ _ _ all74).
  - eapply (afterb'_spec 1); try eassumption; [apply ti_graph|].
    rewrite <- canon_tasks. exact (proj1 (forallb_forall _ _) ti_clear_b _ (in_all_configs c)).
  - intros k Hk Hin. eapply ti_names; [exact Hin|]. intros ->. contradiction.
Qed.

Lemma sts_clear_b : forallb (fun c => if sts_enabled c then
  forallb (fun x => fst x <=? 74) (SuperTimeStepTasks c) &&
  afterb' 1 (SuperTimeStepTasks c) (map fst recv_of) CLEAR_ALLBND (mask all74) else true) all_sts = true.
Proof. vm_compute. reflexivity. Qed.
Theorem sts_clear c tasks ocs st rs ev : s_hyd c = true \/ s_fld c = true \/ s_scl c = true ->
  compile (SuperTimeStepTasks c) = Some tasks ->
  only_fail (SuperTimeStepTasks c) (map fst recv_of) ocs ->
  run_calls tasks ocs (reset (length tasks)) = (st, rs, ev) ->
  forall W, ~ In CLEAR_ALLBND W -> runs_after (SuperTimeStepTasks c) ev CLEAR_ALLBND W.
Proof.
  intros H0 Hc Ho Hr W HW. assert (H : sts_enabled c = true).
  { unfold sts_enabled. destruct H0 as [->|[->| ->]]; [reflexivity| |]; repeat rewrite orb_true_r; reflexivity. }
  assert (X := proj1 (forallb_forall _ _) sts_clear_b c (in_all_sts c)).
  cbv beta in X. rewrite H in X. apply andb_true_iff in X. destruct X as [X1 X2].
  apply (runs_after_incl _ _ _ all74).
  - eapply (afterb'_spec 1); try eassumption. apply sts_graph. exact H0.
  - intros k Hk Hin. apply in_seq. apply in_map_iff in Hin. destruct Hin as ([k' ds] & <- & Hin). simpl in *.
    rewrite forallb_forall in X1. specialize (X1 _ Hin). simpl in X1. apply Nat.leb_le in X1.
    destruct (sts_graph c H0) as [[_ Hr'] _]. destruct (Hr' _ _ Hin) as [R _].
    assert (k' <> 1) by (intros ->; contradiction). lia.
Qed.

Lemma ti_c2p_b : forallb (fun c => if (if shear c then if rad c then if ml c then false else negb (orb c) else false else false)
  then true else afterb' 1 (TimeIntegratorTasks c) (map fst recv_of) CONS2PRIM (mask conserved_updates)) all_configs = true.
Proof. vm_compute. reflexivity. Qed.
Theorem ti_cons2prim c tasks ocs st rs ev :
  ~ (shear c = true /\ rad c = true /\ ml c = false /\ orb c = false) ->
  compile (TimeIntegratorTasks c) = Some tasks ->
  only_fail (TimeIntegratorTasks c) (map fst recv_of) ocs ->
  run_calls tasks ocs (reset (length tasks)) = (st, rs, ev) ->
  runs_after (TimeIntegratorTasks c) ev CONS2PRIM conserved_updates.
Proof.
  intros H. eapply (afterb'_spec 1); [apply ti_graph|].
  assert (X := proj1 (forallb_forall _ _) ti_c2p_b _ (in_all_configs c)).
  cbv beta in X. rewrite canon_tasks in X.
  change (shear (canon c)) with (shear c) in X. change (rad (canon c)) with (rad c) in X.
  change (ml (canon c)) with (ml c) in X. change (orb (canon c)) with (orb c) in X.
  destruct (shear c), (rad c), (ml c), (orb c); simpl in X; try exact X.
  exfalso. apply H. auto.
Qed.
