(** Invariants of the task scheduler. *)
From Coq Require Import List Arith ZArith NArith Bool Lia Permutation.
From Verif Require Import Tasks_Model Tasks_Spec Tasks_Bits.
Import ListNotations.

Lemma compile_nth g : forall tasks, compile g = Some tasks ->
  length tasks = length g /\
  forall i x, nth_error g i = Some x -> exists t, nth_error tasks i = Some t /\ compile1 x = Some t.
Proof.
  induction g as [|y g IH]; intros tasks H; simpl in H.
  - injection H as <-. split; [reflexivity|]. intros [|i] x E; discriminate.
  - destruct (compile1 y) as [t|] eqn:E1; [|discriminate].
    destruct (compile g) as [ts|] eqn:E2; [|discriminate]. injection H as <-.
    destruct (IH ts eq_refl) as [L N0]. split; [simpl; congruence|].
    intros [|i] x E; simpl in E.
    + injection E as <-. exists t. split; [reflexivity|assumption].
    + apply N0. exact E.
Qed.

Lemma compile_wf g : wf_graph g -> exists tasks, compile g = Some tasks.
Proof.
  intros [_ H]. induction g as [|[k ds] g IH].
  - exists []. reflexivity.
  - destruct IH as [ts E]; [intros; apply H; right; assumption|].
    destruct (H k ds (or_introl eq_refl)) as [Hk Hd].
    destruct (TaskID_spec k Hk) as (t & Et & _). destruct (or_all_spec ds Hd) as (d & Ed & _).
    simpl. unfold compile1. simpl. rewrite Et, Ed, E. eexists; reflexivity.
Qed.

Section Sched.
Variable g : list gtask.
Variable tasks : list task.
Hypothesis Hwf : wf_graph g.
Hypothesis Hcomp : compile g = Some tasks.
(** positions that never report [fail] *)
Variable nf : nat -> Prop.

Lemma len_tasks : length tasks = length g.
Proof. exact (proj1 (compile_nth g tasks Hcomp)). Qed.

Lemma task_at i t : nth_error tasks i = Some t ->
  exists k ds, nth_error g i = Some (k, ds) /\ 1 <= k <= 128 /\
    (forall F, IsUnfinished F (t_id t) = negb (has F k)) /\
    (forall F k', 1 <= k' <= 128 -> has (SetFinished F (t_id t)) k' = has F k' || Nat.eqb k' k) /\
    (forall d, In d ds -> 1 <= d <= 128) /\
    (forall F, CheckDependencies F (t_dep t) = true <-> forall d, In d ds -> has F d = true).
Proof.
  intros H. assert (Hi : i < length g).
  { rewrite <- len_tasks. apply nth_error_Some. congruence. }
  destruct (nth_error g i) as [[k ds]|] eqn:E; [|apply nth_error_None in E; lia].
  destruct (proj2 (compile_nth g tasks Hcomp) i (k, ds) E) as (t' & E1 & E2).
  rewrite H in E1. injection E1 as <-.
  destruct Hwf as [_ Hr]. destruct (Hr k ds (nth_error_In _ _ E)) as [Hk Hd].
  exists k, ds. split; [reflexivity|]. split; [exact Hk|].
  unfold compile1 in E2. simpl in E2.
  destruct (TaskID_spec k Hk) as (u & Eu & Bu & Su).
  destruct (or_all_spec ds Hd) as (d & Ed & Bd & Sd).
  rewrite Eu, Ed in E2. injection E2 as <-. simpl.
  split. { intros F. apply IsUnfinished_spec; assumption. }
  split. { intros F k' Hk'. rewrite has_setfinished, Su by assumption. reflexivity. }
  split; [exact Hd|].
  intros F. rewrite CheckDependencies_spec by assumption. split.
  - intros A x Hx. apply A; [apply Hd; exact Hx|]. apply Sd; [apply Hd; exact Hx|exact Hx].
  - intros A x Hx HD. apply A. apply Sd; assumption.
Qed.

Lemma at_pos_inj j j' k : at_pos g j k -> at_pos g j' k -> j = j'.
Proof.
  intros [d1 E1] [d2 E2]. destruct Hwf as [Hnd _].
  apply (NoDup_nth_error (map fst g)).
  - exact Hnd.
  - rewrite map_length. apply (nth_error_Some g). rewrite E1. discriminate.
  - rewrite (map_nth_error fst _ _ E1), (map_nth_error fst _ _ E2). reflexivity.
Qed.

Lemma at_pos_range j k : at_pos g j k -> 1 <= k <= 128.
Proof. intros [d E]. destruct Hwf as [_ H]. exact (proj1 (H _ _ (nth_error_In _ _ E))). Qed.

Definition uncompleted (F : taskid) : nat := length (filter (fun x => negb (has F (fst x))) g).

Record Inv (st : tstates) (tr : list event) : Prop := {
  inv_fin : forall k, 1 <= k <= 128 -> (has (finished st) k = true <-> completed_id g tr k);
  inv_first : indx_first st <= length g /\ forall j, j < indx_first st -> completed tr j;
  inv_left : num_left st = Z.of_nat (uncompleted (finished st)) }.

Definition Q (i : nat) (tr : list event) : Prop :=
  forall j, j < i -> nf j ->
    (forall d, depends g j d -> exists jd, jd < j /\ at_pos g jd d) ->
    (forall d, depends g j d -> completed_id g tr d) -> completed tr j.

Definition step_ok (tr : list event) (i : nat) : Prop :=
  i < length g /\ ~ completed tr i /\ (forall d, depends g i d -> completed_id g tr d) /\ Q i tr.

Definition Trace_ok (tr : list event) : Prop :=
  forall tr1 i s tr2, tr = tr1 ++ (i, s) :: tr2 -> step_ok tr1 i.

Lemma Trace_ok_snoc tr i s : Trace_ok tr -> step_ok tr i -> Trace_ok (tr ++ [(i, s)]).
Proof.
  intros H1 H2 tr1 i' s' tr2 E.
  destruct tr2 as [|x tr2] using rev_ind.
  - apply app_inj_tail in E. destruct E as [-> E]. injection E as -> ->. exact H2.
  - clear IHtr2. rewrite app_comm_cons, app_assoc in E. apply app_inj_tail in E.
    destruct E as [E _]. eapply H1. exact E.
Qed.

Lemma completed_app tr tr' i : completed tr i -> completed (tr ++ tr') i.
Proof. intros (s & N0 & H). exists s. split; [exact N0|]. apply in_or_app. left. exact H. Qed.
Lemma completed_id_app tr tr' k : completed_id g tr k -> completed_id g (tr ++ tr') k.
Proof. intros (j & A & C). exists j. split; [exact A|]. apply completed_app. exact C. Qed.
Lemma completed_snoc tr i s j : completed (tr ++ [(i, s)]) j -> completed tr j \/ (j = i /\ s <> TFail).
Proof.
  intros (s' & N0 & H). apply in_app_or in H. destruct H as [H|[H|[]]].
  - left. exists s'. split; assumption.
  - injection H as -> ->. right. split; [reflexivity|assumption].
Qed.

(** an event that fails changes nothing *)
Lemma Inv_fail st tr i : Inv st tr -> Inv st (tr ++ [(i, TFail)]).
Proof.
  intros [F1 [F2 F2'] F3]. split.
  - intros k Hk. rewrite F1 by exact Hk. split.
    + apply completed_id_app.
    + intros (j & A & C). exists j. split; [exact A|].
      apply completed_snoc in C. destruct C as [C|[_ C]]; [exact C|congruence].
  - split; [exact F2|]. intros j Hj. apply completed_app. apply F2'. exact Hj.
  - exact F3.
Qed.

Lemma filter_le {A} (p q : A -> bool) l : (forall x, In x l -> q x = true -> p x = true) ->
  length (filter q l) <= length (filter p l).
Proof.
  induction l as [|x l IH]; simpl; intros H; [lia|].
  assert (IH' := IH ltac:(intros; apply H; [right; assumption|assumption])).
  specialize (H x (or_introl eq_refl)). destruct (q x); [rewrite H by reflexivity; simpl; lia|].
  destruct (p x); simpl; lia.
Qed.

Lemma uncompleted_step F F' k : In k (map fst g) -> has F k = false ->
  (forall k', 1 <= k' <= 128 -> has F' k' = has F k' || Nat.eqb k' k) ->
  (uncompleted F = S (uncompleted F'))%nat.
Proof.
  intros Hin HF HF'. unfold uncompleted. destruct Hwf as [Hnd Hr].
  clear Hcomp Hwf. revert Hin Hnd Hr. induction g as [|[k0 ds0] g' IH]; intros Hin Hnd Hr; [destruct Hin|].
  simpl. simpl in Hnd. inversion Hnd as [|? ? Hni Hnd']; subst.
  assert (Hk0 : 1 <= k0 <= 128) by (exact (proj1 (Hr k0 ds0 (or_introl eq_refl)))).
  rewrite (HF' k0 Hk0).
  destruct (Nat.eqb_spec k0 k) as [->|Hne].
  - rewrite HF. simpl. f_equal.
    assert (forall l : list gtask, (forall x, In x l -> 1 <= fst x <= 128 /\ fst x <> k) ->
       length (filter (fun x => negb (has F (fst x))) l) = length (filter (fun x => negb (has F' (fst x))) l)) as G.
    { induction l as [|x l IHl]; intros Hl; simpl; [reflexivity|].
      destruct (Hl x (or_introl eq_refl)) as [X1 X2]. rewrite (HF' _ X1).
      destruct (Nat.eqb_spec (fst x) k); [congruence|]. rewrite orb_false_r.
      destruct (has F (fst x)); simpl; rewrite IHl; try reflexivity; intros; apply Hl; right; assumption. }
    apply G. intros x Hx. split.
    + destruct x as [kx dx]. exact (proj1 (Hr kx dx (or_intror Hx))).
    + intros E. apply Hni. rewrite <- E. apply in_map. exact Hx.
  - simpl in Hin. destruct Hin as [Hin|Hin]; [simpl in Hin; congruence|].
    rewrite orb_false_r. specialize (IH Hin Hnd' ltac:(intros; apply Hr; right; assumption)).
    destruct (has F k0); simpl; lia.
Qed.

Lemma completed_id_snoc tr i s k ds : nth_error g i = Some (k, ds) -> s <> TFail ->
  forall k', completed_id g (tr ++ [(i, s)]) k' <-> completed_id g tr k' \/ k' = k.
Proof.
  intros E Hs k'. split.
  - intros (j & A & C). apply completed_snoc in C. destruct C as [C|[-> _]].
    + left. exists j. split; assumption.
    + right. destruct A as [d' E']. congruence.
  - intros [C| ->]; [apply completed_id_app; exact C|].
    exists i. split; [exists ds; exact E|]. exists s. split; [exact Hs|].
    apply in_or_app. right. left. reflexivity.
Qed.

(** completion of task [i] *)
Lemma Inv_done st tr i t k ds s skip : Inv st tr -> nth_error tasks i = Some t ->
  nth_error g i = Some (k, ds) -> 1 <= k <= 128 ->
  (forall F k', 1 <= k' <= 128 -> has (SetFinished F (t_id t)) k' = has F k' || Nat.eqb k' k) ->
  has (finished st) k = false -> s <> TFail ->
  (skip = 0 -> indx_first st = i) ->
  let st1 := bump_first skip {| finished := SetFinished (finished st) (t_id t);
                   indx_first := indx_first st; num_left := (num_left st - 1)%Z |} in
  Inv st1 (tr ++ [(i, s)]) /\ (num_left st1 = num_left st - 1)%Z /\
  (skip = 0 -> indx_first st1 = S i) /\ (skip <> 0 -> indx_first st1 = indx_first st).
Proof.
  intros [F1 [F2 F2'] F3] Ht E Hk HS HF Hs Hskip st1.
  assert (Hfin : finished st1 = SetFinished (finished st) (t_id t)).
  { unfold st1, bump_first. destruct (skip =? 0); reflexivity. }
  assert (Hleft : num_left st1 = (num_left st - 1)%Z).
  { unfold st1, bump_first. destruct (skip =? 0); reflexivity. }
  assert (H0 : skip = 0 -> indx_first st1 = S i).
  { intros ->. unfold st1, bump_first. simpl. f_equal. apply Hskip. reflexivity. }
  assert (H1 : skip <> 0 -> indx_first st1 = indx_first st).
  { intros Hn. unfold st1, bump_first. destruct (Nat.eqb_spec skip 0); [congruence|reflexivity]. }
  split; [|split; [exact Hleft|split; assumption]].
  assert (Hi : i < length g) by (apply nth_error_Some; congruence).
  assert (Hkin : In k (map fst g)) by (apply in_map_iff; exists (k, ds); split; [reflexivity|eapply nth_error_In; exact E]).
  split.
  - intros k' Hk'. rewrite Hfin, HS by exact Hk'. rewrite orb_true_iff, F1, Nat.eqb_eq by exact Hk'.
    symmetry. eapply completed_id_snoc; eassumption.
  - destruct (Nat.eq_dec skip 0) as [Z0|NZ].
    + rewrite (H0 Z0). split; [lia|]. intros j Hj. destruct (Nat.eq_dec j i) as [->|Hne].
      * exists s. split; [exact Hs|]. apply in_or_app. right. left. reflexivity.
      * apply completed_app. apply F2'. rewrite (Hskip Z0). lia.
    + rewrite (H1 NZ). split; [exact F2|]. intros j Hj. apply completed_app. apply F2'. exact Hj.
  - rewrite Hleft, Hfin, F3. rewrite (uncompleted_step (finished st) (SetFinished (finished st) (t_id t)) k);
      [lia|exact Hkin|exact HF|]. intros; apply HS; assumption.
Qed.

Lemma Inv_bump st tr i skip : Inv st tr -> i < length g -> completed tr i ->
  (skip = 0 -> indx_first st = i) ->
  Inv (bump_first skip st) tr /\ num_left (bump_first skip st) = num_left st /\
  finished (bump_first skip st) = finished st /\
  (skip = 0 -> indx_first (bump_first skip st) = S i) /\
  (skip <> 0 -> indx_first (bump_first skip st) = indx_first st).
Proof.
  intros [F1 [F2 F2'] F3] Hi C Hskip. unfold bump_first.
  destruct (Nat.eqb_spec skip 0) as [Z0|NZ].
  - simpl. split; [|repeat split; intros; try congruence; f_equal; auto]. split; simpl; try assumption.
    rewrite (Hskip Z0) in *. split; [lia|]. intros j Hj.
    destruct (Nat.eq_dec j i) as [->|]; [exact C|]. apply F2'. lia.
  - split; [split; try assumption; split; assumption|]. repeat split; intros; congruence.
Qed.

Lemma depends_completed_has st tr i k ds : Inv st tr -> nth_error g i = Some (k, ds) ->
  (forall d, In d ds -> 1 <= d <= 128) ->
  ((forall d, In d ds -> has (finished st) d = true) <-> (forall d, depends g i d -> completed_id g tr d)).
Proof.
  intros I E Hd. split.
  - intros H d (k' & ds' & E' & Hin). rewrite E in E'. injection E' as <- <-.
    apply (inv_fin _ _ I); [apply Hd; exact Hin|]. apply H. exact Hin.
  - intros H d Hin. apply (inv_fin _ _ I); [apply Hd; exact Hin|]. apply H.
    exists k, ds. split; assumption.
Qed.

Lemma Q_step_other i tr tr' :
  Q i tr ->
  (forall jd, jd < i -> completed tr' jd -> completed tr jd) ->
  (forall j, completed tr j -> completed tr' j) ->
  (nf i -> (forall d, depends g i d -> exists jd, jd < i /\ at_pos g jd d) ->
     (forall d, depends g i d -> completed_id g tr d) -> completed tr' i) ->
  Q (S i) tr'.
Proof.
  intros HQ Hback Hmono Hi j Hj Hn Hb Hd.
  assert (Hd' : forall d, depends g j d -> completed_id g tr d).
  { intros d Hdep. destruct (Hb d Hdep) as (jd & Hlt & A). destruct (Hd d Hdep) as (jd' & A' & C).
    assert (jd' = jd) by (eapply at_pos_inj; eassumption). subst jd'. exists jd. split; [exact A|].
    apply Hback; [lia|exact C]. }
  destruct (Nat.eq_dec j i) as [->|Hne].
  - apply Hi; assumption.
  - apply Hmono. apply HQ; [lia|exact Hn|exact Hb|exact Hd'].
Qed.

Lemma skipn_cons {A} (l : list A) i x r : x :: r = skipn i l -> nth_error l i = Some x /\ r = skipn (S i) l.
Proof.
  revert i. induction l as [|y l IH]; intros [|i] H; simpl in *; try discriminate.
  - injection H as -> ->. split; reflexivity.
  - apply IH in H. exact H.
Qed.

Lemma not_completed_of st tr i k ds : Inv st tr -> nth_error g i = Some (k, ds) -> 1 <= k <= 128 ->
  has (finished st) k = false -> ~ completed tr i.
Proof.
  intros I E Hk HF C. assert (completed_id g tr k) as X by (exists i; split; [exists ds; exact E|exact C]).
  apply (inv_fin _ _ I) in X; [congruence|exact Hk].
Qed.

Lemma completed_of st tr i k ds : Inv st tr -> nth_error g i = Some (k, ds) -> 1 <= k <= 128 ->
  has (finished st) k = true -> completed tr i.
Proof.
  intros I E Hk HF. apply (inv_fin _ _ I) in HF; [|exact Hk]. destruct HF as (j & A & C).
  assert (j = i) by (eapply at_pos_inj; [exact A|exists ds; exact E]). subst. exact C.
Qed.

Lemma scan_inv oc : (forall i, nf i -> oc i <> TFail) ->
  forall l i skip st tr, l = skipn i tasks -> Inv st tr -> Trace_ok tr -> Q i tr ->
  (skip = 0 -> indx_first st = i) -> num_left st <> 0%Z ->
  forall st' r ev, scan oc i skip l st = (st', r, ev) ->
  Inv st' (tr ++ ev) /\ Trace_ok (tr ++ ev) /\ (r = Complete <-> num_left st' = 0%Z) /\ r <> NothingToDo.
Proof.
  intros Hoc l. induction l as [|t l IH]; intros i skip st tr Hl I T HQ Hskip Hleft st' r ev E; simpl in E.
  - injection E as <- <- <-. rewrite app_nil_r. split; [exact I|]. split; [exact T|].
    split; [split; [discriminate|congruence]|discriminate].
  - destruct (skipn_cons _ _ _ _ Hl) as [Ht Hl'].
    destruct (task_at i t Ht) as (k & ds & Eg & Hk & HU & HS & Hdr & HC).
    assert (Hi : i < length g) by (apply nth_error_Some; congruence).
    rewrite HU in E. destruct (has (finished st) k) eqn:HF; simpl in E.
    + (* already finished *)
      assert (C : completed tr i) by (eapply completed_of; eassumption).
      destruct (Inv_bump st tr i skip I Hi C Hskip) as (I1 & L1 & _ & B0 & B1).
      eapply IH; try eassumption.
      * eapply Q_step_other; [exact HQ|auto|auto|intros; exact C].
      * rewrite L1. exact Hleft.
    + assert (NC : ~ completed tr i) by (eapply not_completed_of; eassumption).
      destruct (CheckDependencies (finished st) (t_dep t)) eqn:HD.
      * assert (HD' : forall d, depends g i d -> completed_id g tr d).
        { apply (depends_completed_has st tr i k ds I Eg Hdr). apply HC. exact HD. }
        assert (SO : step_ok tr i) by (split; [exact Hi|split; [exact NC|split; assumption]]).
        destruct (oc i) eqn:Eo.
        -- (* fail *)
           destruct (scan oc (S i) (S skip) l st) as [[st2 r2] ev2] eqn:E2.
           injection E as <- <- <-.
           assert (X : Inv st2 ((tr ++ [(i, TFail)]) ++ ev2) /\ Trace_ok ((tr ++ [(i, TFail)]) ++ ev2) /\
                       (r2 = Complete <-> num_left st2 = 0%Z) /\ r2 <> NothingToDo).
           { eapply (IH (S i) (S skip) st); [exact Hl'|apply Inv_fail; exact I|apply Trace_ok_snoc; [exact T|exact SO]| |intros X; discriminate X|exact Hleft|exact E2].
             eapply Q_step_other; [exact HQ| |intros; apply completed_app; assumption|].
             - intros jd _ C. apply completed_snoc in C. destruct C as [C|[_ C]]; [exact C|congruence].
             - intros Hn. exfalso. apply (Hoc i Hn). exact Eo. }
           rewrite <- app_assoc in X. exact X.
        -- (* success *)
           destruct (Inv_done st tr i t k ds TSuccess skip I Ht Eg Hk HS HF ltac:(discriminate) Hskip) as (I1 & L1 & _ & _).
           set (st1 := bump_first skip _) in *.
           destruct (Z.eqb_spec (num_left st1) 0) as [Z0|NZ]; injection E as <- <- <-.
           ++ split; [exact I1|]. split; [apply Trace_ok_snoc; assumption|]. split; [tauto|discriminate].
           ++ split; [exact I1|]. split; [apply Trace_ok_snoc; assumption|].
              split; [split; [discriminate|congruence]|discriminate].
        -- (* next *)
           destruct (Inv_done st tr i t k ds TNext skip I Ht Eg Hk HS HF ltac:(discriminate) Hskip) as (I1 & L1 & B0 & B1).
           set (st1 := bump_first skip _) in *.
           destruct (Z.eqb_spec (num_left st1) 0) as [Z0|NZ].
           ++ injection E as <- <- <-.
              split; [exact I1|]. split; [apply Trace_ok_snoc; assumption|]. split; [tauto|discriminate].
           ++ destruct (scan oc (S i) skip l st1) as [[st2 r2] ev2] eqn:E2. injection E as <- <- <-.
              assert (X : Inv st2 ((tr ++ [(i, TNext)]) ++ ev2) /\ Trace_ok ((tr ++ [(i, TNext)]) ++ ev2) /\
                       (r2 = Complete <-> num_left st2 = 0%Z) /\ r2 <> NothingToDo).
              { eapply (IH (S i) skip st1); [exact Hl'|exact I1|apply Trace_ok_snoc; [exact T|exact SO]| |exact B0|exact NZ|exact E2].
                eapply Q_step_other; [exact HQ| |intros; apply completed_app; assumption|].
                - intros jd Hlt C. apply completed_snoc in C. destruct C as [C|[-> _]]; [exact C|lia].
                - intros _ _ _. exists TNext. split; [discriminate|]. apply in_or_app. right. left. reflexivity. }
              rewrite <- app_assoc in X. exact X.
      * (* dependency not clear *)
        eapply (IH (S i) (S skip) st); [exact Hl'|exact I|exact T| |discriminate|exact Hleft|exact E].
        eapply Q_step_other; [exact HQ|auto|auto|].
        intros _ _ Hd. exfalso.
        assert (CheckDependencies (finished st) (t_dep t) = true); [|congruence].
        apply HC. apply (depends_completed_has st tr i k ds I Eg Hdr). exact Hd.
Qed.

Lemma Inv_reset : Inv (reset (length tasks)) [].
Proof.
  unfold reset. split; simpl.
  - intros k Hk. rewrite has_zero. split; [discriminate|]. intros (j & _ & s & _ & []).
  - split; [lia|]. intros j Hj. lia.
  - rewrite len_tasks. f_equal. unfold uncompleted. simpl. clear. induction g as [|x l IH]; simpl; [reflexivity|].
    rewrite has_zero. simpl. f_equal. exact IH.
Qed.

Lemma Trace_ok_nil : Trace_ok [].
Proof. intros tr1 i s tr2 E. destruct tr1; discriminate. Qed.

Lemma doall_inv oc st tr st' r ev : (forall i, nf i -> oc i <> TFail) ->
  Inv st tr -> Trace_ok tr ->
  DoAllAvailableTasks tasks oc st = (st', r, ev) ->
  Inv st' (tr ++ ev) /\ Trace_ok (tr ++ ev) /\
  (num_left st = 0%Z -> r = NothingToDo /\ st' = st /\ ev = []) /\
  (num_left st <> 0%Z -> r <> NothingToDo /\ (r = Complete <-> num_left st' = 0%Z)).
Proof.
  intros Hoc I T E. unfold DoAllAvailableTasks in E.
  destruct (Z.eqb_spec (num_left st) 0) as [Z0|NZ].
  - injection E as <- <- <-. rewrite app_nil_r.
    split; [exact I|]. split; [exact T|]. split; [auto|congruence].
  - assert (HQ : Q (indx_first st) tr).
    { intros j Hj _ _ _. apply (proj2 (inv_first _ _ I)). exact Hj. }
    destruct (scan_inv oc Hoc _ _ 0 st tr eq_refl I T HQ (fun _ => eq_refl) NZ _ _ _ E) as (A & B & C & D).
    split; [exact A|]. split; [exact B|]. split; [congruence|auto].
Qed.

Lemma run_inv ocs : (forall oc, In oc ocs -> forall i, nf i -> oc i <> TFail) ->
  forall st tr st' rs ev, Inv st tr -> Trace_ok tr ->
  run_calls tasks ocs st = (st', rs, ev) ->
  Inv st' (tr ++ ev) /\ Trace_ok (tr ++ ev).
Proof.
  induction ocs as [|oc ocs IH]; intros Hoc st tr st' rs ev I T E; simpl in E.
  - injection E as <- <- <-. rewrite app_nil_r. split; assumption.
  - destruct (DoAllAvailableTasks tasks oc st) as [[st1 r] ev1] eqn:E1.
    destruct (run_calls tasks ocs st1) as [[st2 rs2] ev2] eqn:E2. injection E as <- <- <-.
    destruct (doall_inv oc st tr st1 r ev1 (Hoc oc (or_introl eq_refl)) I T E1) as (I1 & T1 & _).
    rewrite app_assoc. eapply IH; try eassumption. intros; apply Hoc; [right; assumption|assumption].
Qed.

Lemma uncompleted_zero st tr : Inv st tr ->
  (num_left st = 0%Z <-> forall i, i < length g -> completed tr i).
Proof.
  intros I. rewrite (inv_left _ _ I). unfold uncompleted. split.
  - intros H i Hi. destruct (nth_error g i) as [[k ds]|] eqn:E; [|apply nth_error_None in E; lia].
    assert (Hk : 1 <= k <= 128) by (eapply at_pos_range; exists ds; exact E).
    eapply completed_of; [exact I|exact E|exact Hk|].
    destruct (has (finished st) k) eqn:HF; [reflexivity|].
    assert (Hin : In (k, ds) (filter (fun x => negb (has (finished st) (fst x))) g)).
    { apply filter_In. split; [eapply nth_error_In; exact E|]. simpl. rewrite HF. reflexivity. }
    assert (HZ : length (filter (fun x : gtask => negb (has (finished st) (fst x))) g) = 0) by (apply Nat2Z.inj; exact H).
    apply length_zero_iff_nil in HZ. rewrite HZ in Hin. destruct Hin.
  - intros H. assert (Hz : filter (fun x => negb (has (finished st) (fst x))) g = []).
    { destruct (filter (fun x : gtask => negb (has (finished st) (fst x))) g) as [|x l] eqn:Ef; [reflexivity|]. exfalso.
      assert (Hin : In x (filter (fun x => negb (has (finished st) (fst x))) g)) by (rewrite Ef; left; reflexivity).
      apply filter_In in Hin. destruct Hin as [Hin HF]. apply In_nth_error in Hin. destruct Hin as [i E].
      destruct x as [k ds]. simpl in HF.
      assert (Hi : i < length g) by (apply nth_error_Some; congruence).
      assert (Hk : 1 <= k <= 128) by (eapply at_pos_range; exists ds; exact E).
      assert (completed_id g tr k) as X by (exists i; split; [exists ds; exact E|apply H; exact Hi]).
      apply (inv_fin _ _ I) in X; [|exact Hk]. rewrite X in HF. discriminate. }
    rewrite Hz. reflexivity.
Qed.

(** [complete] is reported exactly in the call after which everything is done *)
Lemma run_complete ocs : (forall oc, In oc ocs -> forall i, nf i -> oc i <> TFail) ->
  forall st tr st' rs ev, Inv st tr -> Trace_ok tr -> run_calls tasks ocs st = (st', rs, ev) ->
  (num_left st = 0%Z -> ~ In Complete rs /\ num_left st' = 0%Z) /\
  (num_left st <> 0%Z -> (In Complete rs <-> num_left st' = 0%Z) /\
      (forall rs1 rs2, rs = rs1 ++ Complete :: rs2 -> ~ In Complete rs1 /\ ~ In Complete rs2)).
Proof.
  induction ocs as [|oc ocs IH]; intros Hoc st tr st' rs ev I T E; simpl in E.
  - injection E as <- <- <-. split.
    + intros Z0. split; [intros []|exact Z0].
    + intros NZ. split; [split; [intros []|congruence]|]. intros rs1 rs2 E. destruct rs1; discriminate.
  - destruct (DoAllAvailableTasks tasks oc st) as [[st1 r] ev1] eqn:E1.
    destruct (run_calls tasks ocs st1) as [[st2 rs2] ev2] eqn:E2. injection E as <- <- <-.
    destruct (doall_inv oc st tr st1 r ev1 (Hoc oc (or_introl eq_refl)) I T E1) as (I1 & T1 & D0 & D1).
    destruct (IH ltac:(intros; apply Hoc; [right; assumption|assumption]) st1 (tr ++ ev1) st2 rs2 ev2 I1 T1 E2) as [IH0 IH1].
    split.
    + intros Z0. destruct (D0 Z0) as (-> & -> & ->). destruct (IH0 Z0) as [N0 Z2]. split; [|exact Z2].
      intros [H|H]; [discriminate|contradiction].
    + intros NZ. destruct (D1 NZ) as [Nn Hc].
      destruct (Z.eq_dec (num_left st1) 0) as [Z1|NZ1].
      * destruct (IH0 Z1) as [Nc Z2]. apply Hc in Z1. subst r. split.
        -- split; [intros _; exact Z2|intros _; left; reflexivity].
        -- intros rs1 rs3 Er. destruct rs1 as [|x rs1].
           ++ simpl in Er. injection Er as <-. split; [intros []|exact Nc].
           ++ simpl in Er. injection Er as <- Er. exfalso. apply Nc. rewrite Er. apply in_or_app. right. left. reflexivity.
      * destruct (IH1 NZ1) as [H1 H2]. assert (r <> Complete) by (intros X; apply Hc in X; congruence). split.
        -- split; [intros [X|X]; [congruence|apply H1; exact X]|intros X; right; apply H1; exact X].
        -- intros rs1 rs3 Er. destruct rs1 as [|x rs1].
           ++ simpl in Er. injection Er as -> <-. congruence.
           ++ simpl in Er. injection Er as <- Er. destruct (H2 _ _ Er) as [A B]. split; [|exact B].
              intros [X|X]; [congruence|contradiction].
Qed.

(** progress: a ready task whose function does not fail makes the call complete at least one task *)
Lemma scan_left oc : forall l i skip st st' r ev, scan oc i skip l st = (st', r, ev) ->
  (num_left st' <= num_left st)%Z /\
  (forall k, has (finished st) k = true -> has (finished st') k = true).
Proof.
  induction l as [|t l IH]; intros i skip st st' r ev E; simpl in E.
  - injection E as <- <- <-. split; [lia|auto].
  - destruct (IsUnfinished (finished st) (t_id t)).
    + destruct (CheckDependencies (finished st) (t_dep t)).
      * assert (B : forall sk s0, num_left (bump_first sk s0) = num_left s0 /\ finished (bump_first sk s0) = finished s0)
          by (intros sk s0; unfold bump_first; destruct (sk =? 0); split; reflexivity).
        destruct (oc i).
        -- destruct (scan oc (S i) (S skip) l st) as [[st2 r2] ev2] eqn:E2. injection E as <- <- <-.
           eapply IH; exact E2.
        -- set (st0 := {| finished := SetFinished (finished st) (t_id t); indx_first := _; num_left := _ |}) in E.
           destruct (B skip st0) as [B1 B2].
           destruct (Z.eqb (num_left (bump_first skip st0)) 0); injection E as <- <- <-;
             rewrite B1, B2; unfold st0; simpl; (split; [lia|intros k Hk; rewrite has_setfinished, Hk; reflexivity]).
        -- set (st0 := {| finished := SetFinished (finished st) (t_id t); indx_first := _; num_left := _ |}) in E.
           destruct (B skip st0) as [B1 B2].
           destruct (Z.eqb (num_left (bump_first skip st0)) 0).
           ++ injection E as <- <- <-. rewrite B1, B2; unfold st0; simpl;
                (split; [lia|intros k Hk; rewrite has_setfinished, Hk; reflexivity]).
           ++ destruct (scan oc (S i) skip l (bump_first skip st0)) as [[st2 r2] ev2] eqn:E2. injection E as <- <- <-.
              apply IH in E2. rewrite B1, B2 in E2. unfold st0 in E2. simpl in E2. destruct E2 as [X Y].
              split; [lia|]. intros k Hk. apply Y. rewrite has_setfinished, Hk. reflexivity.
      * eapply IH; exact E.
    + assert (B : num_left (bump_first skip st) = num_left st /\ finished (bump_first skip st) = finished st)
        by (unfold bump_first; destruct (skip =? 0); split; reflexivity).
      apply IH in E. destruct B as [B1 B2]. rewrite B1, B2 in E. exact E.
Qed.

Lemma scan_progress oc p tp : nth_error tasks p = Some tp -> oc p <> TFail ->
  forall l i skip st st' r ev, l = skipn i tasks -> i <= p ->
  IsUnfinished (finished st) (t_id tp) = true ->
  CheckDependencies (finished st) (t_dep tp) = true ->
  scan oc i skip l st = (st', r, ev) -> (num_left st' < num_left st)%Z.
Proof.
  intros Hp Hop l. induction l as [|t l IH]; intros i skip st st' r ev Hl Hip HU HC E; simpl in E.
  - exfalso. assert (p < length tasks) by (apply nth_error_Some; congruence).
    assert (L : length (skipn i tasks) = 0) by (rewrite <- Hl; reflexivity).
    rewrite skipn_length in L. lia.
  - destruct (skipn_cons _ _ _ _ Hl) as [Ht Hl'].
    assert (B : forall sk s0, num_left (bump_first sk s0) = num_left s0 /\ finished (bump_first sk s0) = finished s0)
          by (intros sk s0; unfold bump_first; destruct (sk =? 0); split; reflexivity).
    destruct (IsUnfinished (finished st) (t_id t)) eqn:U.
    + destruct (CheckDependencies (finished st) (t_dep t)) eqn:D.
      * destruct (oc i) eqn:Eo.
        -- assert (Hne : i <> p) by (intros ->; congruence).
           destruct (scan oc (S i) (S skip) l st) as [[st2 r2] ev2] eqn:E2. injection E as <- <- <-.
           eapply IH; [exact Hl'|lia|exact HU|exact HC|exact E2].
        -- set (st0 := {| finished := SetFinished (finished st) (t_id t); indx_first := _; num_left := _ |}) in E.
           destruct (B skip st0) as [B1 B2].
           destruct (Z.eqb (num_left (bump_first skip st0)) 0); injection E as <- <- <-;
             rewrite B1; unfold st0; simpl; lia.
        -- set (st0 := {| finished := SetFinished (finished st) (t_id t); indx_first := _; num_left := _ |}) in E.
           destruct (B skip st0) as [B1 B2].
           destruct (Z.eqb (num_left (bump_first skip st0)) 0).
           ++ injection E as <- <- <-. rewrite B1; unfold st0; simpl; lia.
           ++ destruct (scan oc (S i) skip l (bump_first skip st0)) as [[st2 r2] ev2] eqn:E2. injection E as <- <- <-.
              apply scan_left in E2. rewrite B1 in E2. unfold st0 in E2. simpl in E2. lia.
      * assert (Hne : i <> p) by (intros ->; congruence).
        eapply IH; [exact Hl'|lia|exact HU|exact HC|exact E].
    + assert (Hne : i <> p) by (intros ->; congruence).
      destruct (B skip st) as [B1 B2]. rewrite <- B1.
      eapply IH; [exact Hl'|lia|rewrite B2; exact HU|rewrite B2; exact HC|exact E].
Qed.

Lemma doall_mono oc st st' r ev : DoAllAvailableTasks tasks oc st = (st', r, ev) ->
  (num_left st' <= num_left st)%Z /\
  (forall k, has (finished st) k = true -> has (finished st') k = true).
Proof.
  unfold DoAllAvailableTasks. destruct (Z.eqb (num_left st) 0).
  - intros E; injection E as <- <- <-. split; [lia|auto].
  - apply scan_left.
Qed.

Lemma doall_progress oc st tr st' r ev p : Inv st tr ->
  p < length g -> ~ completed tr p -> (forall d, depends g p d -> completed_id g tr d) -> oc p <> TFail ->
  DoAllAvailableTasks tasks oc st = (st', r, ev) -> (num_left st' < num_left st)%Z.
Proof.
  intros I Hp NC Hd Ho E. unfold DoAllAvailableTasks in E.
  destruct (Z.eqb_spec (num_left st) 0) as [Z0|NZ].
  - exfalso. apply NC. apply (proj1 (uncompleted_zero st tr I)); assumption.
  - destruct (nth_error tasks p) as [tp|] eqn:Ht; [|apply nth_error_None in Ht; rewrite len_tasks in Ht; lia].
    destruct (task_at p tp Ht) as (k & ds & Eg & Hk & HU & HS & Hdr & HC).
    eapply scan_progress; [exact Ht|exact Ho|reflexivity| | | |exact E].
    + destruct (le_lt_dec (indx_first st) p) as [L|L]; [exact L|]. exfalso. apply NC.
      apply (proj2 (inv_first _ _ I)). exact L.
    + rewrite HU. destruct (has (finished st) k) eqn:HF; [|reflexivity]. exfalso. apply NC.
      eapply completed_of; eassumption.
    + apply HC. apply (depends_completed_has st tr p k ds I Eg Hdr). exact Hd.
Qed.

End Sched.
