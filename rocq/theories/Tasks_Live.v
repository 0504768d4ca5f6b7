(** Liveness: fair executions complete every task of every block. *)
From Coq Require Import List Arith ZArith NArith Bool Lia Permutation.
From Verif Require Import Tasks_Model Tasks_Spec Tasks_Bits Tasks_Sched.
Import ListNotations.

Section Live.
Variable g : list gtask.
Variable tasks : list task.
Hypothesis Hwf : wf_graph g.
Hypothesis Hcomp : compile g = Some tasks.
Variable pairs : list (nat * nat).
Hypothesis Hord : orderable_with pairs g.
Variable nb : nat.
Variable needs : nat -> nat -> nat -> nat -> Prop.
Hypothesis Hneeds : forall b i b' j, b < nb -> needs b i b' j ->
   b' < nb /\ exists r s, at_pos g i r /\ at_pos g j s /\ In (r, s) pairs.
Variable act : nat -> nat -> bool.
Variable oc : nat -> nat -> nat -> tstatus.
Hypothesis Hfair : fair nb needs tasks act oc.

Notation W := (world tasks act oc).
Notation none := (fun _ : nat => False).

Lemma world_inv n b : Inv g (fst (W n b)) (snd (W n b)) /\ Trace_ok g none (snd (W n b)).
Proof.
  induction n as [|n [I T]]; simpl.
  - split; [apply Inv_reset; assumption|apply Trace_ok_nil].
  - destruct (W n b) as [st tr]. simpl in I, T. destruct (act n b); [|split; assumption].
    destruct (DoAllAvailableTasks tasks (oc n b) st) as [[st' r] ev] eqn:E. simpl.
    destruct (doall_inv g tasks Hwf Hcomp none (oc n b) st tr st' r ev ltac:(intros i []) I T E) as (A & B & _).
    split; assumption.
Qed.

Lemma world_mono n m b : n <= m ->
  (num_left (fst (W m b)) <= num_left (fst (W n b)))%Z /\
  (forall k, has (finished (fst (W n b))) k = true -> has (finished (fst (W m b))) k = true) /\
  (forall j, completed (snd (W n b)) j -> completed (snd (W m b)) j).
Proof.
  induction 1 as [|m Hm IH]; [split; [lia|auto]|].
  destruct IH as (A & B & C). simpl. destruct (W m b) as [st tr] eqn:Ew. simpl in A, B, C.
  destruct (act m b); [|simpl; auto].
  destruct (DoAllAvailableTasks tasks (oc m b) st) as [[st' r] ev] eqn:E. simpl.
  apply doall_mono in E. destruct E as [E1 E2].
  split; [lia|]. split; [auto|]. intros j Hj. apply completed_app. auto.
Qed.

Lemma left_nonneg n b : (0 <= num_left (fst (W n b)))%Z.
Proof. rewrite (inv_left _ _ _ (proj1 (world_inv n b))). lia. Qed.

Lemma uncompleted_mono F F' : (forall k, has F k = true -> has F' k = true) ->
  uncompleted g F' <= uncompleted g F.
Proof.
  intros H. unfold uncompleted. apply filter_le. intros x _ Hx.
  destruct (has F (fst x)) eqn:E; [rewrite (H _ E) in Hx; discriminate|reflexivity].
Qed.

Lemma uncompleted_strict F F' k : (forall k, has F k = true -> has F' k = true) ->
  In k (map fst g) -> has F k = false -> has F' k = true ->
  uncompleted g F' < uncompleted g F.
Proof.
  intros H Hin HF HF'. unfold uncompleted. clear Hwf Hcomp Hord Hneeds. revert Hin.
  induction g as [|x l IH]; intros Hin; [destruct Hin|]. simpl in Hin. simpl.
  assert (M : length (filter (fun x => negb (has F' (fst x))) l) <= length (filter (fun x => negb (has F (fst x))) l)).
  { apply filter_le. intros y _ Hy. destruct (has F (fst y)) eqn:E; [rewrite (H _ E) in Hy; discriminate|reflexivity]. }
  destruct Hin as [Hx|Hin].
  - rewrite Hx, HF, HF'. simpl. lia.
  - specialize (IH Hin). destruct (has F (fst x)) eqn:E; [rewrite (H _ E); exact IH|].
    destruct (has F' (fst x)); simpl; lia.
Qed.

(** sum over blocks of the number of unfinished tasks *)
Fixpoint total (n : nat) (bs : nat) : Z :=
  match bs with O => 0%Z | S b => (num_left (fst (W n b)) + total n b)%Z end.

Lemma total_mono n m bs : n <= m -> (total m bs <= total n bs)%Z.
Proof.
  intros H. induction bs as [|b IH]; simpl; [lia|].
  destruct (world_mono n m b H) as [A _]. lia.
Qed.
Lemma total_strict n m bs b : n <= m -> b < bs ->
  (num_left (fst (W m b)) < num_left (fst (W n b)))%Z -> (total m bs < total n bs)%Z.
Proof.
  intros H Hb Hlt. induction bs as [|b' IH]; simpl; [lia|].
  destruct (Nat.eq_dec b b') as [->|Hne].
  - assert (total m b' <= total n b')%Z by (apply total_mono; exact H). lia.
  - specialize (IH ltac:(lia)). destruct (world_mono n m b' H) as [A _]. lia.
Qed.
Lemma total_nonneg n bs : (0 <= total n bs)%Z.
Proof. induction bs as [|b IH]; simpl; [lia|]. assert (H := left_nonneg n b). lia. Qed.

Lemma completed_id_has n b k : 1 <= k <= 128 ->
  (has (finished (fst (W n b))) k = true <-> completed_id g (snd (W n b)) k).
Proof. intros Hk. apply (inv_fin _ _ _ (proj1 (world_inv n b))). exact Hk. Qed.

Definition fin n b k := has (finished (fst (W n b))) k.

(** either all blocks have finished name [k] or some block has not *)
Lemma scan_blocks n k bs : (forall b, b < bs -> fin n b k = true) \/ (exists b, b < bs /\ fin n b k = false).
Proof.
  induction bs as [|b [IH|(b' & H1 & H2)]].
  - left. intros; lia.
  - destruct (fin n b k) eqn:E.
    + left. intros b' Hb'. destruct (Nat.eq_dec b' b) as [->|]; [exact E|apply IH; lia].
    + right. exists b. split; [lia|exact E].
  - right. exists b'. split; [lia|exact H2].
Qed.

Lemma first_unfinished n (ord : list nat) :
  (forall k b, In k ord -> b < nb -> fin n b k = true) \/
  (exists l1 k l2 b, ord = l1 ++ k :: l2 /\ b < nb /\ fin n b k = false /\
     forall k' b', In k' l1 -> b' < nb -> fin n b' k' = true).
Proof.
  induction ord as [|k ord IH].
  - left. intros k b [].
  - destruct (scan_blocks n k nb) as [H|(b & Hb & Hf)].
    + destruct IH as [IH|(l1 & k' & l2 & b & -> & Hb & Hf & Hl)].
      * left. intros k' b [->|Hin] Hb; [apply H; exact Hb|apply IH; assumption].
      * right. exists (k :: l1), k', l2, b. split; [reflexivity|]. split; [exact Hb|]. split; [exact Hf|].
        intros k1 b1 [->|Hin] Hb1; [apply H; exact Hb1|apply Hl; assumption].
    + right. exists [], k, ord, b. split; [reflexivity|]. split; [exact Hb|]. split; [exact Hf|]. intros k' b' [].
Qed.

Lemma progress n : (exists b, b < nb /\ num_left (fst (W n b)) <> 0%Z) ->
  exists m, n <= m /\ (total m nb < total n nb)%Z.
Proof.
  intros (b0 & Hb0 & Hl0). destruct Hord as (ord & Hperm & Hok).
  destruct (first_unfinished n ord) as [Hall|(l1 & k & l2 & b & Hord' & Hb & Hf & Hl1)].
  - exfalso. apply Hl0. apply (uncompleted_zero g Hwf _ _ (proj1 (world_inv n b0))).
    intros i Hi. destruct (nth_error g i) as [[k ds]|] eqn:E; [|apply nth_error_None in E; lia].
    eapply (completed_of g Hwf); [exact (proj1 (world_inv n b0))|exact E| |].
    + eapply at_pos_range; [exact Hwf|exists ds; exact E].
    + apply Hall; [|exact Hb0]. apply (Permutation_in _ (Permutation_sym Hperm)).
      apply in_map_iff. exists (k, ds). split; [reflexivity|eapply nth_error_In; exact E].
  - assert (Hkin : In k (map fst g)).
    { apply (Permutation_in _ Hperm). rewrite Hord'. apply in_or_app. right. left. reflexivity. }
    assert (exists p, at_pos g p k) as [p Hp].
    { apply in_map_iff in Hkin. destruct Hkin as ([k' ds] & <- & Hin). apply In_nth_error in Hin.
      destruct Hin as [p E]. exists p, ds. exact E. }
    assert (Hk : 1 <= k <= 128) by (eapply at_pos_range; eassumption).
    assert (Hplen : p < length g) by (destruct Hp as [ds E]; apply nth_error_Some; rewrite E; discriminate).
    destruct (Hok l1 k l2 Hord') as [Hdeps Hpairs].
    assert (Hl1r : forall d, In d l1 -> 1 <= d <= 128).
    { intros d Hd. assert (In d (map fst g)) as X.
      { apply (Permutation_in _ Hperm). rewrite Hord'. apply in_or_app. left. exact Hd. }
      apply in_map_iff in X. destruct X as ([d' ds] & <- & Hin). destruct Hwf as [_ Hr].
      exact (proj1 (Hr _ _ Hin)). }
    destruct Hfair as [Hserve Hev].
    destruct (Hev b p n Hb) as [m1 Hm1].
    { rewrite (len_tasks g tasks Hcomp). exact Hplen. }
    { intros b' j Hn. destruct (Hneeds b p b' j Hb Hn) as (Hb' & r & s & Ar & As & Hin).
      assert (r = k). { destruct Ar as [d1 E1], Hp as [d2 E2]. congruence. } subst r.
      assert (Hs : In s (map fst g)).
      { destruct As as [d E]. apply in_map_iff. exists (s, d). split; [reflexivity|eapply nth_error_In; exact E]. }
      specialize (Hpairs s Hin Hs).
      assert (F := Hl1 s b' Hpairs Hb'). unfold fin in F.
      destruct As as [d E]. eapply (completed_of g Hwf); [exact (proj1 (world_inv n b'))|exact E| |exact F].
      apply Hl1r. exact Hpairs. }
    destruct (Hserve b (max n m1) Hb) as (m & Hm & Ha).
    destruct (fin m b k) eqn:Efm.
    + (* already finished at m *)
      exists m. split; [lia|]. apply (total_strict n m nb b); [lia|exact Hb|].
      rewrite (inv_left _ _ _ (proj1 (world_inv n b))), (inv_left _ _ _ (proj1 (world_inv m b))).
      apply inj_lt. apply (uncompleted_strict _ _ k); [|exact Hkin|exact Hf|exact Efm].
      apply (world_mono n m b). lia.
    + exists (S m). split; [lia|]. apply (total_strict n (S m) nb b); [lia|exact Hb|].
      assert (M : (num_left (fst (W m b)) <= num_left (fst (W n b)))%Z) by (apply world_mono; lia).
      assert (P : (num_left (fst (W (S m) b)) < num_left (fst (W m b)))%Z); [|lia].
      assert (I := proj1 (world_inv m b)). assert (MM := proj2 (proj2 (world_mono n m b ltac:(lia)))).
      assert (Hdone : forall d, depends g p d -> completed_id g (snd (W m b)) d).
      { intros d Hd. assert (In d l1) as Hd1 by (eapply Hdeps; [exact Hp|exact Hd]).
        apply completed_id_has; [apply Hl1r; exact Hd1|].
        apply (proj1 (proj2 (world_mono n m b ltac:(lia)))). apply Hl1; assumption. }
      assert (Hnc : ~ completed (snd (W m b)) p).
      { destruct Hp as [ds E]. eapply (not_completed_of g); [exact I|exact E|exact Hk|exact Efm]. }
      simpl. destruct (W m b) as [st tr]. simpl in I, Hdone, Hnc |- *. rewrite Ha.
      destruct (DoAllAvailableTasks tasks (oc m b) st) as [[st' r] ev] eqn:E. simpl.
      eapply (doall_progress g tasks Hwf Hcomp); [exact I|exact Hplen|exact Hnc|exact Hdone| |exact E].
      apply Hm1. lia.
Qed.

Lemma total_zero n bs : total n bs = 0%Z -> forall b, b < bs -> num_left (fst (W n b)) = 0%Z.
Proof.
  induction bs as [|b IH]; simpl; intros H b' Hb'; [lia|].
  assert (A := left_nonneg n b). assert (B := total_nonneg n b).
  destruct (Nat.eq_dec b' b) as [->|]; [lia|]. apply IH; lia.
Qed.

Lemma total_pos n bs : (0 < total n bs)%Z -> exists b, b < bs /\ num_left (fst (W n b)) <> 0%Z.
Proof.
  induction bs as [|b IH]; simpl; intros H; [lia|].
  destruct (Z.eq_dec (num_left (fst (W n b))) 0) as [E|NE].
  - destruct (IH ltac:(lia)) as (b' & Hb' & H'). exists b'. split; [lia|exact H'].
  - exists b. split; [lia|exact NE].
Qed.

Lemma reach_zero : forall (z : nat) n, (total n nb <= Z.of_nat z)%Z -> exists m, n <= m /\ total m nb = 0%Z.
Proof.
  induction z as [|z IH]; intros n H.
  - exists n. split; [lia|]. assert (A := total_nonneg n nb). lia.
  - destruct (Z.eq_dec (total n nb) 0) as [E|NE]; [exists n; split; [lia|exact E]|].
    assert (A := total_nonneg n nb).
    destruct (progress n (total_pos n nb ltac:(lia))) as (m & Hm & Hlt).
    destruct (IH m ltac:(lia)) as (m' & Hm' & E'). exists m'. split; [lia|exact E'].
Qed.

Theorem live : exists n, forall m, n <= m -> forall b i, b < nb -> i < length g -> completed (snd (W m b)) i.
Proof.
  destruct (reach_zero (Z.to_nat (total 0 nb)) 0) as (n & _ & Hn).
  { assert (A := total_nonneg 0 nb). lia. }
  exists n. intros m Hm b i Hb Hi.
  assert (total m nb = 0%Z) as Z0.
  { assert (A := total_nonneg m nb). assert (B := total_mono n m nb Hm). lia. }
  apply (uncompleted_zero g Hwf _ _ (proj1 (world_inv m b))); [|exact Hi].
  eapply total_zero; eassumption.
Qed.
End Live.

(** * The while loop of DoTaskListOneStage *)
Section Loop.
Variable g : list gtask.
Variable tasks : list task.
Hypothesis Hwf : wf_graph g.
Hypothesis Hcomp : compile g = Some tasks.
Variable oc : nat -> nat -> nat -> tstatus.
Notation all := (fun _ _ : nat => true).
Notation W := (world tasks all oc).

Definition incomplete (sts : list tstates) : nat :=
  length (filter (fun st => negb (Z.eqb (num_left st) 0)) sts).

Lemma sweep_world n : forall sts b0,
  (forall k st, nth_error sts k = Some st -> st = fst (W n (b0 + k))) ->
  forall sts' c, sweep tasks (oc n) b0 sts = (sts', c) ->
  length sts' = length sts /\
  (forall k st, nth_error sts' k = Some st -> st = fst (W (S n) (b0 + k))) /\
  incomplete sts = incomplete sts' + c.
Proof.
  induction sts as [|st sts IH]; intros b0 H sts' c E; simpl in E.
  - injection E as <- <-. split; [reflexivity|]. split; [intros [|k] st E; discriminate|reflexivity].
  - destruct (DoAllAvailableTasks tasks (oc n b0) st) as [[st1 r] ev] eqn:E1.
    destruct (sweep tasks (oc n) (S b0) sts) as [rest c'] eqn:E2. injection E as <- <-.
    assert (Hst : st = fst (W n b0)) by (rewrite <- (Nat.add_0_r b0); apply H; reflexivity).
    destruct (IH (S b0) ltac:(intros k st' E; replace (S b0 + k) with (b0 + S k) by lia; apply H; exact E) _ _ E2) as (L & F & C).
    split; [simpl; congruence|].
    assert (Hst1 : st1 = fst (W (S n) b0)).
    { simpl. destruct (W n b0) as [st0 tr]. simpl in Hst. subst st0. rewrite E1. reflexivity. }
    split.
    + intros [|k] st' E; simpl in E.
      * injection E as <-. rewrite Nat.add_0_r. exact Hst1.
      * replace (b0 + S k) with (S b0 + k) by lia. apply F. exact E.
    + assert (I := world_inv g tasks Hwf Hcomp all oc n b0). destruct I as [I T]. rewrite <- Hst in I.
      destruct (doall_inv g tasks Hwf Hcomp (fun _ => False) (oc n b0) st _ st1 r ev ltac:(intros i []) I T E1)
        as (_ & _ & D0 & D1).
      unfold incomplete in *. simpl.
      destruct (Z.eqb_spec (num_left st) 0) as [Z0|NZ]; simpl.
      * destruct (D0 Z0) as (-> & -> & _). rewrite Z0. simpl. exact C.
      * destruct (D1 NZ) as [Nn Hc]. destruct (Z.eqb_spec (num_left st1) 0) as [Z1|NZ1]; simpl.
        -- apply Hc in Z1. subst r. lia.
        -- destruct r; try lia. exfalso. apply NZ1. apply Hc. reflexivity.
Qed.

Lemma filter_zero sts : incomplete sts = 0 -> forall st, In st sts -> num_left st = 0%Z.
Proof.
  unfold incomplete. intros H st Hin. destruct (Z.eqb_spec (num_left st) 0) as [E|NE]; [exact E|].
  exfalso. apply length_zero_iff_nil in H.
  assert (X : In st (filter (fun st => negb (Z.eqb (num_left st) 0)) sts)).
  { apply filter_In. split; [exact Hin|]. destruct (Z.eqb_spec (num_left st) 0); [congruence|reflexivity]. }
  rewrite H in X. destruct X.
Qed.

Lemma incomplete_zero sts : (forall st, In st sts -> num_left st = 0%Z) -> incomplete sts = 0.
Proof.
  unfold incomplete. induction sts as [|st sts IH]; intros H; simpl; [reflexivity|].
  rewrite (H st (or_introl eq_refl)). simpl. apply IH. intros; apply H; right; assumption.
Qed.

Lemma loop_spec : forall fuel n sts left,
  left = Z.of_nat (incomplete sts) ->
  (forall k st, nth_error sts k = Some st -> st = fst (W n k)) ->
  (forall sts', stage_loop fuel n tasks oc left sts = Some sts' ->
     length sts' = length sts /\ (forall st, In st sts' -> num_left st = 0%Z) /\
     exists m, n <= m <= n + fuel /\ (forall k st, nth_error sts' k = Some st -> st = fst (W m k))) /\
  ((forall k, k < length sts -> num_left (fst (W (n + fuel) k)) = 0%Z) ->
     exists sts', stage_loop fuel n tasks oc left sts = Some sts').
Proof.
  induction fuel as [|fuel IH]; intros n sts left Hl Hw; simpl.
  - destruct (Z.leb_spec left 0) as [Hle|Hgt].
    + split.
      * intros sts' E. injection E as <-. split; [reflexivity|]. split.
        -- apply filter_zero. lia.
        -- exists n. split; [lia|exact Hw].
      * intros _. eexists; reflexivity.
    + split; [discriminate|]. intros H. exfalso. rewrite Nat.add_0_r in H.
      assert (incomplete sts = 0); [|lia]. apply incomplete_zero. intros st Hin.
      apply In_nth_error in Hin. destruct Hin as [k E]. rewrite (Hw k st E). apply H.
      apply nth_error_Some. congruence.
  - destruct (Z.leb_spec left 0) as [Hle|Hgt].
    + split.
      * intros sts' E. injection E as <-. split; [reflexivity|]. split.
        -- apply filter_zero. lia.
        -- exists n. split; [lia|exact Hw].
      * intros _. eexists; reflexivity.
    + destruct (sweep tasks (oc n) 0 sts) as [sts1 c] eqn:E.
      destruct (sweep_world n sts 0 Hw sts1 c E) as (L & F & C).
      destruct (IH (S n) sts1 (left - Z.of_nat c)%Z ltac:(lia) F) as [IH1 IH2]. split.
      * intros sts' E'. destruct (IH1 _ E') as (A & B & m & Hm & D). split; [congruence|]. split; [exact B|].
        exists m. split; [lia|exact D].
      * intros H. apply IH2. intros k Hk. rewrite L in Hk. rewrite <- (H k Hk). do 3 f_equal. lia.
Qed.

Lemma nth_repeat_reset nmb k st : nth_error (repeat (reset (length tasks)) nmb) k = Some st ->
  st = fst (W 0 k).
Proof.
  intros E. apply nth_error_In in E. apply repeat_spec in E. exact E.
Qed.

Lemma incomplete_start nmb : tasks <> [] -> Z.of_nat nmb = Z.of_nat (incomplete (repeat (reset (length tasks)) nmb)).
Proof.
  intros H. f_equal. unfold incomplete. induction nmb as [|n IH]; simpl; [reflexivity|].
  destruct tasks; [congruence|]. simpl. f_equal. exact IH.
Qed.

Theorem stage_safe fuel nmb sts : tasks <> [] ->
  DoTaskListOneStage fuel tasks oc nmb = Some sts ->
  length sts = nmb /\ exists n, n <= fuel /\
    forall b, b < nmb -> nth_error sts b = Some (fst (W n b)) /\
      forall i, i < length g -> completed (snd (W n b)) i.
Proof.
  intros Hne E. unfold DoTaskListOneStage in E.
  destruct (loop_spec fuel 0 _ _ (incomplete_start nmb Hne) (nth_repeat_reset nmb)) as [H _].
  destruct (H sts E) as (L & Z0 & m & Hm & Hw). rewrite repeat_length in L. split; [exact L|].
  exists m. split; [lia|]. intros b Hb.
  destruct (nth_error sts b) as [st|] eqn:Eb; [|apply nth_error_None in Eb; lia].
  rewrite (Hw b st Eb). split; [reflexivity|].
  apply (uncompleted_zero g Hwf _ _ (proj1 (world_inv g tasks Hwf Hcomp all oc m b))).
  rewrite <- (Hw b st Eb). apply Z0. eapply nth_error_In; exact Eb.
Qed.

Theorem stage_terminates pairs nmb (needs : nat -> nat -> nat -> nat -> Prop) : tasks <> [] ->
  orderable_with pairs g ->
  (forall b i b' j, b < nmb -> needs b i b' j ->
     b' < nmb /\ exists r s, at_pos g i r /\ at_pos g j s /\ In (r, s) pairs) ->
  fair nmb needs tasks all oc ->
  exists fuel sts, DoTaskListOneStage fuel tasks oc nmb = Some sts.
Proof.
  intros Hne Hord Hneeds Hfair.
  destruct (live g tasks Hwf Hcomp pairs Hord nmb needs Hneeds all oc Hfair) as [n Hn].
  exists n. unfold DoTaskListOneStage.
  destruct (loop_spec n 0 _ _ (incomplete_start nmb Hne) (nth_repeat_reset nmb)) as [_ H].
  apply H. intros k Hk. rewrite repeat_length in Hk. simpl.
  apply (uncompleted_zero g Hwf _ _ (proj1 (world_inv g tasks Hwf Hcomp all oc n k))).
  intros i Hi. apply (Hn n); [lia|exact Hk|exact Hi].
Qed.
End Loop.
