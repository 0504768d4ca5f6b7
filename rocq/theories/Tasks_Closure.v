(** Sound decision procedures on task graphs: well-formedness, existence of an execution order,
    and "task t runs only after the tasks in W, in every schedule". *)
From Coq Require Import List Arith ZArith NArith Ndigits Bool Lia Permutation Sorted.
From Verif Require Import Tasks_Model Tasks_Spec Tasks_Bits Tasks_Sched.
Import ListNotations.

Definition bit (k : nat) : N := N.pos (Pos.shiftl_nat 1 k).
Definition mask (l : list nat) : N := fold_right (fun k a => N.lor (bit k) a) 0%N l.
Definition inm (A : N) (k : nat) : bool := N.testbit_nat A k.
Definition subm (A B : N) : bool := N.eqb (N.land A B) A.

Lemma inm_testbit A k : inm A k = N.testbit A (N.of_nat k).
Proof. unfold inm. symmetry. apply Ntestbit_Nbit. Qed.
Lemma inm_bit k k' : inm (bit k) k' = Nat.eqb k k'.
Proof.
  unfold inm, bit. revert k'. induction k as [|k IH]; intros [|k']; simpl; try reflexivity.
  exact (IH k').
Qed.
Lemma inm_lor A B k : inm (N.lor A B) k = inm A k || inm B k.
Proof. rewrite !inm_testbit. apply N.lor_spec. Qed.
Lemma inm_mask l k : inm (mask l) k = true <-> In k l.
Proof.
  induction l as [|x l IH].
  - split; [discriminate|intros []].
  - change (mask (x :: l)) with (N.lor (bit x) (mask l)). rewrite inm_lor, inm_bit, orb_true_iff, IH.
    rewrite Nat.eqb_eq. reflexivity.
Qed.
Lemma subm_spec A B k : subm A B = true -> inm A k = true -> inm B k = true.
Proof.
  unfold subm. rewrite !inm_testbit. intros H HA. apply N.eqb_eq in H. rewrite <- H, N.land_spec in HA.
  apply andb_true_iff in HA. apply HA.
Qed.

(** ** well-formedness *)
Fixpoint nodupb (seen : N) (l : list nat) : bool :=
  match l with [] => true | k :: l' => negb (inm seen k) && nodupb (N.lor (bit k) seen) l' end.
Lemma nodupb_spec l : forall seen, nodupb seen l = true ->
  NoDup l /\ forall k, In k l -> inm seen k = false.
Proof.
  induction l as [|x l IH]; intros seen H.
  - split; [constructor|intros k []].
  - cbn [nodupb] in H. apply andb_true_iff in H. destruct H as [H1 H2]. apply negb_true_iff in H1.
    destruct (IH _ H2) as [N1 N2]. split.
    + constructor; [|exact N1]. intros Hin. apply N2 in Hin. rewrite inm_lor, inm_bit, Nat.eqb_refl in Hin. discriminate.
    + intros k [->|Hin]; [exact H1|]. apply N2 in Hin. rewrite inm_lor in Hin. apply orb_false_iff in Hin. apply Hin.
Qed.
Definition in128 (k : nat) : bool := (1 <=? k) && (k <=? 128).
Definition wfb (g : list gtask) : bool :=
  nodupb 0 (map fst g) && forallb (fun x => in128 (fst x) && forallb in128 (snd x)) g.
Lemma in128_spec k : in128 k = true -> 1 <= k <= 128.
Proof. unfold in128. rewrite andb_true_iff, !Nat.leb_le. auto. Qed.
Lemma wfb_spec g : wfb g = true -> wf_graph g.
Proof.
  unfold wfb. rewrite andb_true_iff, forallb_forall. intros [H1 H2]. split.
  - apply (nodupb_spec _ _ H1).
  - intros k ds Hin. specialize (H2 _ Hin). simpl in H2. apply andb_true_iff in H2. destruct H2 as [H2 H3].
    split; [apply in128_spec; exact H2|]. rewrite forallb_forall in H3. intros d Hd. apply in128_spec. auto.
Qed.

(** ** ordering (Kahn) *)
Definition sends_for (pairs : list (nat * nat)) (names : N) (k : nat) : list nat :=
  map snd (filter (fun p => if Nat.eqb (fst p) k then inm names (snd p) else false) pairs).
Definition needm (pairs : list (nat * nat)) (names : N) (x : gtask) : N :=
  mask (snd x ++ sends_for pairs names (fst x)).
Fixpoint kahn (need : gtask -> N) (fuel : nat) (done : N) (l : list gtask) : option (list gtask) :=
  match l with
  | [] => Some []
  | _ =>
      match fuel with
      | O => None
      | S f =>
          let '(taken, rest) := partition (fun x => subm (need x) done) l in
          match kahn need f (N.lor (mask (map fst taken)) done) rest with
          | Some r => Some (taken ++ r)
          | None => None
          end
      end
  end.

Lemma partition_perm {A} (p : A -> bool) l : forall a b, partition p l = (a, b) ->
  Permutation (a ++ b) l /\ forall x, In x a -> p x = true.
Proof.
  induction l as [|x l IH]; intros a b E; simpl in E.
  - injection E as <- <-. split; [constructor|intros x []].
  - destruct (partition p l) as [a' b']. destruct (IH a' b' eq_refl) as [P F].
    destruct (p x) eqn:E1; injection E as <- <-.
    + split; [simpl; constructor; exact P|]. intros y [<-|H]; [exact E1|auto].
    + split; [|exact F]. apply Permutation_sym. eapply perm_trans; [|apply Permutation_middle].
      constructor. apply Permutation_sym. exact P.
Qed.

Lemma kahn_spec need fuel : forall done l r, kahn need fuel done l = Some r ->
  Permutation r l /\
  forall l1 x l2, r = l1 ++ x :: l2 -> forall k, inm (need x) k = true -> inm done k = true \/ In k (map fst l1).
Proof.
  induction fuel as [|fuel IH]; intros done l r E.
  - destruct l; [|discriminate]. injection E as <-. split; [constructor|]. intros [|y l1] x l2 E; discriminate.
  - destruct l as [|y l].
    + injection E as <-. split; [constructor|]. intros [|y l1] x l2 E; discriminate.
    + simpl kahn in E. set (L := y :: l) in *.
      change (match partition (fun x => subm (need x) done) L with
              | (taken, rest) => match kahn need fuel (N.lor (mask (map fst taken)) done) rest with
                                 | Some r0 => Some (taken ++ r0) | None => None end end = Some r) in E.
      destruct (partition (fun x => subm (need x) done) L) as [taken rest] eqn:EP.
      destruct (kahn need fuel _ rest) as [r0|] eqn:EK; [|discriminate]. injection E as <-.
      destruct (partition_perm _ _ _ _ EP) as [P F]. destruct (IH _ _ _ EK) as [PK FK].
      split.
      * eapply perm_trans; [|exact P]. apply Permutation_app_head. exact PK.
      * intros l1 x l2 E k Hk.
        assert (X : forall (a b l1 : list gtask) x l2, a ++ b = l1 ++ x :: l2 ->
             In x a \/ exists l1', l1 = a ++ l1' /\ b = l1' ++ x :: l2).
        { clear. induction a as [|y a IHa]; intros b l1 x l2 E.
          - right. exists l1. split; [reflexivity|exact E].
          - destruct l1 as [|z l1]; simpl in E.
            + injection E as -> _. left. left. reflexivity.
            + injection E as -> E. destruct (IHa b l1 x l2 E) as [H|(l1' & -> & H)].
              * left. right. exact H.
              * right. exists l1'. split; [reflexivity|exact H]. }
        destruct (X _ _ _ _ _ E) as [Hin|(l1' & -> & Hb)].
        -- left. eapply subm_spec; [apply F; exact Hin|exact Hk].
        -- destruct (FK _ _ _ Hb k Hk) as [H|H].
           ++ rewrite inm_lor in H. apply orb_true_iff in H. destruct H as [H|H]; [|left; exact H].
              right. rewrite map_app. apply in_or_app. left. apply inm_mask. exact H.
           ++ right. rewrite map_app. apply in_or_app. right. exact H.
Qed.

Definition orderb (pairs : list (nat * nat)) (g : list gtask) : bool :=
  match kahn (needm pairs (mask (map fst g))) (S (length g)) 0 g with Some _ => true | None => false end.

Lemma orderb_spec pairs g : wf_graph g -> orderb pairs g = true -> orderable_with pairs g.
Proof.
  intros [Hnd _] H. unfold orderb in H.
  destruct (kahn _ _ 0 g) as [r|] eqn:E; [|discriminate]. apply kahn_spec in E. destruct E as [P F].
  exists (map fst r). split; [apply Permutation_map; exact P|].
  intros l1 k l2 Er.
  assert (exists r1 ds r2, r = r1 ++ (k, ds) :: r2 /\ map fst r1 = l1) as (r1 & ds & r2 & -> & <-).
  { clear - Er. revert l1 Er. induction r as [|[k0 d0] r IH]; intros l1 Er; simpl in Er.
    - destruct l1; discriminate.
    - destruct l1 as [|y l1]; simpl in Er.
      + injection Er as -> _. exists [], d0, r. split; reflexivity.
      + injection Er as -> Er. destruct (IH _ Er) as (r1 & ds & r2 & -> & <-).
        exists ((y, d0) :: r1), ds, r2. split; reflexivity. }
  assert (G : forall k', inm (needm pairs (mask (map fst g)) (k, ds)) k' = true -> In k' (map fst r1)).
  { intros k' Hk'. destruct (F r1 (k, ds) r2 eq_refl k' Hk') as [X|X]; [discriminate X|exact X]. }
  split.
  - intros i d [ds' Ei] (k0 & ds0 & E0 & Hd). rewrite Ei in E0. injection E0 as <- <-.
    assert (ds' = ds).
    { assert (In (k, ds) g) as Hin by (apply (Permutation_in _ P); apply in_or_app; right; left; reflexivity).
      apply In_nth_error in Hin. destruct Hin as [i' Ei'].
      assert (i = i').
      { apply (NoDup_nth_error (map fst g)); [exact Hnd| |].
        - rewrite map_length. apply (nth_error_Some g). rewrite Ei. discriminate.
        - rewrite (map_nth_error fst _ _ Ei), (map_nth_error fst _ _ Ei'). reflexivity. }
      subst i'. congruence. }
    subst ds'. apply G. unfold needm. apply inm_mask. simpl. apply in_or_app. left. exact Hd.
  - intros s Hs Hin. apply G. unfold needm. apply inm_mask. simpl. apply in_or_app. right.
    unfold sends_for. apply in_map_iff. exists (k, s). split; [reflexivity|]. apply filter_In. split; [exact Hs|].
    simpl. rewrite Nat.eqb_refl. simpl. apply inm_mask. exact Hin.
Qed.

(** ** ordering by a given rank (much cheaper to check) *)
Section Rank.
Variable rank : nat -> N.
Fixpoint ins (x : gtask) (l : list gtask) : list gtask :=
  match l with
  | [] => [x]
  | y :: l' => if N.leb (rank (fst x)) (rank (fst y)) then x :: l else y :: ins x l'
  end.
Fixpoint isort (l : list gtask) : list gtask := match l with [] => [] | x :: l' => ins x (isort l') end.
Definition le_rank (x y : gtask) : Prop := (rank (fst x) <= rank (fst y))%N.
Lemma ins_perm x l : Permutation (ins x l) (x :: l).
Proof.
  induction l as [|y l IH]; simpl; [reflexivity|]. destruct (N.leb _ _); [reflexivity|].
  eapply perm_trans; [apply perm_skip; exact IH|apply perm_swap].
Qed.
Lemma isort_perm l : Permutation (isort l) l.
Proof. induction l as [|x l IH]; simpl; [reflexivity|]. eapply perm_trans; [apply ins_perm|]. constructor. exact IH. Qed.
Lemma ins_sorted x l : StronglySorted le_rank l -> StronglySorted le_rank (ins x l).
Proof.
  induction 1 as [|y l S IH F]; simpl; [repeat constructor|].
  destruct (N.leb_spec (rank (fst x)) (rank (fst y))) as [L|L].
  - constructor; [constructor; assumption|]. constructor; [exact L|].
    rewrite Forall_forall in F |- *. intros z Hz. specialize (F z Hz). unfold le_rank in *. lia.
  - constructor; [exact IH|]. rewrite Forall_forall in F |- *. intros z Hz.
    apply (Permutation_in _ (ins_perm x l)) in Hz. destruct Hz as [<-|Hz]; [unfold le_rank; lia|apply F; exact Hz].
Qed.
Lemma isort_sorted l : StronglySorted le_rank (isort l).
Proof. induction l as [|x l IH]; simpl; [constructor|]. apply ins_sorted. exact IH. Qed.

(** rank of a task exceeds the rank of every dependency, and every dependency is present *)
Definition rankb (names : N) (g : list gtask) : bool :=
  forallb (fun x => let r := rank (fst x) in
    forallb (fun d => if inm names d then N.ltb (rank d) r else false) (snd x)) g.
Definition pairsb (pairs : list (nat * nat)) : bool :=
  forallb (fun p => N.ltb (rank (snd p)) (rank (fst p))) pairs.

Lemma sorted_before l1 x l2 y : StronglySorted le_rank (l1 ++ x :: l2) -> In y (l1 ++ x :: l2) ->
  (rank (fst y) < rank (fst x))%N -> In y l1.
Proof.
  intros S Hin Hlt. apply in_app_or in Hin. destruct Hin as [H|[<-|H]]; [exact H|lia|].
  exfalso. induction l1 as [|z l1 IH]; simpl in S.
  - inversion S as [|? ? _ F]; subst. rewrite Forall_forall in F. specialize (F y H). unfold le_rank in F. lia.
  - inversion S; subst. apply IH. assumption.
Qed.

Lemma rank_orderable pairs g : wf_graph g -> rankb (mask (map fst g)) g = true -> pairsb pairs = true ->
  orderable_with pairs g.
Proof.
  intros Hwf HR HP. exists (map fst (isort g)). split; [apply Permutation_map; apply isort_perm|].
  intros l1 k l2 E.
  assert (exists r1 ds r2, isort g = r1 ++ (k, ds) :: r2 /\ map fst r1 = l1) as (r1 & ds & r2 & Es & <-).
  { clear - E. revert l1 E. generalize (isort g). intros r. induction r as [|[k0 d0] r IH]; intros l1 Er; simpl in Er.
    - destruct l1; discriminate.
    - destruct l1 as [|y l1]; simpl in Er.
      + injection Er as -> _. exists [], d0, r. split; reflexivity.
      + injection Er as -> Er. destruct (IH _ Er) as (r1 & ds & r2 & -> & <-).
        exists ((y, d0) :: r1), ds, r2. split; reflexivity. }
  assert (G : forall d, In d (map fst g) -> (rank d < rank k)%N -> In d (map fst r1)).
  { intros d Hd Hlt. apply in_map_iff in Hd. destruct Hd as ([d' dd] & <- & Hin).
    apply (Permutation_in _ (Permutation_sym (isort_perm g))) in Hin.
    assert (S := isort_sorted g). rewrite Es in S, Hin.
    apply in_map_iff. exists (d', dd). split; [reflexivity|].
    eapply sorted_before; [exact S|exact Hin|exact Hlt]. }
  split.
  - intros i d Hi (k0 & ds0 & E0 & Hd). destruct Hi as [ds' Ei]. rewrite Ei in E0. injection E0 as <- <-.
    unfold rankb in HR. rewrite forallb_forall in HR. specialize (HR _ (nth_error_In _ _ Ei)). simpl in HR.
    rewrite forallb_forall in HR. specialize (HR d Hd). destruct (inm _ d) eqn:Em; [|discriminate].
    apply inm_mask in Em. apply G; [exact Em|]. apply N.ltb_lt. exact HR.
  - intros s0 Hs Hin. apply G; [exact Hin|]. unfold pairsb in HP. rewrite forallb_forall in HP.
    specialize (HP _ Hs). apply N.ltb_lt. exact HP.
Qed.

(** all in one: distinct names within 1..128, dependencies present and of smaller rank *)
Definition execb (g : list gtask) : bool :=
  nodupb 0 (map fst g) && forallb (fun x => in128 (fst x)) g && rankb (mask (map fst g)) g.
Lemma execb_spec pairs g : pairsb pairs = true -> execb g = true -> executable pairs g.
Proof.
  unfold execb. rewrite !andb_true_iff. intros HP [[H1 H2] H3].
  assert (Hcl : forall k ds d, In (k, ds) g -> In d ds -> In d (map fst g)).
  { intros k ds d Hin Hd. unfold rankb in H3. rewrite forallb_forall in H3. specialize (H3 _ Hin). simpl in H3.
    rewrite forallb_forall in H3. specialize (H3 d Hd). destruct (inm _ d) eqn:Em; [|discriminate].
    apply inm_mask. exact Em. }
  assert (Hr : forall k ds, In (k, ds) g -> 1 <= k <= 128).
  { intros k ds Hin. rewrite forallb_forall in H2. apply in128_spec. exact (H2 _ Hin). }
  assert (Hwf : wf_graph g).
  { split; [apply (nodupb_spec _ _ H1)|]. intros k ds Hin. split; [eapply Hr; exact Hin|].
    intros d Hd. assert (X := Hcl _ _ _ Hin Hd). apply in_map_iff in X. destruct X as ([d' dd] & <- & X).
    eapply Hr. exact X. }
  split; [exact Hwf|]. split; [|apply rank_orderable; assumption].
  intros i d (k & ds & E & Hd). eapply Hcl; [eapply nth_error_In; exact E|exact Hd].
Qed.
End Rank.

Lemma orderable_with_closed pairs g : wf_graph g -> orderable_with pairs g -> closed_graph g.
Proof.
  intros Hwf (ord & P & H) i d Hd. destruct Hd as (k & ds & E & Hin).
  assert (In k ord) as Hk.
  { apply (Permutation_in _ (Permutation_sym P)). apply in_map_iff. exists (k, ds).
    split; [reflexivity|eapply nth_error_In; exact E]. }
  apply in_split in Hk. destruct Hk as (l1 & l2 & Eo). destruct (H l1 k l2 Eo) as [H1 _].
  apply (Permutation_in _ P). rewrite Eo. apply in_or_app. left.
  apply (H1 i d); [exists ds; exact E|exists k, ds; split; assumption].
Qed.

Lemma orderable_with_orderable pairs g : orderable_with pairs g -> orderable g.
Proof.
  intros (ord & P & H). exists ord. split; [exact P|]. intros l1 k l2 E. apply (H l1 k l2 E).
Qed.

(** ** "runs after" analysis *)
Section After.
Variable g : list gtask.
Variable nfb : nat -> bool.   (* task names that never report fail *)
Definition nfp (j : nat) : Prop := exists k, at_pos g j k /\ nfb k = true.

(** predecessors of tasks known to be completed are completed *)
Fixpoint back (l : list gtask) (A : N) : N :=
  match l with
  | [] => A
  | (k, ds) :: l' => let A' := back l' A in if inm A' k then N.lor (mask ds) A' else A'
  end.
(** tasks before position [i] that cannot fail, with all (earlier) dependencies completed *)
Fixpoint fwd (i : nat) (seen : N) (l : list gtask) (A : N) : N :=
  match i, l with
  | S i', (k, ds) :: l' =>
      let A2 := if inm A k then A else
                if (if nfb k then if subm (mask ds) seen then subm (mask ds) A else false else false)
                then N.lor (bit k) A else A in
      fwd i' (N.lor (bit k) seen) l' A2
  | _, _ => A
  end.
Fixpoint rounds (n i : nat) (A : N) : N :=
  match n with
  | O => A
  | S n' => rounds n' i (fwd i 0 g (back g (back g A)))
  end.
Fixpoint pos_of (t j : nat) (l : list gtask) : option (nat * list nat) :=
  match l with [] => None | (k, ds) :: l' => if Nat.eqb k t then Some (j, ds) else pos_of t (S j) l' end.
Definition afterb (n t : nat) (wanted : N) : bool :=
  match pos_of t 0 g with
  | None => true
  | Some (i, ds) => subm wanted (rounds n i (mask ds))
  end.

Hypothesis Hwf : wf_graph g.
Variable tr : list event.
Hypothesis HT : Trace_ok g nfp tr.

Lemma completed_deps j d : completed tr j -> depends g j d -> completed_id g tr d.
Proof.
  intros (s & Hs & Hin) Hd. apply in_split in Hin. destruct Hin as (l1 & l2 & E).
  destruct (HT l1 j s l2 E) as (_ & _ & D & _). rewrite E. apply completed_id_app. apply D. exact Hd.
Qed.

Definition sound (A : N) : Prop := forall k, inm A k = true -> completed_id g tr k.

Lemma back_sound l : (forall x, In x l -> In x g) -> forall A, sound A -> sound (back l A).
Proof.
  induction l as [|[k ds] l IH]; intros Hl A HA; cbn [back]; [exact HA|].
  assert (S1 : sound (back l A)) by (apply IH; [intros; apply Hl; right; assumption|exact HA]).
  destruct (inm (back l A) k) eqn:Ek; [|exact S1]. intros k' Hk'. rewrite inm_lor in Hk'.
  apply orb_true_iff in Hk'. destruct Hk' as [Hk'|Hk']; [|apply S1; exact Hk'].
  apply inm_mask in Hk'. destruct (S1 _ Ek) as (j' & [ds' E'] & C).
  assert (Hin := Hl _ (or_introl eq_refl)). apply In_nth_error in Hin. destruct Hin as [j Ej].
  assert (j' = j) by (eapply (at_pos_inj g Hwf); [exists ds'; exact E'|exists ds; exact Ej]). subst j'.
  apply (completed_deps j k' C). exists k, ds. split; assumption.
Qed.

Lemma fwd_sound i0 : Q g nfp i0 tr -> forall l i j seen A, l = skipn j g -> i + j = i0 ->
  (forall k, inm seen k = true -> exists jk, jk < j /\ at_pos g jk k) ->
  sound A -> sound (fwd i seen l A).
Proof.
  intros HQ. induction l as [|[k ds] l IH]; intros [|i] j seen A Hl Hi Hseen HA; cbn [fwd]; try exact HA.
  destruct (skipn_cons _ _ _ _ Hl) as [Ej Hl'].
  apply (IH i (S j)); [exact Hl'|lia| |].
  - intros k' Hk'. rewrite inm_lor, inm_bit in Hk'. apply orb_true_iff in Hk'. destruct Hk' as [Hk'|Hk'].
    + apply Nat.eqb_eq in Hk'. subst k'. exists j. split; [lia|exists ds; exact Ej].
    + destruct (Hseen _ Hk') as (jk & H1 & H2). exists jk. split; [lia|exact H2].
  - destruct (inm A k); [exact HA|]. destruct (nfb k) eqn:E2; [|exact HA].
    destruct (subm (mask ds) seen) eqn:E3; [|exact HA]. destruct (subm (mask ds) A) eqn:E4; [|exact HA].
    intros k' Hk'. rewrite inm_lor, inm_bit in Hk'. apply orb_true_iff in Hk'. destruct Hk' as [Hk'|Hk']; [|apply HA; exact Hk'].
    apply Nat.eqb_eq in Hk'. subst k'. exists j. split; [exists ds; exact Ej|].
    apply HQ; [lia|exists k; split; [exists ds; exact Ej|exact E2]| |].
    + intros d (k0 & ds0 & E0 & Hd). rewrite Ej in E0. injection E0 as <- <-.
      apply Hseen. eapply subm_spec; [exact E3|]. apply inm_mask. exact Hd.
    + intros d (k0 & ds0 & E0 & Hd). rewrite Ej in E0. injection E0 as <- <-.
      apply HA. eapply subm_spec; [exact E4|]. apply inm_mask. exact Hd.
Qed.

Lemma rounds_sound n i A : Q g nfp i tr -> sound A -> sound (rounds n i A).
Proof.
  intros HQ. revert A. induction n as [|n IH]; intros A HA; cbn [rounds]; [exact HA|].
  apply IH. apply (fwd_sound i HQ g i 0); [reflexivity|lia|intros k Hk; discriminate Hk|].
  apply back_sound; [auto|]. apply back_sound; [auto|]. exact HA.
Qed.
End After.

Lemma pos_of_spec t : forall l j i ds, pos_of t j l = Some (i, ds) -> j <= i /\ nth_error l (i - j) = Some (t, ds).
Proof.
  induction l as [|[k d] l IH]; intros j i ds E; simpl in E; [discriminate|].
  destruct (Nat.eqb_spec k t) as [->|Hne].
  - injection E as <- <-. split; [lia|]. rewrite Nat.sub_diag. reflexivity.
  - apply IH in E. destruct E as [L E]. split; [lia|]. replace (i - j) with (S (i - S j)) by lia. exact E.
Qed.
Lemma pos_of_none t : forall l j, pos_of t j l = None -> ~ In t (map fst l).
Proof.
  induction l as [|[k d] l IH]; intros j E; simpl in *; [auto|].
  destruct (Nat.eqb_spec k t) as [->|Hne]; [discriminate|]. intros [H|H]; [congruence|].
  apply IH in E. contradiction.
Qed.

Theorem after_sound g nfb tasks n t wanted :
  wf_graph g -> compile g = Some tasks -> afterb g nfb n t wanted = true ->
  forall ocs st rs ev,
  (forall oc, In oc ocs -> forall i k, at_pos g i k -> nfb k = true -> oc i <> TFail) ->
  run_calls tasks ocs (reset (length tasks)) = (st, rs, ev) ->
  forall i ev1 s ev2, at_pos g i t -> ev = ev1 ++ (i, s) :: ev2 ->
  forall k, inm wanted k = true -> completed_id g ev1 k.
Proof.
  intros Hwf Hc Ha ocs st rs ev Hoc Hrun i ev1 s ev2 Hi Hev k Hk.
  destruct (run_inv g tasks Hwf Hc (nfp g nfb) ocs) with (1 := fun oc Hin i H => match H with ex_intro _ k (conj A B) => Hoc oc Hin i k A B end)
    (st := reset (length tasks)) (tr := @nil event) (st' := st) (rs := rs) (ev := ev) as [_ T].
  - apply Inv_reset; assumption.
  - apply Trace_ok_nil.
  - exact Hrun.
  - simpl in T. destruct (T ev1 i s ev2 Hev) as (_ & _ & D & HQ).
    assert (T1 : Trace_ok g (nfp g nfb) ev1).
    { intros a j s' b E. apply (T a j s' (b ++ (i, s) :: ev2)). rewrite Hev, E, <- app_assoc. reflexivity. }
    unfold afterb in Ha. destruct (pos_of t 0 g) as [[i' ds]|] eqn:EP.
    + apply pos_of_spec in EP. destruct EP as [_ EP]. rewrite Nat.sub_0_r in EP.
      assert (i' = i) by (eapply (at_pos_inj g Hwf); [exists ds; exact EP|exact Hi]). subst i'.
      apply (rounds_sound g nfb Hwf ev1 T1 n i (mask ds) HQ).
      * intros d Hd. apply inm_mask in Hd. apply D. exists t, ds. split; assumption.
      * eapply subm_spec; [exact Ha|exact Hk].
    + exfalso. apply pos_of_none in EP. apply EP. destruct Hi as [d E]. apply in_map_iff. exists (t, d).
      split; [reflexivity|eapply nth_error_In; exact E].
Qed.

(** ** enumerations of the finite configuration spaces *)
Definition bools := [true; false].
Lemma in_bools b : In b bools. Proof. destruct b; [left|right; left]; reflexivity. Qed.

(** [rkl1] matters only with super-time-stepping, [adaptive] only when the list ends with NEW_DT *)
Definition tails : list (bool * bool * bool) :=   (* sts, adaptive, rkl1 *)
  [(false, true, true); (false, false, true); (true, true, true); (true, false, true); (true, false, false)].
Definition canon (c : config) : config :=
  let r := negb (sts c) || rkl1 c in
  {| sts := sts c; mhd := mhd c; scal := scal c; ml := ml c; shear := shear c; orb := orb c; rad := rad c;
     cr := cr c; adaptive := adaptive c && r; rkl1 := r |}.
Lemma canon_tasks c : TimeIntegratorTasks (canon c) = TimeIntegratorTasks c.
Proof. destruct c as [[] b c d e f g h [] []]; reflexivity. Qed.
Definition all_configs : list config :=
  flat_map (fun b => flat_map (fun c => flat_map (fun d => flat_map (fun e =>
  flat_map (fun f => flat_map (fun g => flat_map (fun h => map (fun t =>
   {| sts := fst (fst t); mhd := b; scal := c; ml := d; shear := e; orb := f; rad := g; cr := h;
      adaptive := snd (fst t); rkl1 := snd t |})
   tails) bools) bools) bools) bools) bools) bools) bools.
Lemma in_all_configs c : In (canon c) all_configs.
Proof.
  destruct c as [a b c d e f h i j k]. unfold all_configs, canon. cbn [Tasks_Model.sts Tasks_Model.mhd Tasks_Model.scal Tasks_Model.ml Tasks_Model.shear Tasks_Model.orb Tasks_Model.rad Tasks_Model.cr Tasks_Model.adaptive Tasks_Model.rkl1].
  repeat (apply in_flat_map; eexists; split; [apply in_bools|]).
  apply in_map_iff. exists (a, j && (negb a || k), negb a || k). split; [reflexivity|].
  destruct a, j, k; simpl; auto 10.
Qed.
Definition all_sts : list sts_config :=
  flat_map (fun a => flat_map (fun b => flat_map (fun c => flat_map (fun d => flat_map (fun e =>
  flat_map (fun f => map (fun g =>
   {| s_hyd := a; s_fld := b; s_scl := c; s_ml := d; s_shear := e; s_adaptive := f; s_rkl2 := g |})
   bools) bools) bools) bools) bools) bools) bools.
Lemma in_all_sts c : In c all_sts.
Proof.
  destruct c as [a b c d e f h]. unfold all_sts.
  repeat (apply in_flat_map; eexists; split; [apply in_bools|]).
  apply in_map_iff. eexists. split; [reflexivity|apply in_bools].
Qed.
