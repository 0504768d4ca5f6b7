(** Property theorems about redistribution after refinement (C18, C22, C59). *)
From Coq Require Import List Arith NArith ZArith QArith Bool Lia.
From Verif Require Import Loc Tags_Model LB_Model LB_Spec LB_Proofs AMR_Model AMR_Spec AMR_Proofs AMR_Proofs2.
Import ListNotations.
Local Open Scope nat_scope.

(** C18: each new block comes from the old block that covers it: itself, its parent, or its first child (and then the
    other children follow). *)
Theorem C18_new_to_old : forall nr ps a, redistribution nr ps a -> forall n nl, nth_error (newloc a) n = Some nl ->
  exists o, nth_error (newtoold a) n = Some o /\
  (nth_error (oldloc a) o = Some nl \/
   (exists ol, nth_error (oldloc a) o = Some ol /\ In nl (children (a_dim a) ol)) \/
   (forall j, j < nleaf (a_dim a) -> nth_error (oldloc a) (o + j) = Some (child nl j))).
Proof.
  intros nr ps a (_ & _ & _ & -> & -> & -> & _) n nl Hn. assert (H : n < length (new_blocks (a_dim a) ps)) by (apply nth_error_Some; congruence).
  destruct (n2o_meaning _ _ _ H) as (o & nl' & E1 & E2 & C). rewrite Hn in E2. injection E2 as <-. exists o. split; [exact E1|].
  destruct C as [C|[(ol & j & E & Hj & ->)|C]]; [left; exact C| |right; right; exact C].
  right; left. exists ol. split; [exact E|]. apply nth_error_In with j. apply nth_error_children. exact Hj.
Qed.
Print Assumptions C18_new_to_old.

(** Each old block is mapped to a new block that covers it (itself, its parent) or to the first of its children. *)
Theorem C18_old_to_new : forall nr ps a, redistribution nr ps a -> forall o ol, nth_error (oldloc a) o = Some ol ->
  exists n, nth_error (oldtonew a) o = Some n /\
  (nth_error (newloc a) n = Some ol \/
   (exists nl, nth_error (newloc a) n = Some nl /\ In ol (children (a_dim a) nl)) \/
   (forall j, j < nleaf (a_dim a) -> nth_error (newloc a) (n + j) = Some (child ol j))).
Proof.
  intros nr ps a HR o ol Ho. rewrite (otn_ok nr ps a HR). destruct HR as (_ & _ & _ & Eo & En & _ & _).
  rewrite Eo in Ho. rewrite En. assert (H : o < length (old_blocks (a_dim a) ps)) by (apply nth_error_Some; congruence).
  destruct (o2n_meaning _ _ _ H) as (n & ol' & E1 & E2 & C). rewrite Ho in E2. injection E2 as <-. exists n. split; [exact E1|].
  destruct C as [C|[(nl & j & E & Hj & ->)|C]]; [left; exact C| |right; right; exact C].
  right; left. exists nl. split; [exact E|]. apply nth_error_In with j. apply nth_error_children. exact Hj.
Qed.
Print Assumptions C18_old_to_new.

(** The map has one entry per old block, is monotone and inverts [newtoold] on unchanged blocks. *)
Theorem C18_old_to_new_monotone : forall nr ps a, redistribution nr ps a -> length (oldtonew a) = length (oldloc a) /\
  forall i j x y, i <= j -> nth_error (oldtonew a) i = Some x -> nth_error (oldtonew a) j = Some y -> x <= y.
Proof.
  intros nr ps a HR. rewrite (otn_ok nr ps a HR). split.
  - destruct HR as (_ & _ & _ & -> & _). apply old2new_len.
  - intros i j x y. exact (old2new_mono (a_dim a) ps 0 i j x y).
Qed.
Print Assumptions C18_old_to_new_monotone.
Theorem C18_inverse_on_unchanged : forall nr ps a, redistribution nr ps a -> forall n o l,
  nth_error (newtoold a) n = Some o -> nth_error (newloc a) n = Some l -> nth_error (oldloc a) o = Some l ->
  nth_error (oldtonew a) o = Some n.
Proof.
  intros nr ps a HR n o l. rewrite (otn_ok nr ps a HR). destruct HR as (_ & _ & _ & -> & -> & -> & _). apply n2o_inverse.
Qed.
Print Assumptions C18_inverse_on_unchanged.

(** C22: the tags of all the messages a rank receives in one redistribution are different. *)
Theorem C22_tags_distinct : forall nr ps a, redistribution nr ps a -> forall g me, me < nr ->
  NoDup (map m_tag (all_recvs a g me)).
Proof. intros nr ps a HR g me Hme. exact (recv_tags_distinct nr ps a HR me Hme g). Qed.
Print Assumptions C22_tags_distinct.

(** C59: between any two ranks the messages sent are exactly the messages received, in the same order: same tag,
    same kind (hence size), same old and new block. *)
Theorem C59_sends_match_receives : forall nr ps a, redistribution nr ps a -> forall g src dst, src < nr -> dst < nr ->
  filter (fun m => Nat.eqb (m_dst m) dst) (all_sends a g src) = filter (fun m => Nat.eqb (m_src m) src) (all_recvs a g dst).
Proof.
  intros nr ps a HR g src dst Hs Hd. unfold all_sends, all_recvs. rewrite !filter_app.
  f_equal; [exact (amr_match nr ps a HR src dst Hs Hd)|exact (ffc_match a g src dst)].
Qed.
Print Assumptions C59_sends_match_receives.
(** No message is addressed to a rank that does not exist, or to oneself. *)
Theorem C59_between_ranks : forall nr ps a, redistribution nr ps a -> forall g me m, me < nr ->
  (In m (all_sends a g me) -> m_src m = me /\ m_dst m <> me) /\ (In m (all_recvs a g me) -> m_dst m = me /\ m_src m <> me).
Proof.
  intros nr ps a HR g me m Hme. unfold all_sends, all_recvs.
  rewrite (sends_eq nr ps a HR me Hme), (recvs_eq nr ps a HR me Hme), ffc_sends_eq, ffc_recvs_eq.
  split; intros H; apply in_app_or in H as [H|H]; apply in_map_iff in H as (t & <- & H); apply filter_In in H as [_ H];
    apply andb_true_iff in H as [H1 H2]; apply Nat.eqb_eq in H1; apply negb_true_iff, Nat.eqb_neq in H2;
    rewrite ?mk_src, ?mk_dst; try (split; assumption); destruct t as [[i n] fc]; split; assumption.
Qed.
Print Assumptions C59_between_ranks.
(** Block data are moved between exactly the overlapping pairs of old and new blocks on different ranks, once each. *)
Theorem C59_messages_are_overlaps : forall nr ps a, redistribution nr ps a -> forall o n ol nl,
  nth_error (oldloc a) o = Some ol -> nth_error (newloc a) n = Some nl ->
  ((exists m, In m (amr_recvs a (at_ (newrank a) n)) /\ m_old m = o /\ m_new m = n) <->
   overlap ol nl /\ at_ (ranklist a) o <> at_ (newrank a) n).
Proof.
  intros nr ps a HR o n ol nl Ho Hn.
  assert (Hr : at_ (newrank a) n < nr).
  { destruct HR as (_ & _ & _ & _ & _ & _ & _ & (Hl & _ & Hr & _)). assert (n < length (newloc a)) by (apply nth_error_Some; congruence).
    unfold at_. rewrite (nth_indep _ 0 nr) by lia. apply Hr. assumption. }
  rewrite (recvs_eq nr ps a HR _ Hr). pose proof HR as (_ & _ & Hdis & Eo & En & _). rewrite Eo in Ho, Hdis. rewrite En in Hn.
  pose proof (transfers_are_overlaps (a_dim a) ps Hdis o n ol nl Ho Hn) as T. split.
  - intros (m & Hm & E1 & E2). apply in_map_iff in Hm as ([o' n'] & <- & Hm). cbn [mk m_old m_new] in E1, E2. subst o' n'.
    apply filter_In in Hm as [Hm Hc]. apply andb_true_iff in Hc as [_ Hc]. apply negb_true_iff, Nat.eqb_neq in Hc. split; [apply T; exact Hm|exact Hc].
  - intros [Hov Hne]. exists (mk a (o, n)). split; [|split; reflexivity]. apply in_map. apply filter_In. split; [apply T; exact Hov|].
    cbn [fst snd]. rewrite Nat.eqb_refl. apply Nat.eqb_neq in Hne. rewrite Hne. reflexivity.
Qed.
Print Assumptions C59_messages_are_overlaps.
(** The kind of a message says how the levels of the two blocks compare. *)
Theorem C59_message_kinds : forall nr ps a, redistribution nr ps a -> forall me m, me < nr -> In m (amr_recvs a me) ->
  match m_kind m with
  | Same => level (locs_at (oldloc a) (m_old m)) = level (locs_at (newloc a) (m_new m))
  | F2C => level (locs_at (oldloc a) (m_old m)) = S (level (locs_at (newloc a) (m_new m)))
  | C2F => S (level (locs_at (oldloc a) (m_old m))) = level (locs_at (newloc a) (m_new m))
  | FFC => False
  end.
Proof.
  intros nr ps a HR me m Hme Hm. rewrite (recvs_eq nr ps a HR me Hme) in Hm. apply in_map_iff in Hm as ([o n] & <- & Hm).
  apply filter_In in Hm as [Hm _]. destruct (transfer_overlap _ _ _ _ Hm) as (ol & nl & E1 & E2 & C).
  destruct HR as (_ & _ & _ & Eo & En & _). rewrite <- Eo in E1. rewrite <- En in E2. cbn [mk m_kind m_old m_new].
  rewrite (locs_at_nth _ _ _ E1), (locs_at_nth _ _ _ E2).
  destruct C as [->|[(j & _ & ->)|(j & _ & ->)]]; rewrite ?child_level.
  - rewrite Nat.ltb_irrefl, Nat.eqb_refl. reflexivity.
  - destruct (Nat.ltb_spec (S (level ol)) (level ol)); [lia|]. destruct (Nat.eqb_spec (level ol) (S (level ol))); [lia|reflexivity].
  - destruct (Nat.ltb_spec (level nl) (S (level nl))); [reflexivity|lia].
Qed.
Print Assumptions C59_message_kinds.

(** A concrete step on two ranks in two dimensions: one block is split, four are merged, two stay. *)
Definition overlapb (a b : loc) : bool :=
  if Nat.leb (level a) (level b) then loc_eqb a (anc (level b - level a) b) else loc_eqb b (anc (level a - level b) a).
Lemma overlapb_ok : forall a b, overlap a b -> overlapb a b = true.
Proof.
  intros a b [[H E]|[H E]]; unfold overlapb.
  - destruct (Nat.leb_spec (level a) (level b)); [|lia]. rewrite <- E. destruct (loc_eqb_spec a a); congruence.
  - destruct (Nat.leb_spec (level a) (level b)).
    + replace (level a - level b) with 0 in E by lia. replace (level b - level a) with 0 by lia. rewrite anc_0 in *. subst b.
      destruct (loc_eqb_spec a a); congruence.
    + rewrite <- E. destruct (loc_eqb_spec b b); congruence.
Qed.
Definition ex_pieces : list piece := [Keep (mkLoc 1 0 0 0); Split (mkLoc 1 1 0 0); Merge (mkLoc 1 0 1 0); Keep (mkLoc 1 1 1 0)].
Definition ex_step : amr :=
  mkAMR 2 (old_blocks 2 ex_pieces) (new_blocks 2 ex_pieces) (new2old 2 0 ex_pieces)
    [0; 0; 0; 1; 1; 1; 1] [0; 0; 0; 1; 1; 1; 1] [(0, 3); (3, 4)] [(0, 3); (3, 4)].
Example ex_step_ok : redistribution 2 ex_pieces ex_step.
Proof.
  split; [cbn; lia|]. split; [discriminate|]. split.
  { split.
    - intros l Hl. split; intros H; [cbn in H; lia|]. revert l Hl. apply Forall_forall. repeat (constructor; [reflexivity|]). constructor.
    - intros i j a b Hi Hj Hov. apply overlapb_ok in Hov.
      assert (i < 7 /\ j < 7) as [Li Lj] by (split; [apply (nth_error_Some (oldloc ex_step) i)|apply (nth_error_Some (oldloc ex_step) j)]; congruence).
      destruct i as [|[|[|[|[|[|[|i]]]]]]]; try lia; destruct j as [|[|[|[|[|[|[|j]]]]]]]; try lia; try reflexivity;
        cbn in Hi, Hj; injection Hi as <-; injection Hj as <-; exfalso; revert Hov; vm_compute; discriminate. }
  do 3 (split; [reflexivity|]).
  pose proof (lb_partition Q exactQ 2 1 (repeat 1%Q 7) [0; 0; 0; 1; 1; 1; 1] [(0, 3); (3, 4)] ltac:(lia) ltac:(lia) eq_refl) as G.
  split; exact G.
Qed.
Example ex_step_maps : newtoold ex_step = [0; 1; 1; 1; 1; 2; 6] /\ oldtonew ex_step = [0; 1; 5; 5; 5; 5; 6].
Proof. split; reflexivity. Qed.
Example ex_step_messages : map m_kind (amr_sends ex_step 0) = [C2F; C2F; F2C] /\ amr_recvs ex_step 0 = [] /\
  map m_tag (amr_recvs ex_step 1) = [0; 256; 512]%N.
Proof. repeat split; vm_compute; reflexivity. Qed.
