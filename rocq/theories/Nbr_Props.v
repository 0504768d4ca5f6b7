(** Property theorems about neighbour lists, boundary messages and refinement decisions (C16, C17). *)
From Coq Require Import List Arith NArith ZArith Bool Lia Permutation.
From Verif Require Import Loc LB_Spec Tags_Model AMR_Model AMR_Spec AMR_Proofs AMR_Proofs2 Tree_Model Tree_Spec Tree_Proofs1 Tree_Proofs2 Tree_Proofs3 Tree_Proofs4 Tree_Proofs5 Tree_Proofs6 Tree_Proofs7 Tree_Proofs8 Tree_Restart Tree_Proofs9 Tree_Proofs10 Tree_Props Nbr_Model Nbr_Spec Nbr_Proofs Nbr_Proofs2 Nbr_Proofs3.
Import ListNotations.
Local Open Scope nat_scope.

(** C16: the list of a block is computed without failure; each entry names a block of the mesh that touches it, with its id, in a
    slot of its own; that block's list has the reciprocal entry; and every other block that touches it is listed. *)
Theorem C16_neighbours : forall g, valid_grid g -> no_pole g -> no_shear g -> forall t, history g t -> forall ml, declared g ml (blocks t) ->
  forall a, In a (blocks t) -> exists ns, SearchAndSetNeighbors g ml t a = Some ns /\
    NoDup (map n_bufid ns) /\ length ns <= 56 /\
    (forall e, In e ns -> n_bufid e < 56 /\ In (n_loc e) (blocks t) /\ FindMeshBlock t (n_loc e) = Leaf (n_gid e) /\ points_to g a e /\ touch g a (n_loc e) /\
       exists ns' e', SearchAndSetNeighbors g ml t (n_loc e) = Some ns' /\ In e' ns' /\ reciprocal a (n_loc e) e e') /\
    (forall b, In b (blocks t) -> b <> a -> touch g a b -> exists e, In e ns /\ n_loc e = b).
Proof.
  intros g V NP NS t H ml ML a Ha. pose proof (hist_wf g V t H) as W. pose proof (hist_B g V NP t H) as Bt.
  destruct (lists g V NP NS t W Bt ml ML a Ha) as (za & ns & Ca & Ka & Es & Hin & ND). exists ns. split; [exact Es|]. split; [exact ND|].
  assert (HF : forall e, In e ns -> n_bufid e < 56) by (intros e He; apply Hin in He; apply (entry_facts g V t W ml ML a e Ha He)). split; [|split].
  - rewrite <- (map_length n_bufid ns). rewrite <- (seq_length 56 0). apply NoDup_incl_length; [exact ND|]. intros k Hk. apply in_map_iff in Hk as (e & <- & He). apply in_seq. specialize (HF e He). lia.
  - intros e He. split; [apply HF, He|]. apply Hin in He. destruct (entry_facts g V t W ml ML a e Ha He) as (P & _). destruct (entry_block g V NP t W Bt ml ML a e Ha He) as [Hb T]. destruct (recip_ex g V NP t W Bt ml ML a za e Ca Ka He) as (Cn & Kn & e' & He' & (R1 & R2 & R3 & R4 & R5 & R6)).
    split; [exact Hb|]. split; [apply find_kind, Kn|]. split; [exact P|]. split; [exact T|]. destruct (lists g V NP NS t W Bt ml ML (n_loc e) Hb) as (zb & ns' & _ & _ & Es' & Hin' & _). exists ns', e'. split; [exact Es'|]. split; [apply Hin', He'|].
    split; [reflexivity|]. split; [exact R1|]. split; [exact R3|]. split; [exact R4|]. split; [|exact R6]. intros d. rewrite (off_dir e' d), R5, od_opp, (off_dir e d). reflexivity.
  - intros b Hb Hne T. destruct (touch_listed g V NP t W Bt ml ML a b Ha Hb ltac:(congruence) T) as (e & He & Ee). exists e. split; [apply Hin, He|exact Ee].
Qed.
Print Assumptions C16_neighbours.
(** C16: no direction is forgotten.  [m] is the position of the block's size in the given direction: if it is a block, it is
    listed for that direction; if it is split, each of its blocks facing [a] is; if it lies in a coarser block across a face,
    that block is. *)
Theorem C16_directions : forall g, valid_grid g -> no_pole g -> no_shear g -> forall t, history g t -> forall ml, declared g ml (blocks t) ->
  forall a o1 o2 o3 m ns, In a (blocks t) -> SearchAndSetNeighbors g ml t a = Some ns ->
  ((-1 <= o1 <= 1)%Z /\ (-1 <= o2 <= 1)%Z /\ (-1 <= o3 <= 1)%Z /\ (gdim g < 2 -> o2 = 0%Z) /\ (gdim g < 3 -> o3 = 0%Z) /\ (o1 <> 0 \/ o2 <> 0 \/ o3 <> 0)%Z) ->
  let o d := match d with 0 => o1 | 1 => o2 | _ => o3 end in neighbour_position g a o m ->
  let listed b := exists e, In e ns /\ n_loc e = b /\ n_o1 e = o1 /\ n_o2 e = o2 /\ n_o3 e = o3 in
  (In m (blocks t) -> listed m) /\
  (forall c, In c (blocks t) -> In c (children (gdim g) m) -> (forall d, d < 3 -> (o d = (-1)%Z -> Z.odd (coord d c) = true) /\ (o d = 1%Z -> Z.odd (coord d c) = false)) -> listed c) /\
  (forall b, In b (blocks t) -> In m (children (gdim g) b) -> (Z.abs o1 + Z.abs o2 + Z.abs o3 = 1)%Z -> listed b).
Proof.
  intros g V NP NS t H ml ML a o1 o2 o3 m ns Ha Es Ho o Hm listed. pose proof (hist_wf g V t H) as W. pose proof (hist_B g V NP t H) as Bt.
  destruct (lists g V NP NS t W Bt ml ML a Ha) as (za & ns' & Ca & Ka & Es' & Hin & ND). assert (ns' = ns) by congruence. subst ns'.
  destruct (cover_dir g V t W ml ML a (o1, o2, o3) m Ha Ho Hm) as (C1 & C2 & C3).
  assert (HL : forall b, (exists e, E g t ml a e /\ n_loc e = b /\ forall d, off e d = od (o1, o2, o3) d) -> listed b).
  { intros b (e & He & Eb & Ed). exists e. split; [apply Hin, He|]. split; [exact Eb|]. split; [exact (Ed 0)|]. split; [exact (Ed 1)|exact (Ed 2)]. }
  split; [intros Hb; apply HL, C1, Hb|]. split; [intros c Hc Hch Hf; apply HL, C2; assumption|]. intros b Hb Hch Hf. apply HL, C3; try assumption.
  unfold dtype, nz. destruct (Z.eqb_spec o1 0), (Z.eqb_spec o2 0), (Z.eqb_spec o3 0); try reflexivity; exfalso; lia.
Qed.
Print Assumptions C16_directions.

(** C16: messages.  Every rank posts, for each of its blocks and each neighbour on another rank, one send and one receive; for any
    valid distribution of the blocks over ranks the sends and receives of a cell-centred variable with [nvar] components match,
    and so do those of its flux correction. *)
Theorem C16_messages : forall g, valid_grid g -> no_pole g -> no_shear g -> forall t, history g t -> forall ml, declared g ml (blocks t) ->
  forall nr rl tbl, good_partition nr (length (blocks t)) rl tbl -> forall phys, (phys < 32)%N -> forall ng cng nx nvar,
  matched nr (bv_sends g ml (renumbered t) rl tbl (cc_ssize (gdim g) ng cng nx nvar) phys) (bv_recvs g ml (renumbered t) rl tbl (cc_rsize (gdim g) ng cng nx nvar) phys).
Proof.
  intros g V NP NS t H ml ML nr rl tbl GP phys PH ng cng nx nvar. apply messages_match; try assumption; [apply (hist_wf g V t H)|apply (hist_B g V NP t H)|]. intros a b e e'. apply cc_sizes.
Qed.
Print Assumptions C16_messages.
Theorem C16_flux_messages : forall g, valid_grid g -> no_pole g -> no_shear g -> forall t, history g t -> forall ml, declared g ml (blocks t) ->
  forall nr rl tbl, good_partition nr (length (blocks t)) rl tbl -> forall phys, (phys < 32)%N -> forall nx nvar,
  matched nr (bv_sends g ml (renumbered t) rl tbl (fl_ssize nx nvar) phys) (bv_recvs g ml (renumbered t) rl tbl (fl_rsize nx nvar) phys).
Proof.
  intros g V NP NS t H ml ML nr rl tbl GP phys PH nx nvar. apply messages_match; try assumption; [apply (hist_wf g V t H)|apply (hist_B g V NP t H)|]. intros a b e e'. apply fl_sizes.
Qed.
Print Assumptions C16_flux_messages.

(** C17 *)
Theorem C17_decisions : forall lev maxlev rootlev threshold obs i flag, nth_error (checks lev maxlev rootlev threshold 0 obs) i = Some flag ->
  exists crit finer, nth_error obs i = Some (crit, finer) /\ (flag = 1 \/ flag = 0 \/ flag = -1)%Z /\
    (flag = 1%Z <-> lev <> maxlev /\ wants_refine crit) /\
    (flag = (-1)%Z <-> lev <> rootlev /\ finer = false /\ asked_repeatedly threshold (map fst obs) i).
Proof. exact decisions. Qed.
Print Assumptions C17_decisions.
(** What the check takes for a finer neighbour is a touching block of a higher level. *)
Theorem C17_finer_neighbour : forall g, valid_grid g -> no_pole g -> no_shear g -> forall t, history g t -> forall a, In a (blocks t) ->
  (finer_neighbour g t a = true <-> exists b, In b (blocks t) /\ touch g a b /\ level a < level b).
Proof.
  intros g V NP NS t H a Ha. apply (finer_iff g V NP NS t (hist_wf g V t H) (hist_B g V NP t H) true); [intros E; discriminate E|exact Ha].
Qed.
Print Assumptions C17_finer_neighbour.
(** With flags decided this way the update of the tree keeps every block between the root and the maximum level. *)
Theorem C17_levels_bounded : forall g, valid_grid g -> forall t, history g t -> forall maxlev, groot g <= maxlev -> (forall b, In b (blocks t) -> level b <= maxlev) ->
  forall fref fderef t' nnew ndel,
  (forall l, fref l = true -> exists fin th c n n', CheckRefinementCondition (level l) maxlev (groot g) fin th c n = (n', 1)%Z) ->
  (forall l, fderef l = true -> groot g <= level l /\ exists fin th c n n', CheckRefinementCondition (level l) maxlev (groot g) fin th c n = (n', -1)%Z) ->
  may_update g t (flagged fref t) (flagged fderef t) (Some (t', nnew, ndel)) ->
  history g t' /\ forall b, In b (blocks t') -> groot g <= level b <= maxlev.
Proof.
  intros g V t H mx Hm Hb fr fd t' nnew ndel Hr Hd Hu.
  assert (Hd' : forall l, fd l = true -> groot g < level l).
  { intros l Hl. destruct (Hd l Hl) as (Hg & fin & th & c & n & n' & E). rewrite check_cases in E. destruct (negb_crit c); [|destruct c as [r|]; [destruct (Z.ltb 0 r); [destruct (Nat.eqb _ _)|]|]; discriminate E]. destruct (Nat.eqb_spec (level l) (groot g)); [discriminate E|lia]. }
  assert (Hr' : forall l, fr l = true -> level l <> mx).
  { intros l Hl. destruct (Hr l Hl) as (fin & th & c & n & n' & E). rewrite check_cases in E. destruct (negb_crit c); [destruct (Nat.eqb (level l) (groot g)); [discriminate E|]; destruct fin; [discriminate E|]; destruct (Z.leb _ _); discriminate E|]. destruct c as [r|]; [|discriminate E]. destruct (Z.ltb 0 r); [|discriminate E]. destruct (Nat.eqb_spec (level l) mx); [discriminate E|assumption]. }
  assert (H' : history g t') by (apply (h_update g t fr fd t' nnew ndel); assumption). split; [exact H'|]. intros b Hin. split.
  - pose proof (hist_wf g V t' H') as W'. apply (in_blocks g t' b W') in Hin as [Cb (z & Kb)]. apply (leaf_level g t' b z W' Cb Kb).
  - apply (step_below g V mx t fr fd t' nnew ndel (hist_wf g V t H) Hm Hb Hd' Hr' Hu b Hin).
Qed.
Print Assumptions C17_levels_bounded.

(** ** The hypotheses are met *)
Example ex_declared : declared ex_grid true (blocks ex_tree).
Proof. intros E. discriminate E. Qed.
(** The finest block in the corner lists the coarser block across the periodic x1 face, three blocks of its own level and two more
    coarser ones; on two ranks 27 messages go each way, 2 of them with corrected fluxes. *)
Example ex_list : exists ns, SearchAndSetNeighbors ex_grid true ex_tree ex_req = Some ns /\
  map n_loc ns = [mkLoc 2 3 0 0; mkLoc 3 1 0 0; mkLoc 2 0 3 0; mkLoc 3 0 1 0; mkLoc 2 3 3 0; mkLoc 3 1 1 0] /\ map n_bufid ns = [0; 2; 4; 6; 8; 11] /\
  map n_target ns = [Some 2; Some 0; Some 6; Some 4; Some 11; Some 8].
Proof. eexists. split; [vm_compute; reflexivity|split; [reflexivity|split; reflexivity]]. Qed.
Definition ex_rl := repeat 0 9 ++ repeat 1 10.
Definition ex_tbl := [(0, 9); (9, 10)].
Example ex_partition : good_partition 2 (length (blocks ex_tree)) ex_rl ex_tbl.
Proof.
  change (length (blocks ex_tree)) with 19.
  assert (E : forall b d, b < 19 -> nth b ex_rl d = if Nat.ltb b 9 then 0 else 1) by (intros b d Hb; do 19 (destruct b as [|b]; [reflexivity|]); lia).
  split; [reflexivity|]. split; [reflexivity|]. split; [|split].
  - intros b Hb. rewrite E by exact Hb. destruct (Nat.ltb b 9); lia.
  - intros b b' H1 H2. rewrite !E by lia. destruct (Nat.ltb_spec b 9), (Nat.ltb_spec b' 9); lia.
  - intros [|[|r]] Hr; [exists 0, 9|exists 9, 10|lia]; (split; [reflexivity|]; split; [lia|]; split; [lia|]); intros b Hb; rewrite E by exact Hb; destruct (Nat.ltb_spec b 9); lia.
Qed.
Example ex_messages : length (bv_sends ex_grid true ex_tree ex_rl ex_tbl (cc_ssize 2 2 2 (8, 8, 1) 5) 3 0) = 27 /\
  map (fun m => (bm_peer m, bm_gid m, bm_slot m, bm_size m)) (bv_sends ex_grid true ex_tree ex_rl ex_tbl (fl_ssize (8, 8, 1) 5) 4 0) = [(1, 13, 6, 20); (1, 13, 7, 20)].
Proof. vm_compute. split; reflexivity. Qed.
Example ex_finer : finer_neighbour ex_grid ex_tree (mkLoc 2 3 0 0) = true /\ finer_neighbour ex_grid ex_tree ex_req = false.
Proof. vm_compute. split; reflexivity. Qed.
Example ex_checks : checks 3 5 1 2 0 [(Some (-1)%Z, false); (Some (-2)%Z, true); (Some (-1)%Z, false); (Some 1%Z, false); (Some (-1)%Z, false)] = [0; 0; -1; 1; 0]%Z.
Proof. reflexivity. Qed.
(** The flags of ex_update can be decisions: a block of level 2 refined, blocks of level 3 derefined, maximum level 3. *)
Example ex_decided : (forall l, ex_fref l = true -> exists fin th c n n', CheckRefinementCondition (level l) 3 (groot ex_grid) fin th c n = (n', 1)%Z) /\
  (forall l, ex_fderef l = true -> groot ex_grid <= level l /\ exists fin th c n n', CheckRefinementCondition (level l) 3 (groot ex_grid) fin th c n = (n', -1)%Z).
Proof.
  split; intros l H.
  - exists false, 5%Z, (Some 1%Z), 0%Z, 0%Z. unfold ex_fref, loc_eqb in H. rewrite !andb_true_iff in H. destruct H as [[[H _] _] _]. apply Nat.eqb_eq in H. rewrite H. reflexivity.
  - unfold ex_fderef in H. apply Nat.eqb_eq in H. rewrite H. split; [cbn; lia|]. exists false, 5%Z, (Some (-1)%Z), 4%Z, 5%Z. reflexivity.
Qed.
