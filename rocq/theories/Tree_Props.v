(** Property theorems about the tree of MeshBlocks (C07-C15, C18, C19, C60). *)
From Coq Require Import List Arith ZArith Bool Lia Permutation.
From Verif Require Import Loc LB_Spec AMR_Model AMR_Spec AMR_Proofs AMR_Proofs2 AMR_Props Tree_Model Tree_Spec Tree_Proofs1 Tree_Proofs2 Tree_Proofs3 Tree_Proofs4 Tree_Proofs5 Tree_Proofs6 Tree_Proofs7 Tree_Proofs8 Tree_Restart Tree_Proofs9 Tree_Proofs10.
Import ListNotations.
Local Open Scope nat_scope.

(** C07: the root grid consists of the root blocks of the domain, each once, and tiles the domain. *)
Theorem C07_root_grid : forall g, valid_grid g ->
  tiling g (blocks (CreateRootGrid g)) /\ forall x, In x (blocks (CreateRootGrid g)) <-> in_domain g x /\ level x = groot g.
Proof. intros g V. split; [apply (wf_tiling g V), root_wf, V|exact (root_blocks g V)]. Qed.
Print Assumptions C07_root_grid.

(** C08: any boundary conditions (polar and shearing included). *)
Theorem C08_tiling : forall g, valid_grid g -> forall t, history g t -> tiling g (blocks t).
Proof. intros g V t H. apply (wf_tiling g V), (hist_wf g V), H. Qed.
Print Assumptions C08_tiling.
(** Requests and updates do not fail (no null pointer, no fatal error). *)
Theorem C08_requests_succeed : forall g, valid_grid g -> forall t n l, history g t -> in_domain g l ->
  exists t' n', AddMeshBlock g (t, n) l = Some (t', n').
Proof. intros g V t n l H D. destruct (request g V t n l (hist_wf g V t H) D) as (t' & n' & E & _). exists t', n'. exact E. Qed.
Print Assumptions C08_requests_succeed.
Theorem C08_updates_succeed : forall g, valid_grid g -> no_pole g -> no_shear g -> forall t fref fderef r, history g t ->
  (forall l, fderef l = true -> groot g < level l) -> may_update g t (flagged fref t) (flagged fderef t) r ->
  exists t' nnew ndel, r = Some (t', nnew, ndel).
Proof.
  intros g V NP NS t fr fd r H Hf Hu. pose proof (hist_wf g V t H) as W. pose proof (hist_B g V NP t H) as Bt.
  apply (may_update_inv g V) in Hu as [->|(cld & Hc & ->)]; try assumption; [exists t, 0, 0; reflexivity|].
  apply (update_total g V NP NS t fr fd cld W Bt Hf Hc).
Qed.
Print Assumptions C08_updates_succeed.
(** The code's own update is one of those covered by [history]. *)
Theorem C08_update_is_a_step : forall g t lref lderef, may_update g t lref lderef (UpdateMeshBlockTree g t lref lderef).
Proof. exact update_allowed. Qed.
Print Assumptions C08_update_is_a_step.

(** C09 *)
Theorem C09_balanced : forall g, valid_grid g -> no_pole g -> forall t, history g t -> balanced g (blocks t).
Proof. intros g V NP t H. apply (B_balanced g V NP t (hist_wf g V t H)), (hist_B g V NP t H). Qed.
Print Assumptions C09_balanced.

(** C11 *)
Theorem C11_request_honoured : forall g, valid_grid g -> forall t n l, history g t -> in_domain g l ->
  exists t' n', AddMeshBlock g (t, n) l = Some (t', n') /\ FindMeshBlock t' l <> Null /\
  (forall b, In b (blocks t') -> overlap b l -> contains l b) /\
  (forall a b, In a (blocks t) -> In b (blocks t') -> overlap a b -> contains a b) /\
  length (blocks t') + n = length (blocks t) + n'.
Proof. intros g V t n l H D. exact (request g V t n l (hist_wf g V t H) D). Qed.
Print Assumptions C11_request_honoured.
(** In an adaptive step every block that asks to be refined is replaced by its children. *)
Theorem C11_flagged_blocks_refined : forall g, valid_grid g -> no_pole g -> forall t fref fderef t' nnew ndel, history g t ->
  (forall l, fderef l = true -> groot g < level l) -> may_update g t (flagged fref t) (flagged fderef t) (Some (t', nnew, ndel)) ->
  forall l, In l (blocks t) -> fref l = true -> forall c, In c (children (gdim g) l) -> In c (blocks t').
Proof.
  intros g V NP t fr fd t' nnew ndel H Hf Hu l Hl Hr c Hc. pose proof (hist_wf g V t H) as W.
  destruct (step_pieces g t t' fr fd nnew ndel W (update_facts g V NP t fr fd t' nnew ndel W (hist_B g V NP t H) Hf Hu)) as (ps & _ & -> & _ & _ & HS).
  apply in_flat_map. exists (Split l). split; [apply HS; assumption|exact Hc].
Qed.
Print Assumptions C11_flagged_blocks_refined.

(** C12 *)
Theorem C12_derefine : forall g, valid_grid g -> no_pole g -> forall t n l t' n', history g t -> in_domain g l -> groot g <= level l ->
  Derefine g (t, n) l = Some (t', n') ->
  balanced g (blocks t') /\ ((t' = t /\ n' = n) \/
    exists pre post, blocks t = pre ++ children (gdim g) l ++ post /\ blocks t' = pre ++ [l] ++ post /\ n' = n + (nleaf (gdim g) - 1)).
Proof. intros g V NP t n l t' n' H. exact (derefine_blocks g V NP t n l t' n' (hist_wf g V t H) (hist_B g V NP t H)). Qed.
Print Assumptions C12_derefine.
(** It does not fail on a refined node. *)
Theorem C12_derefine_succeeds : forall g, valid_grid g -> no_pole g -> no_shear g -> forall t n l z ch, history g t -> in_domain g l -> groot g <= level l ->
  FindMeshBlock t l = Node z ch -> exists t' n', Derefine g (t, n) l = Some (t', n').
Proof.
  intros g V NP NS t n l z ch H D R E. apply (Derefine_total g V NP NS t n l (hist_wf g V t H) (hist_B g V NP t H) D R). unfold K. unfold FindMeshBlock in E. rewrite E. reflexivity.
Qed.
Print Assumptions C12_derefine_succeeds.

(** C13 *)
Theorem C13_block_list : forall g, valid_grid g -> forall t, history g t ->
  NoDup (blocks t) /\ (forall x, In x (blocks t) <-> in_domain g x /\ exists z, FindMeshBlock t x = Leaf z) /\
  count t = length (blocks t) /\
  length (fst (GetMeshBlockList (renumbered t))) = count t /\
  (forall i x, nth_error (blocks t) i = Some x -> nth_error (fst (GetMeshBlockList (renumbered t))) i = Some (x, Z.of_nat i)) /\
  (forall l, (forall c, In c (children (gdim g) l) -> In c (blocks t)) -> exists pre post, blocks t = pre ++ children (gdim g) l ++ post).
Proof.
  intros g V t H. pose proof (hist_wf g V t H) as W. destruct (list_ids g V t W) as (A1 & A2 & A3 & A4 & A5). split; [exact A1|]. split; [|split; [exact A3|split; [exact A4|split; [exact A5|]]]].
  - intros x. rewrite A2. unfold FindMeshBlock, K. split; intros [D (z & E)]; (split; [exact D|]); exists z; [destruct (sub t (path x)); try discriminate E; injection E as ->; reflexivity|rewrite E; reflexivity].
  - intros l. apply (siblings_together g t l W).
Qed.
Print Assumptions C13_block_list.

(** C14 *)
Theorem C14_restart_tree : forall g, valid_grid g -> forall t, history g t ->
  blocks (restart_tree g (blocks t)) = blocks t /\
  fst (GetMeshBlockList (renumbered (restart_tree g (blocks t)))) = fst (GetMeshBlockList (renumbered t)).
Proof. intros g V t H. exact (restart_blocks g V t (hist_wf g V t H)). Qed.
Print Assumptions C14_restart_tree.

(** C15 *)
Theorem C15_neighbour_lookup : forall g, valid_grid g -> no_pole g -> no_shear g -> forall t, history g t ->
  forall l o1 o2 o3 amr, In l (blocks t) ->
  ((-1 <= o1 <= 1)%Z /\ (if Nat.ltb 1 (gdim g) then -1 <= o2 <= 1 else o2 = 0)%Z /\ (if Nat.ltb 2 (gdim g) then -1 <= o3 <= 1 else o3 = 0)%Z) ->
  let o d := match d with 0 => o1 | 1 => o2 | _ => o3 end in
  (FindNeighbor g t l o1 o2 o3 amr = Some None <-> forall m, ~ neighbour_position g l o m) /\
  forall m, neighbour_position g l o m -> exists r, FindNeighbor g t l o1 o2 o3 amr = Some (Some r) /\
    ((r = m /\ exists b, In b (blocks t) /\ contains m b) \/ (In r (blocks t) /\ level r + 1 = level m /\ contains r m)).
Proof. intros g V NP NS t H l o1 o2 o3 amr Hl Hd. exact (lookup g V NP NS t l o1 o2 o3 amr (hist_wf g V t H) (hist_B g V NP t H) Hl Hd). Qed.
Print Assumptions C15_neighbour_lookup.

(** C18: an adaptive step of the tree, followed by any load balance, is a redistribution in the sense of AMR_Spec, so that the
    C18, C22 and C59 theorems of AMR_Props apply to it. *)
Theorem C18_steps_are_redistributions : forall g, valid_grid g -> no_pole g -> forall t0 fref fderef t' nnew ndel, history g t0 ->
  (forall l, fderef l = true -> groot g < level l) ->
  let t := renumbered t0 in may_update g t (flagged fref t) (flagged fderef t) (Some (t', nnew, ndel)) ->
  forall nr a, a_dim a = gdim g -> oldloc a = blocks t -> newloc a = blocks t' -> map Z.of_nat (newtoold a) = old_ids t' ->
  good_partition nr (length (oldloc a)) (ranklist a) (oldtbl a) -> good_partition nr (length (newloc a)) (newrank a) (newtbl a) ->
  exists ps, redistribution nr ps a.
Proof.
  intros g V NP t0 fr fd t' nnew ndel H Hf t Hu nr a Ed Eo En Ei P1 P2. pose proof (h_number g t0 H) as Ht. fold t in Ht. pose proof (hist_wf g V t Ht) as W.
  destruct (step_pieces g t t' fr fd nnew ndel W (update_facts g V NP t fr fd t' nnew ndel W (hist_B g V NP t Ht) Hf Hu)) as (ps & E1 & E2 & E3 & _).
  exists ps. split; [rewrite Ed; apply V|]. split; [|split; [|split; [|split; [|split; [|split; assumption]]]]].
  - intros ->. pose proof (wf_tiling g V t W) as (_ & _ & _ & Hc). rewrite E1 in Hc. destruct (Hc rootloc) as (x & [] & _).
    + intros d Hd. destruct V as (_ & V2 & V3 & _). split; [destruct d as [|[|[|d]]]; cbn; lia|]. split; [intros Hdd; destruct (V2 d Hd); destruct d as [|[|[|d]]]; cbn -[Z.pow]; try lia; rewrite Z.mul_0_l; change (2 ^ Z.of_nat 0)%Z with 1%Z; lia|]. intros _. destruct d as [|[|[|d]]]; reflexivity.
    + intros x [].
  - rewrite Ed, Eo. apply (disjoint_of_tiling g V t W).
  - rewrite Ed, Eo. exact E1.
  - rewrite Ed, En. exact E2.
  - rewrite Ed. assert (E : map Z.of_nat (newtoold a) = map Z.of_nat (new2old (gdim g) 0 ps)).
    { rewrite Ei. apply E3. destruct (list_ids g V t0 (hist_wf g V t0 H)) as (_ & _ & _ & L & _). unfold old_ids, blocks, t in *. rewrite map_length, L. unfold renumbered, GetMeshBlockList. cbn [fst snd]. rewrite (proj1 (renumber_leaves _ _ _)).
      pose proof (count_leaves t0 rootloc) as Lc. revert Lc. rewrite <- (map_length fst (leaves t0 rootloc)). generalize (map fst (leaves t0 rootloc)), (count t0). intros xs n E. assert (Ls : length (map Z.of_nat (seq 0 n)) = length xs) by (rewrite map_length, seq_length; symmetry; exact E). revert Ls. clear. generalize (map Z.of_nat (seq 0 n)). clear. revert xs. intros xs ys. revert xs. induction ys as [|y ys IH]; intros xs Ls; destruct xs; try discriminate Ls; [reflexivity|]. cbn. f_equal. apply IH. cbn in Ls. lia. }
    revert E. generalize (newtoold a), (new2old (gdim g) 0 ps). clear. intros xs. induction xs as [|x xs IH]; intros [|y ys] E; try discriminate E; [reflexivity|]. cbn in E. injection E as E1 E2. apply Nat2Z.inj in E1. subst y. f_equal. apply IH, E2.
Qed.
Print Assumptions C18_steps_are_redistributions.

(** C19 *)
Theorem C19_one_level : forall g, valid_grid g -> no_pole g -> forall t fref fderef t' nnew ndel, history g t ->
  (forall l, fderef l = true -> groot g < level l) -> may_update g t (flagged fref t) (flagged fderef t) (Some (t', nnew, ndel)) ->
  forall a b, In a (blocks t) -> In b (blocks t') -> overlap a b ->
  level a <= level b + 1 /\ level b <= level a + 1 /\
  (level b < level a -> In a (children (gdim g) b) /\ forall c, In c (children (gdim g) b) -> In c (blocks t) /\ fderef c = true).
Proof.
  intros g V NP t fr fd t' nnew ndel H Hf Hu. pose proof (hist_wf g V t H) as W.
  exact (step_levels g V t t' fr fd nnew ndel W (update_facts g V NP t fr fd t' nnew ndel W (hist_B g V NP t H) Hf Hu)).
Qed.
Print Assumptions C19_one_level.

(** C60: the numbers of new and deleted blocks reported by an update account for the change of the number of blocks, and the
    array of derefinement groups (allocated for |lderef| / 2^dim entries) is large enough. *)
Theorem C60_block_count : forall g, valid_grid g -> no_pole g -> forall t fref fderef t' nnew ndel, history g t ->
  (forall l, fderef l = true -> groot g < level l) -> may_update g t (flagged fref t) (flagged fderef t) (Some (t', nnew, ndel)) ->
  length (blocks t') + ndel = length (blocks t) + nnew.
Proof.
  intros g V NP t fr fd t' nnew ndel H Hf Hu. pose proof (hist_wf g V t H) as W.
  pose proof (sf_count _ _ _ _ _ _ _ (update_facts g V NP t fr fd t' nnew ndel W (hist_B g V NP t H) Hf Hu)) as E. unfold blocks, GetMeshBlockList. cbn [fst]. rewrite !map_length, !count_leaves. exact E.
Qed.
Print Assumptions C60_block_count.
Theorem C60_group_array_fits : forall g, valid_grid g -> forall t fderef, history g t -> (forall l, fderef l = true -> groot g < level l) ->
  length (groups g (flagged fderef t)) <= length (flagged fderef t) / nleaf (gdim g).
Proof.
  intros g V t fd H Hf. apply groups_capacity; [exact V| |].
  - intros n Hn. apply filter_In in Hn as [_ Hn]. specialize (Hf n Hn). lia.
  - apply NoDup_filter, (wf_tiling g V t (hist_wf g V t H)).
Qed.
Print Assumptions C60_group_array_fits.

(** ** The hypotheses are met: a doubly periodic 2 x 2 mesh with a block requested two levels deeper, and an adaptive step that
    splits one block and merges four. *)
Definition ex_grid : grid := mkG 2 1 (fun d => match d with 0 | 1 => 2%Z | _ => 1%Z end) (fun d _ => match d with 0 | 1 => BPeriodic | _ => BOther end).
Example ex_grid_ok : valid_grid ex_grid /\ no_pole ex_grid /\ no_shear ex_grid.
Proof.
  split; [|split; split; discriminate]. split; [cbn; lia|]. split; [intros [|[|[|d]]] Hd; cbn; lia|]. split; [intros [|[|[|d]]] Hd; cbn in *; try lia; reflexivity|]. intros [|[|[|d]]] Hd; cbn; tauto.
Qed.
Definition ex_req : loc := mkLoc 3 0 0 0.
Example ex_req_ok : in_domain ex_grid ex_req.
Proof. intros [|[|[|d]]] Hd; cbn; repeat split; lia. Qed.
Definition ex_tree : tree := match AddMeshBlock ex_grid (CreateRootGrid ex_grid, 0) ex_req with Some (t, _) => renumbered t | None => Null end.
Example ex_history : history ex_grid ex_tree /\ length (blocks ex_tree) = 19 /\ In ex_req (blocks ex_tree).
Proof.
  split; [|split; [reflexivity|left; reflexivity]]. unfold ex_tree. destruct (AddMeshBlock ex_grid (CreateRootGrid ex_grid, 0) ex_req) as [[t n]|] eqn:E; [|vm_compute in E; discriminate E].
  apply h_number. apply (h_add ex_grid (CreateRootGrid ex_grid) ex_req 0 t n); [apply h_root|exact ex_req_ok|exact E].
Qed.
(** The request refined the three other root blocks as well (periodic neighbours). *)
Example ex_levels : map level (blocks ex_tree) = [3; 3; 3; 3; 2; 2; 2; 2; 2; 2; 2; 2; 2; 2; 2; 2; 2; 2; 2].
Proof. reflexivity. Qed.
Definition ex_fref (l : loc) : bool := loc_eqb l (mkLoc 2 3 3 0).
Definition ex_fderef (l : loc) : bool := Nat.eqb (level l) 3.
Example ex_update : (forall l, ex_fderef l = true -> groot ex_grid < level l) /\
  exists t', UpdateMeshBlockTree ex_grid ex_tree (flagged ex_fref ex_tree) (flagged ex_fderef ex_tree) = Some (t', 3, 3) /\
  history ex_grid t' /\ map level (blocks t') = [2; 2; 2; 2; 2; 2; 2; 2; 2; 2; 2; 2; 2; 2; 2; 3; 3; 3; 3] /\
  old_ids t' = [0; 4; 5; 6; 7; 8; 9; 10; 11; 12; 13; 14; 15; 16; 17; 18; 18; 18; 18]%Z.
Proof.
  split; [intros l H; apply Nat.eqb_eq in H; cbn; lia|]. destruct (UpdateMeshBlockTree ex_grid ex_tree (flagged ex_fref ex_tree) (flagged ex_fderef ex_tree)) as [[[t' n1] n2]|] eqn:E; [|vm_compute in E; discriminate E].
  exists t'. split; [|split; [|]].
  - vm_compute in E. injection E as <- <- <-. reflexivity.
  - refine (h_update ex_grid ex_tree ex_fref ex_fderef t' n1 n2 (proj1 ex_history) _ _); [intros l H; apply Nat.eqb_eq in H; cbn [groot ex_grid]; lia|]. rewrite <- E. exact (update_allowed ex_grid ex_tree (flagged ex_fref ex_tree) (flagged ex_fderef ex_tree)).
  - vm_compute in E. injection E as <- _ _. split; reflexivity.
Qed.
(** A lookup across the periodic boundary that finds a coarser block, and one in a mesh with an outer wall that finds nothing. *)
Example ex_lookup : FindNeighbor ex_grid ex_tree ex_req (-1) 0 0 false = Some (Some (mkLoc 2 3 0 0)) /\
  neighbour_position ex_grid ex_req (fun d => match d with 0 => (-1)%Z | _ => 0%Z end) (mkLoc 3 7 0 0).
Proof.
  split; [reflexivity|]. split; [reflexivity|]. split; [intros [|[|[|d]]] Hd; cbn; repeat split; lia|].
  intros [|[|d]] Hd; [exists 8%Z|exists 0%Z|cbn in Hd; lia]; (split; [|reflexivity]); [right; repeat split; left; reflexivity|left; reflexivity].
Qed.
Example ex_derefine : exists t', Derefine ex_grid (ex_tree, 0) (mkLoc 2 0 0 0) = Some (t', 3) /\ Derefine ex_grid (ex_tree, 0) (mkLoc 1 0 0 0) = Some (ex_tree, 0) /\
  length (blocks t') = 16.
Proof. eexists. split; [reflexivity|]. split; reflexivity. Qed.

(** C10 is false at the inner pole: Refine shifts lx3 once it has crossed the pole (oy = -1) and keeps it for oy = 0 and 1, so the
    ordinary neighbours are never refined.  The smallest mesh with a reachable tree that is not balanced. *)
Definition polar_grid (inner : bool) : grid :=
  mkG 3 2 (fun d => match d with 0 | 1 => 2%Z | 2 => 4%Z | _ => 1%Z end)
    (fun d o => match d with 0 => BOther | 1 => if Bool.eqb o (negb inner) then BPolar else BOther | _ => BPeriodic end).
Example polar_grid_ok : forall b, valid_grid (polar_grid b).
Proof.
  intros b. split; [cbn; lia|]. split; [intros [|[|[|d]]] Hd; cbn; lia|]. split; [intros [|[|[|d]]] Hd; cbn in *; try lia; reflexivity|]. intros [|[|[|d]]] Hd; cbn; [split; discriminate| |tauto|tauto].
  destruct b; cbn; split; discriminate.
Qed.
Theorem C10_inner_pole_refuted : exists t, history (polar_grid true) t /\ ~ balanced (polar_grid true) (blocks t).
Proof.
  set (g := polar_grid true). destruct (AddMeshBlock g (CreateRootGrid g, 0) (mkLoc 4 0 0 0)) as [[t n]|] eqn:E; [|vm_compute in E; discriminate E].
  exists t. split. { apply (h_add g (CreateRootGrid g) (mkLoc 4 0 0 0) 0 t n); [apply h_root| |exact E]. intros [|[|[|d]]] Hd; cbn; repeat split; lia. }
  vm_compute in E. injection E as <- _. intros H. destruct (H (mkLoc 4 0 0 0) (mkLoc 2 0 0 3)) as [H1 _].
  - vm_compute. tauto.
  - vm_compute. tauto.
  - intros [|[|[|d]]] Hd; [exists 0%Z|exists 0%Z|exists (-64)%Z|cbn in Hd; lia]; (split; [|cbn; lia]); [left; reflexivity|left; reflexivity|right; repeat split; right; reflexivity].
  - cbn in H1. lia.
Qed.
Print Assumptions C10_inner_pole_refuted.
