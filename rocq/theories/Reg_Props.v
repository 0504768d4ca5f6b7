(** Property theorems about the values that blocks get when the mesh is refined or derefined (C76). *)
From Coq Require Import List Arith ZArith Bool Permutation Reals Lia Lra.
From Verif Require Import Fv_Model Fv_Spec Fv_Proofs Fv_Proofs2 Loc LB_Spec AMR_Model AMR_Spec AMR_Proofs AMR_Proofs2 AMR_Props Tree_Model Tree_Spec Tree_Proofs1 Tree_Proofs2 Tree_Proofs4 Tree_Proofs9 Tree_Proofs10 Tree_Props Nbr_Model Nbr_Spec Buf_Model Gho_Model Gho_Spec Gho_Proofs Gho_Proofs3 Gho_Props Con_Model Con_Spec Con_Props Fgh_Model2 Reg_Model Reg_Spec Reg_Spec2 Reg_Proofs Reg_Proofs2 Reg_Proofs3 Reg_Proofs4 Reg_Proofs5 Reg_Proofs6 Reg_Proofs7 Reg_Proofs8.
From Verif Require Ref_Model Ref_Spec.
Import ListNotations.
Local Open Scope Z_scope.

(** C76: an adaptive step does not change the sum over all cells of volume times value, whatever blocks are refined and derefined at the same time, whatever ranks the blocks come from and go to, whatever the coarse buffers and
    the arrays of new blocks held before. *)
Theorem C76_conservation : forall B nl nu vol xc xf a U C fresh freshc nr ps, redistribution nr ps a -> refinable (a_dim a) B ->
  volumes_add (a_dim a) B vol (oldloc a) (newloc a) -> (forall b, In b (newloc a) -> centred B (vol b) (xc b) (xf b)) -> forall m, nl <= m <= nu ->
  total_of B vol (newloc a) (fun n => NewBlock B nl nu vol xc xf a U C fresh freshc n m) = total_of B vol (oldloc a) (fun o => U o m).
Proof. intros B nl nu vol xc xf a U C fresh freshc nr ps RD RB VA CE m Hm. apply (regrid_total B nl nu vol xc xf a U C fresh freshc (proj1 RD) RB nr ps RD VA m Hm CE). Qed.
Print Assumptions C76_conservation.
(** C76: a block that is in the old and in the new mesh keeps the values of its cells, also when it moves to another rank. *)
Theorem C76_unchanged : forall B nl nu vol xc xf a U C fresh freshc nr ps, redistribution nr ps a -> refinable (a_dim a) B ->
  forall n o l, nth_error (newloc a) n = Some l -> nth_error (oldloc a) o = Some l -> forall m x, nl <= m <= nu -> own B (a_dim a) false x ->
  value (NewBlock B nl nu vol xc xf a U C fresh freshc n) m x = value (U o) m x.
Proof. intros B nl nu vol xc xf a U C fresh freshc nr ps RD RB n o l Hn Ho m x. apply (unchanged B nl nu vol xc xf a U C fresh freshc nr ps RD RB n o l m x Hn Ho). Qed.
Print Assumptions C76_unchanged.
(** C76: the values of the new blocks do not depend on how the old and the new blocks are spread over ranks, nor on how many ranks there are, nor on what coarse buffers and new arrays held. *)
Theorem C76_ranks : forall B nl nu vol xc xf a a' U C C' fresh fresh' freshc freshc' nr nr' ps, redistribution nr ps a -> redistribution nr' ps a' -> a_dim a' = a_dim a -> refinable (a_dim a) B ->
  forall n m x, (n < length (newloc a))%nat -> nl <= m <= nu -> own B (a_dim a) false x ->
  value (NewBlock B nl nu vol xc xf a U C fresh freshc n) m x = value (NewBlock B nl nu vol xc xf a' U C' fresh' freshc' n) m x.
Proof.
  intros B nl nu vol xc xf a a' U C C' fresh fresh' freshc freshc' nr nr' ps RD RD' ED RB n m x Hn Hm Hx. destruct (nth_error (newloc a) n) as [b|] eqn:E; [|apply nth_error_None in E; lia].
  apply (ranks B nl nu vol xc xf nr nr' ps a a' U C C' fresh fresh' freshc freshc' RD RB RD' ED n b m x E Hm Hx).
Qed.
Print Assumptions C76_ranks.
(** C76: no new extrema; densities and pressures stay positive, and a value that is the same everywhere stays so. *)
Theorem C76_bounded : forall B nl nu vol xc xf a U C fresh freshc nr ps, redistribution nr ps a -> refinable (a_dim a) B ->
  volumes_add (a_dim a) B vol (oldloc a) (newloc a) -> (forall b, In b (newloc a) -> well_spaced B (xc b) (xf b)) -> forall m lo hi, nl <= m <= nu ->
  (forall o x, (o < length (oldloc a))%nat -> near B (a_dim a) false 1 x -> (lo <= value (U o) m x <= hi)%R) ->
  forall n x, (n < length (newloc a))%nat -> own B (a_dim a) false x -> (lo <= value (NewBlock B nl nu vol xc xf a U C fresh freshc n) m x <= hi)%R.
Proof.
  intros B nl nu vol xc xf a U C fresh freshc nr ps RD RB VA WS m lo hi Hm HU n x Hn Hx. destruct (nth_error (newloc a) n) as [b|] eqn:E; [|apply nth_error_None in E; lia].
  apply (bounded B nl nu vol xc xf a U C fresh freshc nr ps RD RB VA WS m lo hi Hm) with (b := b); try assumption. intros o l y Ho. apply HU. apply nth_error_Some. congruence.
Qed.
Print Assumptions C76_bounded.
(** C76: uniform Cartesian meshes satisfy what is asked of volumes and positions. *)
Theorem C76_uniform : forall g, valid_grid g -> forall B, refinable (gdim g) B -> forall dx, (forall d, (d < 3)%nat -> (0 < dx d)%R) ->
  (forall t t', history g t -> history g t' -> volumes_add (gdim g) B (fun l => V (uniform g dx l)) (blocks t) (blocks t')) /\
  (forall l xc xf, uniform_positions B xc xf -> centred B (V (uniform g dx l)) xc xf /\ well_spaced B xc xf).
Proof.
  intros g Vg B RB dx Hdx. split.
  - intros t t' H H'. apply (uniform_volumes g B dx (proj1 Vg) RB Hdx). intros l [Hl|Hl]; [apply (levels_root g Vg t H l Hl)|apply (levels_root g Vg t' H' l Hl)].
  - intros l xc xf P. split; [apply uniform_centred, P|apply uniform_spaced, P].
Qed.
Print Assumptions C76_uniform.
(** C76: over any run of finite-volume updates, averages and copies of registers, ghost-zone fills and adaptive steps, on any mesh with periodic boundaries, nothing is gained or lost. *)
Theorem C76_run : forall g, valid_grid g -> no_pole g -> no_shear g -> (forall d o, (d < gdim g)%nat -> gbc g d o = BPeriodic) -> forall B, fitting g B true ->
  forall nl nu m, nl <= m <= nu -> forall dx, (forall d, (d < 3)%nat -> (0 < dx d)%R) -> forall xc xf, (forall b, uniform_positions B (xc b) (xf b)) ->
  forall st st', history g (mesh st) -> adaptive_run g B nl nu m (uniform g dx) xc xf st st' ->
  forall T, (forall s, live st s = true -> content B (blocks (mesh st)) (uniform g dx) (fun a => regs st s a m) = T) ->
  history g (mesh st') /\ forall s, live st' s = true -> content B (blocks (mesh st')) (uniform g dx) (fun a => regs st' s a m) = T.
Proof. intros g Vg NP NS Per B FT nl nu m Hm dx Hdx xc xf Pos st st' H HR T HT. apply (run_holds g B nl nu m dx xc xf Vg NP NS Per FT Hm Hdx Pos T st st' HR). split; assumption. Qed.
Print Assumptions C76_run.

(** ** The hypotheses can be met: the step of Tree_Props that derefines four blocks and refines another, on two ranks. *)
Definition ex_step_tree : tree := match UpdateMeshBlockTree ex_grid (renumbered ex_tree) (flagged ex_fref (renumbered ex_tree)) (flagged ex_fderef (renumbered ex_tree)) with Some (t, _, _) => t | None => Null end.
Example ex_step_tree_ok : exists nnew ndel, may_update ex_grid (renumbered ex_tree) (flagged ex_fref (renumbered ex_tree)) (flagged ex_fderef (renumbered ex_tree)) (Some (ex_step_tree, nnew, ndel)).
Proof.
  unfold ex_step_tree. destruct (UpdateMeshBlockTree ex_grid (renumbered ex_tree) (flagged ex_fref (renumbered ex_tree)) (flagged ex_fderef (renumbered ex_tree))) as [[[t' n1] n2]|] eqn:E; [|vm_compute in E; discriminate E].
  exists n1, n2. rewrite <- E. apply update_allowed.
Qed.
Definition ex_amr : amr := mkAMR 2 (blocks (renumbered ex_tree)) (blocks ex_step_tree) (map Z.to_nat (old_ids ex_step_tree))
  (repeat 0%nat 10 ++ repeat 1%nat 9) (repeat 0%nat 16 ++ repeat 1%nat 3) [(0, 10); (10, 9)]%nat [(0, 16); (16, 3)]%nat.
Lemma two_ranks : forall p q, (1 <= p)%nat -> (1 <= q)%nat -> good_partition 2 (p + q) (repeat 0%nat p ++ repeat 1%nat q) [(0, p); (p, q)]%nat.
Proof.
  intros p q Hp Hq. assert (N : forall b x, (b < p + q)%nat -> nth b (repeat 0%nat p ++ repeat 1%nat q) x = if Nat.ltb b p then 0%nat else 1%nat).
  { intros b x Hb. destruct (Nat.ltb_spec b p); [rewrite app_nth1 by (rewrite repeat_length; lia)|rewrite app_nth2 by (rewrite repeat_length; lia)]; rewrite repeat_length || idtac.
    - rewrite (nth_indep _ _ 0%nat) by (rewrite repeat_length; lia). apply nth_repeat.
    - rewrite (nth_indep _ _ 1%nat) by (rewrite repeat_length; lia). apply nth_repeat. }
  split; [rewrite app_length, !repeat_length; reflexivity|]. split; [reflexivity|]. split; [|split].
  - intros b Hb. rewrite N by exact Hb. destruct (Nat.ltb b p); lia.
  - intros b b' Hbb Hb. rewrite !N by lia. destruct (Nat.ltb_spec b p), (Nat.ltb_spec b' p); lia.
  - intros r Hr. destruct r as [|[|r]]; [exists 0%nat, p|exists p, q|lia]; (split; [reflexivity|]; split; [assumption|]; split; [lia|]; intros b Hb; rewrite N by exact Hb; destruct (Nat.ltb_spec b p); lia).
Qed.
Example ex_amr_ok : exists ps, redistribution 2 ps ex_amr.
Proof.
  destruct ex_step_tree_ok as (n1 & n2 & Hu). apply (C18_steps_are_redistributions ex_grid (proj1 ex_grid_ok) (proj1 (proj2 ex_grid_ok)) ex_tree ex_fref ex_fderef ex_step_tree n1 n2 (proj1 ex_history)).
  - apply ex_update. - exact Hu. - reflexivity. - reflexivity. - reflexivity. - vm_compute. reflexivity.
  - exact (two_ranks 10 9 ltac:(lia) ltac:(lia)). - exact (two_ranks 16 3 ltac:(lia) ltac:(lia)).
Qed.
(** One new block is derefined from four old ones, blocks 15 to 18 refine old block 18 (its data come from the other rank for block 15, from the same for the others), the rest are kept, some moved. *)
Example ex_amr_shape : length (oldloc ex_amr) = 19%nat /\ length (newloc ex_amr) = 19%nat /\ newtoold ex_amr = [0; 4; 5; 6; 7; 8; 9; 10; 11; 12; 13; 14; 15; 16; 17; 18; 18; 18; 18]%nat /\
  nth_error (newloc ex_amr) 0 = Some (mkLoc 2 0 0 0) /\ map (nth_error (oldloc ex_amr)) [0; 1; 2; 3]%nat = map (fun j => Some (child (mkLoc 2 0 0 0) j)) [0; 1; 2; 3]%nat /\
  nth_error (oldloc ex_amr) 18 = Some (mkLoc 2 3 3 0) /\ map (nth_error (newloc ex_amr)) [15; 16; 17; 18]%nat = map (fun j => Some (child (mkLoc 2 3 3 0) j)) [0; 1; 2; 3]%nat.
Proof. vm_compute. repeat split. Qed.
Example ex_refinable : refinable (gdim ex_grid) ex_B.
Proof. exact (fit_refinable ex_grid ex_B (proj1 ex_fitting)). Qed.
(** Coarse centres at 1, 2, 3, ..; fine ones a quarter to either side. *)
Definition ex_xc : Ref_Model.pos := Ref_Model.mkP (fun a => IZR a) (fun a => IZR a) (fun a => IZR a).
Definition ex_fine (s cs p : Z) : R := (IZR ((p - s) / 2 + cs) + (if Z.even (p - s) then - 1 / 4 else 1 / 4))%R.
Definition ex_xf : Ref_Model.pos := let d := block_dims ex_B in let c := coarse_offs ex_B in
  Ref_Model.mkP (ex_fine (Fv_Model.is_ d) (Ref_Model.cis c)) (ex_fine (Fv_Model.js d) (Ref_Model.cjs c)) (ex_fine (Fv_Model.ks d) (Ref_Model.cks c)).
Lemma ex_even : forall s cs, Ref_Spec.even_grid (fun a => IZR a) (ex_fine s cs) s cs.
Proof.
  intros s cs. exists 0%R, 1%R. split; [lra|]. split; [intros a; lra|]. intros a. unfold ex_fine. replace (s + 2 * (a - cs) - s) with ((a - cs) * 2) by ring. replace (s + 2 * (a - cs) + 1 - s) with (1 + (a - cs) * 2) by ring.
  rewrite Z.div_mul, Z.div_add by lia. change (1 / 2) with 0. rewrite Z.add_0_l. replace (a - cs + cs) with a by ring. rewrite Z.even_mul. change (Z.even 2) with true. rewrite orb_true_r, Z.even_add, Z.even_mul. change (Z.even 2) with true. rewrite orb_true_r. cbn [Z.even eqb]. split; lra.
Qed.
Example ex_positions : uniform_positions ex_B ex_xc ex_xf.
Proof. split; [|split]; apply ex_even. Qed.
(** A run with an adaptive step exists, from any values. *)
Definition ex_new (U : nat -> loc -> arr4 (A := R)) (s : nat) (b : loc) : arr4 (A := R) := match find (fun n => loc_eqb (locs_at (blocks ex_step_tree) n) b) (seq 0 19) with
  | Some n => NewBlock ex_B 0 4 (fun l => V (uniform ex_grid (fun _ => 1%R) l)) (fun _ => ex_xc) (fun _ => ex_xf) ex_amr (fun o => U 0%nat (locs_at (blocks (renumbered ex_tree)) o)) (fun _ _ _ _ _ => 0%R) (fun _ _ _ _ => 0%R) (fun _ _ _ _ => 0%R) n
  | None => U s b end.
Example ex_adaptive_run : forall U, adaptive_run ex_grid ex_B 0 4 0 (uniform ex_grid (fun _ => 1%R)) (fun _ => ex_xc) (fun _ => ex_xf) (mkRun ex_tree U (fun _ => true)) (mkRun ex_step_tree (ex_new U) (fun s => Nat.eqb s 0)).
Proof.
  intros U. eapply Run_step; [apply Run_start|]. destruct ex_step_tree_ok as (n1 & n2 & Hu). apply (Run_regrid ex_grid ex_B 0 4 0 _ _ _ ex_tree U (ex_new U) (fun _ => true) ex_fref ex_fderef ex_step_tree n1 n2 2 ex_amr (fun _ _ _ _ _ => 0%R) (fun _ _ _ _ => 0%R) (fun _ _ _ _ => 0%R)).
  - apply ex_update. - reflexivity. - exact Hu. - reflexivity. - reflexivity. - reflexivity. - vm_compute. reflexivity.
  - exact (two_ranks 10 9 ltac:(lia) ltac:(lia)). - exact (two_ranks 16 3 ltac:(lia) ltac:(lia)).
  - intros n b Hn. unfold ex_new. assert (Hl : (n < 19)%nat) by (assert (L : length (blocks ex_step_tree) = 19%nat) by (vm_compute; reflexivity); rewrite <- L; apply nth_error_Some; congruence).
    assert (E : find (fun n0 => loc_eqb (locs_at (blocks ex_step_tree) n0) b) (seq 0 19) = Some n); [|rewrite E; reflexivity].
    rewrite <- (locs_at_nth _ _ _ Hn). clear Hn b U Hu. revert n Hl. assert (F : forallb (fun n => match find (fun n0 => loc_eqb (locs_at (blocks ex_step_tree) n0) (locs_at (blocks ex_step_tree) n)) (seq 0 19) with Some k => Nat.eqb k n | None => false end) (seq 0 19) = true) by (vm_compute; reflexivity).
    intros n Hl. rewrite forallb_forall in F. specialize (F n ltac:(apply in_seq; lia)). destruct (find _ _) as [k|]; [|discriminate F]. apply Nat.eqb_eq in F. congruence.
Qed.
