(** Properties C35 (time step) and C36 (output schedule). *)
From Coq Require Import Reals List ZArith Bool Lra Lia.
From Verif Require Import Time_Model Time_Spec Time_Proofs Time_Proofs2.
Import ListNotations.
Local Open Scope R_scope.

Lemma in_mesh_blocks : forall M cfl sts m x, In x (all_blocks (mesh_of M cfl sts m)) <-> exists b, in_mesh b m /\ x = block_of M cfl sts b.
Proof.
  intros M cfl sts m x. rewrite in_all. unfold mesh_of. split.
  - intros [r [Hr Hx]]. apply in_map_iff in Hr. destruct Hr as [q [<- Hq]]. cbn [fst snd] in Hx. change (In x (map (block_of M cfl sts) (fst q :: snd q))) in Hx.
    apply in_map_iff in Hx. destruct Hx as [b [<- Hb]]. exists b. split; [exists q; split; assumption|reflexivity].
  - intros [b [[q [Hq Hb]] ->]]. exists (block_of M cfl sts (fst q), map (block_of M cfl sts) (snd q)). split; [apply (in_map (fun r => (block_of M cfl sts (fst r), map (block_of M cfl sts) (snd r)))); exact Hq|].
    cbn [fst snd]. change (In (block_of M cfl sts b) (map (block_of M cfl sts) (fst q :: snd q))). apply in_map. exact Hb.
Qed.
Lemma mesh_usable : forall M cfl sts opt m, 0 < M -> 0 < cfl -> good_mesh m -> usable opt (mesh_of M cfl sts m).
Proof.
  intros M cfl sts opt m HM Hc [Hn Hg]. assert (P : forall x, In x (all_blocks (mesh_of M cfl sts m)) -> 0 < new_dt x /\ 0 < new_par x).
  { intros x Hx. apply in_mesh_blocks in Hx. destruct Hx as [b [Hb ->]]. destruct (Hg b Hb) as [G1 [G2 [G3 [G4 [G5 G6]]]]]. apply block_pos; try assumption. intros r Hr. apply G6. exact Hr. }
  split; [apply map_ne; exact Hn|]. split; [intros x Hx; apply P; exact Hx|intros _ x Hx; apply P; exact Hx].
Qed.

(** The new step: positive, at most doubled, at most every block's limit, not beyond the end; and no signal crosses more than the CFL fraction of any cell of any
    block of any rank. *)
Theorem C35_step : forall M cfl sts tlim nlim t dt m, 0 < M -> 0 < cfl -> good_mesh m -> 0 < dt ->
  let d := NewTimeStep false sts tlim nlim t dt (mesh_of M cfl (if sts then true else false) m) in
  0 < d /\ d <= 2 * dt /\ (t < tlim -> t + d <= tlim) /\
  forall b, in_mesh b m -> d <= new_dt (block_of M cfl (if sts then true else false) b) /\ forall x, In x (bcells b) -> respects cfl d (b2 b) (b3 b) x.
Proof.
  intros M cfl sts tlim nlim t dt m HM Hc Hg Hd d. pose proof (mesh_usable M cfl (if sts then true else false) sts m HM Hc Hg) as U.
  destruct (upper sts tlim nlim t dt _ U Hd) as [U1 [U2 [U3 U4]]]. fold d in U1, U2, U3, U4. split; [exact U1|]. split; [exact U2|]. split; [exact U4|].
  intros b Hb. assert (L : d <= new_dt (block_of M cfl (if sts then true else false) b)) by (apply U3; apply in_mesh_blocks; exists b; split; [exact Hb|reflexivity]).
  split; [exact L|]. intros x Hx. destruct Hg as [_ Hg]. destruct (Hg b Hb) as [G1 [_ [_ [_ [_ G6]]]]].
  apply (block_cfl M cfl (if sts then true else false) (b2 b) (b3 b) (bcells b) (blim b) _ eq_refl Hc G6 G1 x d Hx). split; [lra|exact L].
Qed.
(** ... also below the diffusive, orbital and user limits (the diffusive ones are left to super time stepping if that is on). *)
Theorem C35_other_limits : forall M cfl sts tlim nlim t dt m, 0 < M -> 0 < cfl -> good_mesh m -> 0 < dt ->
  let d := NewTimeStep false sts tlim nlim t dt (mesh_of M cfl (if sts then true else false) m) in
  forall b, in_mesh b m -> (forall u, user (blim b) = Some u -> d <= u) /\ (forall z, In z (orb (blim b)) -> d <= z) /\ (sts = None -> forall z, In z (parab (blim b)) -> d <= cfl * z).
Proof.
  intros M cfl sts tlim nlim t dt m HM Hc Hg Hd d b Hb. destruct (C35_step M cfl sts tlim nlim t dt m HM Hc Hg Hd) as [U1 [U2 [U3 U4]]]. fold d in U1, U2, U3, U4.
  destruct (U4 b Hb) as [L _]. destruct Hg as [_ Hg]. destruct (Hg b Hb) as [G1 [G2 [G3 [G4 [G5 G6]]]]]. unfold block_of, NewBlockTimeStep in L. cbv zeta in L. cbn [new_dt] in L.
  match type of L with context[Rmin M (min_list ?a (orb (blim b)))] => set (hh := a) in L end. set (h := min_list hh (orb (blim b))) in L.
  set (q := match cfl_rad (blim b) with Some r => min_list M (parab (blim b)) * cfl * r | None => min_list M (parab (blim b)) * cfl end) in L.
  pose proof (Rmin_r M h) as B0.
  assert (B1 : forall z, In z (orb (blim b)) -> h <= z) by (intros; apply min_list_in; assumption).
  assert (B2 : forall z, In z (parab (blim b)) -> q <= cfl * z).
  { intros z Hz. pose proof (min_list_in _ M z Hz) as C0. assert (C1 : 0 < min_list M (parab (blim b))) by (apply min_list_pos; assumption).
    pose proof (Rmult_le_compat_l cfl _ _ (Rlt_le _ _ Hc) C0) as C2. unfold q. destruct (cfl_rad (blim b)) as [r|] eqn:Er; [|lra]. destruct (G6 r eq_refl) as [R1 R2].
    assert (0 < min_list M (parab (blim b)) * cfl) by (apply Rmult_lt_0_compat; assumption).
    pose proof (Rmult_le_compat_l _ r 1 (Rlt_le _ _ H) R2). lra. }
  destruct (user (blim b)) as [u0|]; destruct sts as [r0|].
  - pose proof (Rmin_l (Rmin M h) u0). pose proof (Rmin_r (Rmin M h) u0). split; [intros u Hu; injection Hu; intros <-; lra|]. split; [intros z Hz; specialize (B1 z Hz); lra|discriminate].
  - pose proof (Rmin_l (Rmin M h) u0). pose proof (Rmin_r (Rmin M h) u0). pose proof (Rmin_l (Rmin (Rmin M h) u0) q). pose proof (Rmin_r (Rmin (Rmin M h) u0) q).
    split; [intros u Hu; injection Hu; intros <-; lra|]. split; [intros z Hz; specialize (B1 z Hz); lra|intros _ z Hz; specialize (B2 z Hz); lra].
  - split; [discriminate|]. split; [intros z Hz; specialize (B1 z Hz); lra|discriminate].
  - pose proof (Rmin_l (Rmin M h) q). pose proof (Rmin_r (Rmin M h) q). split; [discriminate|]. split; [intros z Hz; specialize (B1 z Hz); lra|intros _ z Hz; specialize (B2 z Hz); lra].
Qed.
(** It is the largest such step (without super time stepping), ... *)
Theorem C35_largest : forall tlim nlim t dt ranks x, ranks <> [] -> x <= 2 * dt -> (forall b, In b (all_blocks ranks) -> x <= new_dt b) -> (t < tlim -> t + x <= tlim) ->
  x <= NewTimeStep false None tlim nlim t dt ranks.
Proof. exact greatest. Qed.
(** ... and does not depend on how the blocks are distributed over ranks. *)
Theorem C35_distribution : forall sts tlim nlim t dt ranks ranks', ranks <> [] -> ranks' <> [] -> (forall b, In b (all_blocks ranks) <-> In b (all_blocks ranks')) ->
  NewTimeStep false sts tlim nlim t dt ranks = NewTimeStep false sts tlim nlim t dt ranks'.
Proof. exact distribution. Qed.

(** Along every history, whatever the blocks' limits: time advances by the announced step, strictly, and never beyond the end. *)
Theorem C35_history : forall sts tlim nlim ranks s n, (forall k, usable sts (ranks k)) -> 0 < dt s -> time s <= tlim -> (time s < tlim -> time s + dt s <= tlim) ->
  let a := loop sts tlim nlim ranks n s in let b := loop sts tlim nlim ranks (S n) s in
  time b <= tlim /\ (a = b \/ (time a < tlim /\ time b = time a + dt a /\ time a < time b /\ dt b <= 2 * dt a /\ ncycle b = (ncycle a + 1)%Z)).
Proof.
  intros sts tlim nlim ranks s n HU H1 H2 H3 a b. assert (G : good tlim s) by (split; [exact H1|split; assumption]).
  pose proof (st_good sts tlim nlim ranks HU s (S n) G) as [_ [T _]]. split; [exact T|]. unfold b. cbn [loop]. fold a.
  pose proof (st_good sts tlim nlim ranks HU s n G) as Ga. fold a in Ga.
  destruct (cycle sts tlim nlim (ranks n) a) as [s'|] eqn:E; [right|left; reflexivity].
  destruct (cycle_good sts tlim nlim ranks HU n a s' Ga E) as [_ [T1 [T2 T3]]]. unfold cycle in E. destruct (ltR (time a) tlim) eqn:E1; [|discriminate E]. apply ltR_true in E1.
  destruct (Z.ltb nlim 0 || Z.ltb (ncycle a) nlim); cbn [andb] in E; [|discriminate E]. injection E; intros <-. cbn [time dt ncycle] in *. repeat split; assumption.
Qed.
(** If the blocks' limits stay above some positive value and cycles are not limited, the run ends at exactly the end time. *)
Theorem C35_ends_exactly : forall sts tlim nlim ranks s m, (forall k, usable sts (ranks k)) -> 0 < dt s -> time s <= tlim -> (time s < tlim -> time s + dt s <= tlim) -> (nlim < 0)%Z ->
  0 < m -> (forall k b, In b (all_blocks (ranks k)) -> m <= new_dt b) -> (forall r, sts = Some r -> 0 < r -> forall k b, In b (all_blocks (ranks k)) -> m <= r * new_par b) ->
  exists n, time (loop sts tlim nlim ranks n s) = tlim /\ cycle sts tlim nlim (ranks n) (loop sts tlim nlim ranks n s) = None.
Proof.
  intros sts tlim nlim ranks s m HU H1 H2 H3 Hn Hm HB HR. assert (G : good tlim s) by (split; [exact H1|split; assumption]).
  assert (exists n, time (loop sts tlim nlim ranks n s) = tlim) as [n E].
  { apply (terminates sts tlim nlim ranks HU Hn (Rmin m (dt s))); [apply Rmin_glb_lt; assumption| | |exact G|apply Rmin_r].
    - intros k b Hb. eapply Rle_trans; [apply Rmin_l|]. apply (HB k b Hb).
    - intros r Hr Hr0 k b Hb. eapply Rle_trans; [apply Rmin_l|]. apply (HR r Hr Hr0 k b Hb). }
  exists n. split; [exact E|]. unfold cycle. rewrite E. replace (ltR tlim tlim) with false by (symmetry; apply ltR_false; lra). reflexivity.
Qed.

(** ** Outputs *)
(** Files are numbered consecutively, scheduled times form an arithmetic progression and no file is written before its time, for any sequence of calls. *)
Theorem C36_counting : forall start tlim calls o, 0 < odt o -> dcycle o = 0%Z -> (forall c, In c calls -> fst c < tlim) ->
  let r := outputs start tlim calls o in
  fnum (fst r) = (fnum o + Z.of_nat (length (snd r)))%Z /\ next (fst r) = scheduled o (length (snd r)) /\ odt (fst r) = odt o /\
  forall k f t, nth_error (snd r) k = Some (f, t) -> f = (fnum o + Z.of_nat k)%Z /\ In t (times calls) /\ scheduled o k <= t.
Proof. exact counting. Qed.
(** If no step is longer than the output interval, file [k] is written at the first step at or after its scheduled time, and none is missing. *)
Theorem C36_prompt : forall start tlim calls o, 0 < odt o -> dcycle o = 0%Z -> (forall c, In c calls -> fst c < tlim) -> steps_at_most (odt o) (times calls) ->
  (forall t, nth_error (times calls) 0 = Some t -> t < next o + odt o) ->
  let r := outputs start tlim calls o in
  (forall k f t, nth_error (snd r) k = Some (f, t) -> forall t', In t' (times calls) -> scheduled o k <= t' -> t <= t') /\
  (forall k t', In t' (times calls) -> scheduled o k <= t' -> (k < length (snd r))%nat).
Proof. exact promptly. Qed.
(** Outputs by cycle number. *)
Theorem C36_cycles : forall start tlim calls o, odt o = 0 -> (0 < dcycle o)%Z -> (forall c, In c calls -> fst c < tlim /\ fst c <> start) ->
  map snd (snd (outputs start tlim calls o)) = map fst (filter (fun c => Z.eqb (Z.rem (snd c) (dcycle o)) 0) calls) /\
  map fst (snd (outputs start tlim calls o)) = map (fun k => (fnum o + Z.of_nat k)%Z) (seq 0 (length (snd (outputs start tlim calls o)))).
Proof. exact by_cycle. Qed.
(** Restart: the schedule continues where it was, if the next file was due within the coming two intervals; ... *)
Theorem C36_restart : forall t N D, 0 < D -> t < N < t + 2 * D -> Forward t false (Some (Rollback N D)) D = Some (false, N).
Proof.
  intros t N D HD [H1 H2]. unfold Rollback. destruct (Rle_dec (N - D) t) as [L|L].
  - destruct (forward_past t (N - D) D HD L) as [k [E [K1 K2]]]. rewrite E. do 2 f_equal.
    assert (k = 1%Z) as ->; [|ring]. assert (0 < k /\ k < 2)%Z; [|lia]. split; apply lt_IZR.
    + apply (Rmult_lt_reg_r D); [exact HD|]. lra.
    + apply (Rmult_lt_reg_r D); [exact HD|]. lra.
  - rewrite forward_soon by lra. do 2 f_equal. ring.
Qed.
(** ... if the user changes the interval, the next file comes within one new interval, on the grid of the new interval from the last file; ... *)
Theorem C36_restart_new_interval : forall t N D D', 0 < D' -> N - D <= t ->
  exists k x, Forward t false (Some (Rollback N D)) D' = Some (false, x) /\ x = N - D + IZR k * D' /\ t < x <= t + D'.
Proof. intros t N D D' HD H. unfold Rollback. destruct (forward_past t (N - D) D' HD H) as [k [E K]]. exists k, (N - D + IZR k * D'). split; [exact E|]. split; [reflexivity|exact K]. Qed.
(** ... and an output added at restart is written at once, at a multiple of its interval. *)
Theorem C36_new_output : forall t f D, 0 < D -> 0 <= t -> exists k, Forward t f None D = Some (true, IZR k * D) /\ t - D < IZR k * D <= t.
Proof. exact forward_fresh. Qed.

(** Finding: a step longer than the interval makes a later file late: file 1 (due at 2) is not written at the step to 3 but at the next. *)
Theorem C36_long_step_refuted : exists start tlim calls o k f t t', 0 < odt o /\ dcycle o = 0%Z /\ increasing (times calls) /\ (forall c, In c calls -> fst c < tlim) /\
  nth_error (snd (outputs start tlim calls o)) k = Some (f, t) /\ In t' (times calls) /\ scheduled o k <= t' /\ t' < t.
Proof.
  exists 0, 10, [(0, 0%Z); (3, 1%Z); (4, 2%Z)], (mkO 1 1 0 0 false), 1%nat, 1%Z, 4, 3. cbn [odt dcycle times map fst increasing In scheduled next].
  split; [lra|]. split; [reflexivity|]. split; [repeat split; lra|]. split; [intros c [<-|[<-|[<-|[]]]]; cbn [fst]; lra|].
  split; [|unfold scheduled; cbn; repeat split; auto; lra].
  rewrite outputs_cons by (cbn [odt dcycle]; auto; lra). cbn [next]. replace (leR 1 0) with false by (symmetry; apply leR_false; lra).
  rewrite outputs_cons by (cbn [odt dcycle]; auto; lra). cbn [next]. replace (leR 1 3) with true by (symmetry; apply leR_true; lra). cbn [snd nth_error]. unfold after. cbn [next odt dcycle fnum isrst].
  rewrite outputs_cons by (cbn [odt dcycle]; auto; lra). cbn [next]. replace (leR (1 + 1) 4) with true by (symmetry; apply leR_true; lra). reflexivity.
Qed.
(** Finding: an output whose first file is two or more intervals away is advanced by one interval at every restart. *)
Theorem C36_restart_far_refuted : forall t N D, 0 < D -> t + 2 * D <= N -> Forward t false (Some (Rollback N D)) D = Some (false, N - D).
Proof. intros t N D HD H. unfold Rollback. apply forward_far; lra. Qed.
(** Finding: the final output at the end time is counted as the next scheduled one, so after a restart that extends the run the file due at [next o] is skipped. *)
Theorem C36_extended_run_refuted : forall start tlim t ncyc wt o, 0 < odt o -> isrst o = false -> tlim <= t -> t < next o < t + odt o ->
  exists o', MakeOutput start tlim t ncyc wt o = (o', true) /\ Forward t false (Some (Rollback (next o') (odt o'))) (odt o') = Some (false, next o + odt o).
Proof.
  intros start tlim t ncyc wt o HD Hr Ht HN. exists (after o). unfold MakeOutput, due. replace (leR tlim t) with true by (symmetry; apply leR_true; exact Ht). rewrite orb_true_r.
  split; [unfold counted, after; rewrite Hr, andb_false_r; reflexivity|]. cbn [after next odt]. apply C36_restart; lra.
Qed.
(** Finding: an output added before an existing one in the list makes the existing one be written at once, too. *)
Theorem C36_fresh_flag_refuted : exists t N D, t < N <= t + D /\ 0 < D /\ ForwardNextTime t false [(Some (Rollback N D), D)] = Some [N] /\
  exists x y, ForwardNextTime t false [(None, D); (Some (Rollback N D), D)] = Some [x; y] /\ y <= t.
Proof.
  exists 15, 20, 10. split; [lra|]. split; [lra|]. split.
  - cbn [ForwardNextTime]. rewrite C36_restart by lra. reflexivity.
  - destruct (forward_fresh 15 false 10) as [k [E _]]; [lra|lra|]. exists (IZR k * 10), 10. split; [|lra]. cbn [ForwardNextTime]. rewrite E.
    unfold Forward, Rollback. rewrite to_int_pos by lra. rewrite (trunc_pos _ 0); [|lia|lra].
    replace (ltR 0 (10 * 0 + 10)) with true by (symmetry; apply ltR_true; lra). unfold fmod. rewrite (trunc_pos _ 2); [|lia|lra].
    do 3 f_equal. lra.
Qed.
(** Finding: with an output by cycle number (interval 0) a restart converts infinity or NaN to int (undefined behaviour). *)
Theorem C36_cycle_restart_refuted : forall t N, Forward t false (Some (Rollback N 0)) 0 = None.
Proof. intros t N. unfold Forward, to_int. replace (eqR 0 0) with true by (symmetry; apply eqR_true; reflexivity). reflexivity. Qed.
(** Finding: when the run stops by the cycle limit, outputs by cycle number due at that cycle are written twice. *)
Theorem C36_final_twice_refuted : exists start tlim t ncyc o o1 o2, t < tlim /\ isrst o = false /\
  MakeOutput start tlim t ncyc false o = (o1, true) /\ MakeOutput start tlim t ncyc true o1 = (o2, true) /\ fnum o2 = (fnum o + 2)%Z.
Proof.
  exists 0, 10, 1, 6%Z, (mkO 0 0 3 0 false), (mkO (0 + 0) 0 3 1 false), (mkO (0 + 0 + 0) 0 3 2 false). split; [lra|]. split; [reflexivity|].
  split; [|split; [|reflexivity]]; unfold MakeOutput, due; cbn [dcycle odt next isrst]; change (Z.ltb 0 3) with true; change (Z.eqb (Z.rem 6 3) 0) with true; rewrite orb_true_r; reflexivity.
Qed.

(** Examples. *)
Definition ex_cell : cell := mkC 1 2 1 3 1 4.
Definition ex_mesh : list (bin * list bin) := [(mkBin true false [ex_cell; ex_cell] (mkLim [5] [] [] None None), [mkBin true false [ex_cell] (mkLim [] [] [] (Some 7) None)])].
Example ex_mesh_good : good_mesh ex_mesh.
Proof.
  assert (P : positive_cell ex_cell) by (unfold positive_cell, ex_cell; cbn; repeat split; lra).
  split; [discriminate|]. intros b [r [[<-|[]] [<-|[<-|[]]]]]; (split; [intros x Hx; cbn in Hx; intuition (subst; exact P)|]);
    cbn [fst snd blim parab hall orb user cfl_rad In]; (split; [intros z Hz; cbn in Hz; intuition (subst; lra)|]); (split; [intros z []|]); (split; [intros z []|]); (split; [intros u Hu; try discriminate Hu; injection Hu; intros <-; lra|intros r Hr; discriminate Hr]).
Qed.
Example ex_usable : usable None (mesh_of 100 (1/2) false ex_mesh) /\ usable (Some 3) (mesh_of 100 (1/2) true ex_mesh). Proof. split; apply mesh_usable; try lra; apply ex_mesh_good. Qed.
Example ex_calls : let o := mkO 1 1 0 0 false in let calls := [(0, 0%Z); (1/2, 1%Z); (3/2, 2%Z); (2, 3%Z)] in
  steps_at_most (odt o) (times calls) /\ (forall t, nth_error (times calls) 0 = Some t -> t < next o + odt o) /\ (forall c, In c calls -> fst c < 10).
Proof.
  cbn. split; [repeat split; lra|]. split; [intros t H; injection H; intros <-; lra|]. intros c H. intuition (subst; cbn; lra).
Qed.
Print Assumptions C35_step. Print Assumptions C35_other_limits. Print Assumptions C35_ends_exactly. Print Assumptions C36_prompt. Print Assumptions C36_restart. Print Assumptions C36_fresh_flag_refuted.
