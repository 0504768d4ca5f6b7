(** New blocks of a redistribution, their totals and their bounds. *)
From Coq Require Import List Arith ZArith Bool Reals Lia Lra.
From Verif Require Import Loc LB_Spec AMR_Model AMR_Spec AMR_Proofs Tree_Model Tree_Spec Nbr_Model Nbr_Spec Buf_Model Fv_Model Fv_Spec Fv_Proofs Fv_Proofs2 Gho_Model Gho_Spec Gho_Proofs Con_Model Fgh_Model2 Reg_Model Reg_Spec Reg_Proofs Reg_Proofs2 Reg_Proofs3.
From Verif Require Ref_Model Ref_Spec Ref_Proofs Ref_Proofs2 Ref_Props.
Import ListNotations.
Local Open Scope Z_scope.

Section Block.
Variables (B : bsz) (nl nu : Z) (vol : loc -> Fv_Model.arr) (xc xf : loc -> Ref_Model.pos) (a : amr) (U C : nat -> arr4 (A := R)) (fresh freshc : arr4 (A := R)).
Hypothesis D1 : (1 <= a_dim a <= 3)%nat.
Hypothesis RB : refinable (a_dim a) B.
Notation NB := (NewBlock B nl nu vol xc xf a U C fresh freshc).
Notation dim := (a_dim a).
Lemma new_keep : forall n o l m (x : cell), AMR_Model.at_ (newtoold a) n = o -> locs_at (oldloc a) o = l -> locs_at (newloc a) n = l -> nl <= m <= nu -> (forall d, (d < 3)%nat -> s_ B d <= x d <= e_ B d) ->
  value (NB n) m x = value (U o) m x.
Proof using D1 RB.
  intros n o l m x Eo El En Hm Hx. unfold NewBlock. rewrite Eo, El, En, Nat.eqb_refl. apply same_in; [exact Hm|]. intros d Hd. rewrite stag3 by exact Hd. specialize (Hx d Hd). lia.
Qed.
Lemma new_merge : forall n on l j q m, AMR_Model.at_ (newtoold a) n = on -> (forall j, (j < nleaf dim)%nat -> locs_at (oldloc a) (on + j) = child l j) -> locs_at (newloc a) n = l -> flat_loc dim l ->
  nl <= m <= nu -> (j < nleaf dim)%nat -> coarse_own B dim q ->
  at_ (NB n m) (in_parent B dim (child l j) q) = at_ (Ref_Model.RestrictCC (block_dims B) (coarse_offs B) (vol (child l j)) (U (on + j)%nat m) (coarse_box B 3) (C (on + j)%nat m)) q.
Proof using D1 RB.
  intros n on l j q m Eo El En HF Hm Hj Hq. rewrite in_parent_value. unfold NewBlock. rewrite Eo, En. assert (E0 : locs_at (oldloc a) on = child l 0) by (rewrite <- (El 0%nat), Nat.add_0_r; [reflexivity|pose proof (nleaf_ge dim); lia]).
  rewrite E0, child_level. destruct (Nat.eqb_spec (S (level l)) (level l)); [lia|]. rewrite (proj2 (Nat.ltb_lt _ _)) by lia.
  assert (HR : reaches dim B 3 (child l j) (fun d => idx q d + off dim B (child l j) d) = true).
  { apply reaches_spec. intros d Hd. rewrite stag3 by exact Hd. pose proof (proj1 (own_idx dim B D1 RB q) Hq d Hd). lia. }
  destruct (merged dim B D1 RB nl nu 3 (fun o => Nat.eqb (AMR_Model.at_ (ranklist a) o) (AMR_Model.at_ (newrank a) n)) (fun o => RestrictBlock B (vol (locs_at (oldloc a) o)) (U o) (C o)) fresh l on m _ (fun o => locs_at (oldloc a) o) HF Hm El (ex_intro _ j (conj Hj HR))) as (j' & Hj' & HR' & E).
  unfold a_nlf. cbv zeta in E. rewrite E. pose proof (one_leaf dim B D1 RB l j' j _ Hj' Hj HR' HR) as ->. rewrite (El j Hj). unfold RestrictBlock. destruct q as [[qk qj] qi]. unfold value, at_, idx. f_equal; lia.
Qed.
(** What the prolongation reads. *)
Definition parent_values (b : loc) (v w : Fv_Model.arr) : Prop := forall k j i, (forall d, (d < 3)%nat -> cs_ B d - fdim B d <= idx (k, j, i) d <= ce_ B d + fdim B d) -> w k j i = at_ v (in_parent B dim b (k, j, i)).
Lemma new_split : forall n on l j m, AMR_Model.at_ (newtoold a) n = on -> locs_at (oldloc a) on = l -> locs_at (newloc a) n = child l j -> flat_loc dim l -> nl <= m <= nu -> (j < nleaf dim)%nat ->
  exists w, parent_values (child l j) (U on m) w /\ NB n m = Ref_Model.ProlongateCC (block_dims B) (coarse_offs B) (xc (child l j)) (xf (child l j)) (coarse_box B 3) w (fresh m).
Proof using D1 RB.
  intros n on l j m Eo El En HF Hm Hj. unfold NewBlock. rewrite Eo, El, En, child_level. destruct (Nat.eqb_spec (level l) (S (level l))); [lia|]. rewrite (proj2 (Nat.ltb_ge _ _)) by lia.
  unfold ProlongateBlock. eexists. split; [|reflexivity]. intros k j' i Hr.
  rewrite in_parent_value. pose proof (c2f_in dim B D1 RB nl nu 3 (Nat.eqb (AMR_Model.at_ (ranklist a) on) (AMR_Model.at_ (newrank a) n)) (child l j) (U on) freshc m (idx (k, j', i)) (flat_child dim D1 l j HF Hj) Hm) as E.
  rewrite <- E; [reflexivity|]. intros d Hd. rewrite stag3 by exact Hd. specialize (Hr d Hd). lia.
Qed.

(** ** Sums over pieces *)
Lemma sum_seq_app : forall (f : nat -> R) s n k, sum (map f (seq s (n + k))) = (sum (map f (seq s n)) + sum (map f (seq (s + n) k)))%R.
Proof using. intros. rewrite seq_app, map_app, sum_app. reflexivity. Qed.
Lemma pieces_sum : forall (f h : nat -> R) ps2 ps1, (forall q1 p q2, ps1 ++ ps2 = q1 ++ p :: q2 ->
    sum (map (fun i => f (length (new_blocks dim q1) + i)%nat) (seq 0 (nlen dim p))) = sum (map (fun i => h (length (old_blocks dim q1) + i)%nat) (seq 0 (olen dim p)))) ->
  sum (map f (seq (length (new_blocks dim ps1)) (length (new_blocks dim ps2)))) = sum (map h (seq (length (old_blocks dim ps1)) (length (old_blocks dim ps2)))).
Proof using.
  intros f h ps2. induction ps2 as [|p ps2 IH]; intros ps1 H; [reflexivity|]. rewrite new_len_cons, old_len_cons, !sum_seq_app. f_equal.
  - rewrite (seq_plus (nlen dim p)), (seq_plus (olen dim p)), !map_map. apply (H ps1 p ps2 eq_refl).
  - specialize (IH (ps1 ++ [p])). destruct (blocks_app dim ps1 [p]) as [Eo En]. rewrite Eo, En, !app_length, !new_len_cons, !old_len_cons in IH. cbn [old_blocks new_blocks flat_map length] in IH. rewrite !Nat.add_0_r in IH. apply IH. intros q1 p' q2 E. apply (H q1 p' q2). rewrite <- E, <- app_assoc. reflexivity.
Qed.
Variables (nr : nat) (ps : list AMR_Spec.piece).
Hypothesis RD : redistribution nr ps a.
(** Each new block with its origin, by number. *)
Lemma at_piece : forall q1 p q2, ps = q1 ++ p :: q2 -> let o0 := length (old_blocks dim q1) in let n0 := length (new_blocks dim q1) in
  (forall i, (i < nlen dim p)%nat -> AMR_Model.at_ (newtoold a) (n0 + i) = o0) /\ (forall i x, nth_error (piece_new dim p) i = Some x -> nth_error (newloc a) (n0 + i) = Some x) /\ (forall i x, nth_error (piece_old dim p) i = Some x -> nth_error (oldloc a) (o0 + i) = Some x).
Proof using RD.
  clear D1 RB. intros q1 p q2 E o0 n0. destruct RD as (_ & _ & _ & Eo & En & Ei & _). rewrite Eo, En, Ei, E. split; [|split].
  - intros i Hi. apply at_nth. apply at_n2o, Hi.
  - intros i x Hx. apply at_new, Hx.
  - intros i x Hx. apply at_old, Hx.
Qed.
Lemma flat_old : forall o l, nth_error (oldloc a) o = Some l -> flat_loc dim l.
Proof using RD.
  clear D1 RB. intros o l H. destruct RD as (_ & _ & (HF & _) & _). specialize (HF l (nth_error_In _ _ H)). destruct HF as [F2 F3]. intros d Hd Hdd. destruct RD as ((R1 & _) & _). destruct d as [|[|[|d]]]; cbn [coord]; try lia; auto with arith.
Qed.
Lemma flat_parent : forall l j, flat_loc dim (child l j) -> flat_loc dim l.
Proof using. clear. intros l j H d Hd Hdd. specialize (H d Hd Hdd). destruct (bit_range j d) as [E|E]; destruct d as [|[|[|d]]]; try lia; unfold child in H; cbn [coord lx1 lx2 lx3] in *; rewrite E in H; lia. Qed.

(** ** Totals *)
Hypothesis VA : volumes_add dim B vol (oldloc a) (newloc a).
Lemma in_children : forall l j, (j < nleaf dim)%nat -> In (child l j) (children dim l).
Proof using. intros l j Hj. apply (nth_error_In _ j), nth_error_children, Hj. Qed.
Lemma scale_sum : forall (v u : Fv_Model.arr) x L, (x * sum (map (at_ v) L))%R = sum (map (fun p => at_ v p * at_ u p)%R L) -> (sum (map (at_ v) L) * x)%R = sum (map (at_ (fun k j i => v k j i * u k j i)%R) L).
Proof using. intros v u x L H. rewrite Rmult_comm, H. apply sum_ext. intros [[k j] i] _. reflexivity. Qed.
Definition held (ls : list loc) (u : nat -> Fv_Model.arr) (n : nat) : R := sum3 (block_dims B) (fun k j i => vol (locs_at ls n) k j i * u n k j i)%R.
Lemma keep_total : forall m, nl <= m <= nu -> forall q1 l q2, ps = q1 ++ Keep l :: q2 ->
  held (newloc a) (fun n => NB n m) (length (new_blocks dim q1) + 0) = held (oldloc a) (fun o => U o m) (length (old_blocks dim q1) + 0).
Proof using D1 RB RD.
  intros m Hm q1 l q2 E. destruct (at_piece q1 (Keep l) q2 E) as (Hi & Hn & Ho). specialize (Hi 0%nat ltac:(cbn [nlen]; lia)). specialize (Hn 0%nat l eq_refl). specialize (Ho 0%nat l eq_refl). apply locs_at_nth in Hn. apply locs_at_nth in Ho. unfold held. rewrite Hn, Ho.
  apply sum3_ext. intros k j i HA. f_equal. rewrite Nat.add_0_r in Hi, Ho, Hn |- *. unfold is_active, block_dims in HA. cbn [Fv_Model.is_ ie js je ks ke] in HA.
  pose proof (new_keep _ _ l m (idx (k, j, i)) Hi) as K. rewrite Nat.add_0_r. apply K; try assumption. intros d Hd. destruct d as [|[|[|d]]]; cbn [idx]; lia.
Qed.
Lemma merge_total : forall m, nl <= m <= nu -> forall q1 l q2, ps = q1 ++ Merge l :: q2 ->
  held (newloc a) (fun n => NB n m) (length (new_blocks dim q1) + 0) = sum (map (fun i => held (oldloc a) (fun o => U o m) (length (old_blocks dim q1) + i)) (seq 0 (nleaf dim))).
Proof using D1 RB RD VA.
  intros m Hm q1 l q2 E. destruct (at_piece q1 (Merge l) q2 E) as (Hi & Hn & Ho). specialize (Hi 0%nat ltac:(cbn [nlen]; lia)). specialize (Hn 0%nat l eq_refl).
  assert (HO : forall j, (j < nleaf dim)%nat -> nth_error (oldloc a) (length (old_blocks dim q1) + j) = Some (child l j)) by (intros j Hj; apply Ho, nth_error_children, Hj).
  assert (HF : flat_loc dim l) by (apply (flat_parent l 0), (flat_old _ _ (HO 0%nat ltac:(pose proof (nleaf_ge dim); lia)))).
  assert (HL : forall j, (j < nleaf dim)%nat -> locs_at (oldloc a) (length (old_blocks dim q1) + j) = child l j) by (intros j Hj; apply locs_at_nth, HO, Hj).
  pose proof (locs_at_nth _ _ _ Hn) as HN. unfold held. rewrite HN. erewrite (sum_ext _ _ _ (seq 0 (nleaf dim))).
  2: { intros j Hj. apply in_seq in Hj. rewrite HL by lia. reflexivity. }
  apply (family dim B D1 RB l). intros j q Hj Hq. destruct (VA l (child l j) q) as [VP VS]; [right; split; [apply (nth_error_In _ _ (HO j Hj))|apply (nth_error_In _ _ Hn)]|apply in_children, Hj|exact Hq|].
  pose proof (new_merge _ _ l j q m Hi HL HN HF Hm Hj Hq) as EM.
  transitivity (at_ (vol l) (in_parent B dim (child l j) q) * at_ (NB (length (new_blocks dim q1) + 0)%nat m) (in_parent B dim (child l j) q))%R; [destruct (in_parent B dim (child l j) q) as [[? ?] ?]; reflexivity|].
  rewrite EM, VS. apply scale_sum. apply (Ref_Props.C37_cells _ _ _ _ _ _ q (layout_block dim B D1 RB) (box_own dim B D1 RB q Hq) VP).
Qed.
Lemma cs_fdim : forall k j i, coarse_own B dim (k, j, i) -> forall d, (d < 3)%nat -> cs_ B d - fdim B d <= idx (k, j, i) d <= ce_ B d + fdim B d.
Proof using D1 RB. intros k j i H d Hd. pose proof (proj1 (own_idx dim B D1 RB (k, j, i)) H d Hd). unfold fdim. destruct (actv B d); lia. Qed.
Lemma split_total : forall m, nl <= m <= nu -> (forall b, In b (newloc a) -> centred B (vol b) (xc b) (xf b)) -> forall q1 l q2, ps = q1 ++ Split l :: q2 ->
  sum (map (fun i => held (newloc a) (fun n => NB n m) (length (new_blocks dim q1) + i)) (seq 0 (nleaf dim))) = held (oldloc a) (fun o => U o m) (length (old_blocks dim q1) + 0).
Proof using D1 RB RD VA.
  intros m Hm CE q1 l q2 E. destruct (at_piece q1 (Split l) q2 E) as (Hi & Hn & Ho). specialize (Ho 0%nat l eq_refl).
  assert (HN : forall j, (j < nleaf dim)%nat -> nth_error (newloc a) (length (new_blocks dim q1) + j) = Some (child l j)) by (intros j Hj; apply Hn, nth_error_children, Hj).
  assert (HF : flat_loc dim l) by (apply (flat_old _ _ Ho)).
  assert (HL : forall j, (j < nleaf dim)%nat -> locs_at (newloc a) (length (new_blocks dim q1) + j) = child l j) by (intros j Hj; apply locs_at_nth, HN, Hj).
  pose proof (locs_at_nth _ _ _ Ho) as HO. unfold held. rewrite HO. erewrite (sum_ext _ _ _ (seq 0 (nleaf dim))).
  2: { intros j Hj. apply in_seq in Hj. rewrite HL by lia. reflexivity. }
  symmetry. apply (family dim B D1 RB l). intros j q Hj Hq. pose proof (nth_error_In _ _ (HN j Hj)) as HIn. destruct (VA l (child l j) q) as [VP VS]; [left; split; [apply (nth_error_In _ _ Ho)|exact HIn]|apply in_children, Hj|exact Hq|].
  destruct (new_split (length (new_blocks dim q1) + j)%nat (length (old_blocks dim q1)) l j m (Hi j Hj)) as (w & Hw & EN); try assumption; [rewrite Nat.add_0_r in HO; exact HO|apply HL, Hj|].
  transitivity (at_ (vol l) (in_parent B dim (child l j) q) * at_ (U (length (old_blocks dim q1) + 0)%nat m) (in_parent B dim (child l j) q))%R; [destruct (in_parent B dim (child l j) q) as [[? ?] ?]; reflexivity|].
  rewrite VS, Nat.add_0_r. replace (at_ (U (length (old_blocks dim q1)) m) (in_parent B dim (child l j) q)) with (at_ w q) by (destruct q as [[k j'] i]; cbn [at_]; apply Hw; apply cs_fdim; exact Hq).
  apply scale_sum. rewrite EN. destruct (CE _ HIn) as (w1 & w2 & w3 & Hs & Hc). specialize (Hc q (box_own dim B D1 RB q Hq)). destruct Hc as (C1 & C2 & C3). symmetry.
  apply (Ref_Props.C38_mean _ _ _ _ _ _ _ _ w1 w2 w3 q (layout_block dim B D1 RB) (box_own dim B D1 RB q Hq) Hs C1 C2 C3).
Qed.
Lemma regrid_total : forall m, nl <= m <= nu -> (forall b, In b (newloc a) -> centred B (vol b) (xc b) (xf b)) -> total_of B vol (newloc a) (fun n => NB n m) = total_of B vol (oldloc a) (fun o => U o m).
Proof using D1 RB RD VA.
  intros m Hm CE. unfold total_of. destruct RD as (_ & _ & _ & Eo & En & _). replace (length (newloc a)) with (length (new_blocks dim ps)) by (rewrite En; reflexivity). replace (length (oldloc a)) with (length (old_blocks dim ps)) by (rewrite Eo; reflexivity).
  apply (pieces_sum (held (newloc a) (fun n => NB n m)) (held (oldloc a) (fun o => U o m)) ps []). intros q1 p q2 E. cbn [app] in E. destruct p as [l|l|l]; cbn [nlen olen].
  - cbn [seq map]. rewrite !sum_cons, !sum_nil. f_equal. apply (keep_total m Hm q1 l q2 E).
  - cbn [seq map]. rewrite (sum_cons (held (oldloc a) _ _)), sum_nil, Rplus_0_r. apply (split_total m Hm CE q1 l q2 E).
  - cbn [seq map]. rewrite sum_cons, sum_nil, Rplus_0_r. apply (merge_total m Hm q1 l q2 E).
Qed.
End Block.
