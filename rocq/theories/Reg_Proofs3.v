(** The values of each kind of new block. *)
From Coq Require Import List Arith ZArith Bool Reals Lia Lra.
From Verif Require Import Loc AMR_Model AMR_Spec AMR_Proofs Tree_Model Tree_Spec Nbr_Model Nbr_Spec Buf_Model Fv_Model Fv_Spec Fv_Proofs Fv_Proofs2 Gho_Model Gho_Spec Gho_Proofs Con_Model Fgh_Model2 Reg_Model Reg_Spec Reg_Proofs Reg_Proofs2.
From Verif Require Ref_Model Ref_Spec Ref_Proofs Ref_Proofs2 Ref_Props.
Import ListNotations.
Local Open Scope Z_scope.

(** ** Several blocks written into one *)
Section Folds.
Context {X V : Type}.
Variables (step : X -> V -> V) (look : V -> R) (P : X -> bool) (w : X -> R).
Hypothesis hit : forall o v, P o = true -> look (step o v) = w o.
Hypothesis miss : forall o v, P o = false -> look (step o v) = look v.
Lemma fold_writer : forall L v, (exists o, In o L /\ P o = true /\ look (fold_left (fun v o => step o v) L v) = w o) \/ ((forall o, In o L -> P o = false) /\ look (fold_left (fun v o => step o v) L v) = look v).
Proof using hit miss.
  induction L as [|o L IH]; intros v; [right; split; [intros ? []|reflexivity]|]. cbn [fold_left]. destruct (IH (step o v)) as [(o' & Ho & Hp & E)|[Hn E]].
  - left. exists o'. split; [right; exact Ho|]. auto.
  - destruct (P o) eqn:Ep.
    + left. exists o. split; [left; reflexivity|]. split; [exact Ep|]. rewrite E. apply hit, Ep.
    + right. split; [intros o' [<-|H]; [exact Ep|apply Hn, H]|]. rewrite E. apply miss, Ep.
Qed.
Lemma fold_if : forall (m : X -> bool) L v, fold_left (fun v o => if m o then step o v else v) L v = fold_left (fun v o => step o v) (filter m L) v.
Proof using. intros m L. induction L as [|o L IH]; intros v; [reflexivity|]. cbn [fold_left filter]. rewrite IH. destruct (m o); reflexivity. Qed.
Lemma two_folds : forall (m : X -> bool) L v, (exists o, In o L /\ P o = true) ->
  exists o, In o L /\ P o = true /\ look (fold_left (fun v o => if m o then v else step o v) L (fold_left (fun v o => if m o then step o v else v) L v)) = w o.
Proof using hit miss.
  intros m L v (o0 & H0 & P0).
  assert (E : forall v, fold_left (fun v o => if m o then v else step o v) L v = fold_left (fun v o => step o v) (filter (fun o => negb (m o)) L) v).
  { intros v'. rewrite <- fold_if. clear. revert v'. induction L as [|o L IH]; intros v'; [reflexivity|]. cbn [fold_left]. rewrite IH. destruct (m o); reflexivity. }
  rewrite E, fold_if. rewrite <- fold_left_app. destruct (fold_writer (filter m L ++ filter (fun o => negb (m o)) L) v) as [(o & Ho & Hp & El)|[Hn _]].
  - exists o. split; [|auto]. apply in_app_or in Ho as [Ho|Ho]; apply filter_In in Ho; apply Ho.
  - exfalso. rewrite (Hn o0) in P0; [discriminate P0|]. apply in_or_app. destruct (m o0) eqn:Em; [left|right]; apply filter_In; rewrite ?Em; auto.
Qed.
End Folds.

Section Dirs.
Variables (dim : nat) (B : bsz).
Hypothesis D1 : (1 <= dim <= 3)%nat.
Hypothesis RB : refinable dim B.
Definition flat_loc (l : loc) : Prop := forall d, (d < 3)%nat -> (dim <= d)%nat -> coord d l = 0.
Lemma flat_child : forall l j, flat_loc l -> (j < nleaf dim)%nat -> flat_loc (child l j).
Proof using D1.
  clear RB B. intros l j H Hj d Hd Hdd. specialize (H d Hd Hdd). unfold child. destruct d as [|[|[|d]]]; try lia; cbn [coord lx1 lx2 lx3] in *; rewrite H; destruct dim as [|[|[|n]]]; try lia; cbn [nleaf] in Hj;
    repeat (destruct j as [|j]; [reflexivity|]); lia.
Qed.
(** Where coarse cell (or face) x of old leaf j comes to lie in the parent. *)
Definition reaches (c : nat) (b : loc) (y : cell) : bool := let ok d := Z.leb (cs_ B d) (y d - off dim B b d) && Z.leb (y d - off dim B b d) (ce_ B d + stag B c d) in ok 0%nat && ok 1%nat && ok 2%nat.
Lemma reaches_spec : forall c b y, reaches c b y = true <-> forall d, (d < 3)%nat -> cs_ B d <= y d - off dim B b d <= ce_ B d + stag B c d.
Proof using.
  intros c b y. unfold reaches. rewrite !andb_true_iff, !Z.leb_le. split.
  - intros H d Hd. destruct d as [|[|[|d]]]; clear D1; lia.
  - intros H. pose proof (H 0%nat ltac:(repeat constructor)). pose proof (H 1%nat ltac:(repeat constructor)). pose proof (H 2%nat ltac:(repeat constructor)). clear D1; lia.
Qed.
Lemma merged : forall nl nu c (mine : nat -> bool) (src : nat -> arr4 (A := R)) fresh l on n (y : cell) (lo : nat -> loc), flat_loc l -> nl <= n <= nu ->
  (forall j, (j < nleaf dim)%nat -> lo (on + j)%nat = child l j) -> (exists j, (j < nleaf dim)%nat /\ reaches c (child l j) y = true) ->
  let leaf o v := MoveF2C B nl nu c (mine o) (lo o) (src o) v in let leaves := map (fun j => (on + j)%nat) (seq 0 (nleaf dim)) in
  exists j, (j < nleaf dim)%nat /\ reaches c (child l j) y = true /\
    value (fold_left (fun v o => if mine o then v else leaf o v) leaves (fold_left (fun v o => if mine o then leaf o v else v) leaves fresh)) n y = value (src (on + j)%nat) n (fun d => y d - off dim B (child l j) d).
Proof using D1 RB.
  intros nl nu c mine src fresh l on n y lo HF Hn HL (j0 & Hj0 & R0) leaf leaves.
  assert (HS : forall j v, (j < nleaf dim)%nat -> (reaches c (child l j) y = true -> value (leaf (on + j)%nat v) n y = value (src (on + j)%nat) n (fun d => y d - off dim B (child l j) d)) /\ (reaches c (child l j) y = false -> value (leaf (on + j)%nat v) n y = value v n y)).
  { intros j v Hj. unfold leaf. rewrite (HL j Hj). pose proof (flat_child l j HF Hj) as HC. split; intros HR.
    - rewrite <- (f2c_in dim B D1 RB nl nu c (mine (on + j)%nat) (child l j) (src (on + j)%nat) v n (fun d => y d - off dim B (child l j) d) HC Hn (proj1 (reaches_spec c (child l j) y) HR)). apply value_ext. intros d _. symmetry. apply Z.sub_add.
    - apply (f2c_out dim B D1 RB); [exact HC|]. intros [_ H]. apply reaches_spec in H. rewrite H in HR. discriminate HR. }
  (* make the steps total *)
  set (step := fun (j : nat) (v : arr4 (A := R)) => leaf (on + j)%nat v).
  pose (P := fun j => Nat.ltb j (nleaf dim) && reaches c (child l j) y).
  assert (E : forall L (f : arr4 -> nat -> arr4 (A := R)) v, fold_left f (map (fun j => (on + j)%nat) L) v = fold_left (fun v j => f v (on + j)%nat) L v) by (intros L f; induction L as [|x L IH]; intros v; [reflexivity|]; cbn [map fold_left]; apply IH).
  unfold leaves. rewrite !E.
  pose (step' := fun (j : nat) (v : arr4 (A := R)) => if Nat.ltb j (nleaf dim) then step j v else v).
  assert (E2 : forall (h : arr4 (A := R) -> nat -> arr4 (A := R)) h' L v, (forall j v, In j L -> h v j = h' v j) -> fold_left h L v = fold_left h' L v).
  { intros h h' L. induction L as [|x L IH]; intros v H; [reflexivity|]. cbn [fold_left]. rewrite (H x v (or_introl eq_refl)). apply IH. intros j v' Hj. apply H. right. exact Hj. }
  rewrite (E2 _ (fun v j => if mine (on + j)%nat then v else step' j v)).
  2: { intros j v Hj. apply in_seq in Hj. unfold step'. rewrite (proj2 (Nat.ltb_lt j (nleaf dim))) by lia. reflexivity. }
  rewrite (E2 (fun v j => if mine (on + j)%nat then leaf (on + j)%nat v else v) (fun v j => if mine (on + j)%nat then step' j v else v)).
  2: { intros j v Hj. apply in_seq in Hj. unfold step'. rewrite (proj2 (Nat.ltb_lt j (nleaf dim))) by lia. reflexivity. }
  destruct (two_folds step' (fun v => value v n y) P (fun j => value (src (on + j)%nat) n (fun d => y d - off dim B (child l j) d))) with (m := fun j => mine (on + j)%nat) (L := seq 0 (nleaf dim)) (v := fresh) as (j & Hj & Hp & El).
  - intros j v Hp. unfold P in Hp. apply andb_true_iff in Hp as [Hl Hr]. unfold step'. rewrite Hl. apply Nat.ltb_lt in Hl. apply (HS j v Hl), Hr.
  - intros j v Hp. unfold step'. unfold P in Hp. destruct (Nat.ltb_spec j (nleaf dim)) as [Hl|Hl]; [|reflexivity]. apply (HS j v Hl). exact Hp.
  - exists j0. split; [apply in_seq; lia|]. unfold P. rewrite R0, (proj2 (Nat.ltb_lt _ _) Hj0). reflexivity.
  - exists j. unfold P in Hp. apply andb_true_iff in Hp as [Hl Hr]. apply Nat.ltb_lt in Hl. auto.
Qed.
(** For cells, only one leaf covers a cell. *)
Lemma bit_range : forall j d, bit j d = 0 \/ bit j d = 1.
Proof using. intros. unfold bit. destruct (Nat.testbit j d); auto. Qed.
Lemma off_child : forall l j d, (d < dim)%nat -> off dim B (child l j) d = bit j d * (nx_ B d / 2).
Proof using D1.
  intros l j d Hd. unfold off. rewrite (proj2 (Nat.ltb_lt _ _) Hd). f_equal.
  - destruct (bit_range j d) as [E|E]; unfold child; destruct d as [|[|[|d]]]; try lia; cbn [coord lx1 lx2 lx3]; rewrite E, Z.add_comm, Z.mul_comm, Z_mod_plus_full; reflexivity.
  - unfold size. rewrite (proj2 (Nat.ltb_lt _ _) Hd). destruct d as [|[|d]]; reflexivity.
Qed.
Lemma bits_inj : forall j j', (j < nleaf dim)%nat -> (j' < nleaf dim)%nat -> (forall d, (d < dim)%nat -> bit j d = bit j' d) -> j = j'.
Proof using D1.
  clear RB B. intros j j' Hj Hj' H. pose proof (H 0%nat) as B0. pose proof (H 1%nat) as B1. pose proof (H 2%nat) as B2.
  destruct dim as [|[|[|[|n]]]]; try lia; cbn [nleaf] in *; clear H; repeat match goal with H : (_ -> bit j _ = _) |- _ => first [specialize (H ltac:(lia))|clear H] end;
  destruct j as [|[|[|[|[|[|[|[|j]]]]]]]]; try (clear -Hj; lia); destruct j' as [|[|[|[|[|[|[|[|j']]]]]]]]; try (clear -Hj'; lia); try reflexivity;
  first [discriminate B0|discriminate B1|discriminate B2].
Qed.
Lemma one_leaf : forall l j j' y, (j < nleaf dim)%nat -> (j' < nleaf dim)%nat -> reaches 3 (child l j) y = true -> reaches 3 (child l j') y = true -> j = j'.
Proof using D1 RB.
  intros l j j' y Hj Hj' H H'. rewrite reaches_spec in H, H'. apply bits_inj; try assumption. intros d Hd.
  assert (Hd3 : (d < 3)%nat) by lia. specialize (H d Hd3). specialize (H' d Hd3). rewrite !off_child in * by exact Hd. assert (S0 : stag B 3 d = 0) by (unfold stag; destruct (Nat.eqb_spec d 3); [lia|reflexivity]). rewrite S0 in *.
  destruct (dir_facts dim B D1 RB d Hd3) as [F|F]; [|lia]. destruct F as (_ & _ & _ & _ & _ & F4 & F5 & F6 & F7 & _). destruct (bit_range j d) as [E|E], (bit_range j' d) as [E'|E']; rewrite E, E' in *; lia.
Qed.
Lemma stag3 : forall d, (d < 3)%nat -> stag B 3 d = 0.
Proof using. intros d Hd. unfold stag. destruct (Nat.eqb_spec d 3); [clear D1; lia|reflexivity]. Qed.
Definition idx (q : Ref_Spec.pt) : cell := let '(k, j, i) := q in fun d => match d with 0%nat => i | 1%nat => j | _ => k end.
Lemma in_parent_value : forall b q n (v : arr4 (A := R)), at_ (v n) (in_parent B dim b q) = value v n (fun d => idx q d + off dim B b d).
Proof using. intros b [[k j] i] n v. unfold in_parent, value, off, idx, at_. reflexivity. Qed.
Lemma own_idx : forall q, coarse_own B dim q <-> forall d, (d < 3)%nat -> cs_ B d <= idx q d <= ce_ B d.
Proof using D1 RB.
  intros [[k j] i]. rewrite (coarse_own_rng dim B D1 RB). split.
  - intros H d Hd. destruct d as [|[|[|d]]]; cbn [idx]; lia.
  - intros H. pose proof (H 0%nat ltac:(lia)). pose proof (H 1%nat ltac:(lia)). pose proof (H 2%nat ltac:(lia)). cbn [idx] in *. lia.
Qed.
Lemma layout_block : Ref_Spec.layout (block_dims B) (coarse_offs B).
Proof using D1 RB.
  unfold Ref_Spec.layout, nx2, nx3, block_dims, coarse_offs. cbn [Fv_Model.is_ ie js je ks ke Ref_Model.cis Ref_Model.cjs Ref_Model.cks].
  destruct (dir_facts dim B D1 RB 1%nat ltac:(lia)) as [F|F], (dir_facts dim B D1 RB 2%nat ltac:(lia)) as [F'|F']; lia.
Qed.
Lemma box_own : forall q, coarse_own B dim q -> Ref_Spec.in_box (block_dims B) (coarse_offs B) (coarse_box B 3) q.
Proof using D1 RB.
  intros [[k j] i] H. apply (coarse_own_rng dim B D1 RB) in H as (H2 & H1 & H0). unfold Ref_Spec.in_box, coarse_box, nx2, nx3, block_dims, coarse_offs. cbn [Fv_Model.is_ ie js je ks ke Ref_Model.cis Ref_Model.cjs Ref_Model.cks Ref_Model.si Ref_Model.ei Ref_Model.sj Ref_Model.ej Ref_Model.sk Ref_Model.ek Nat.eqb andb].
  destruct (dir_facts dim B D1 RB 1%nat ltac:(lia)) as [F|F], (dir_facts dim B D1 RB 2%nat ltac:(lia)) as [F'|F']; split; try lia; split; match goal with |- context [Z.ltb ?a ?b] => destruct (Z.ltb_spec a b) end; lia.
Qed.
End Dirs.
