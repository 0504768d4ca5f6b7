(** Entries of the neighbour lists and the messages that belong to them. *)
From Coq Require Import List Arith NArith ZArith Bool Lia Permutation.
From Verif Require Import Loc LB_Spec Tags_Model Tags_Spec Tags_Proofs AMR_Model AMR_Spec AMR_Proofs AMR_Proofs2 Tree_Model Tree_Spec Tree_Proofs1 Tree_Proofs2 Tree_Proofs3 Tree_Proofs4 Tree_Proofs5 Tree_Proofs6 Tree_Proofs7 Tree_Proofs8 Tree_Restart Tree_Proofs9 Tree_Proofs10 Nbr_Model Nbr_Spec Nbr_Proofs Nbr_Proofs2 Nbr_Proofs3 Buf_Model Gho_Model Gho_Spec Gho_Proofs.
Import ListNotations.
Local Open Scope Z_scope.

Lemma ox_off : forall e d, ox e d = off e d.
Proof. intros e [|[|d]]; reflexivity. Qed.
Lemma fsel_tang : forall e d, fsel e d = tang (edir e) (n_f1 e) (n_f2 e) d.
Proof. intros e [|[|d]]; unfold fsel, tang, edir; [reflexivity|reflexivity|]. destruct (Z.eqb (n_o1 e) 0), (Z.eqb (n_o2 e) 0); reflexivity. Qed.
Lemma lx_coord : forall l d, lx l d = coord d l.
Proof. intros l [|[|d]]; reflexivity. Qed.
(** The half of the position in which a finer neighbour lies. *)
Definition bitf (e : nblock) (d : nat) : Z := if Z.eqb (ox e d) 0 then fsel e d else if Z.eqb (ox e d) (-1) then 1 else 0.
Definition same_nb (g : grid) (a : loc) (e : nblock) : Prop := level (n_loc e) = level a /\ neighbour_position g a (off e) (n_loc e).
Definition finer_nb (g : grid) (a : loc) (e : nblock) : Prop := level (n_loc e) = S (level a) /\ (forall d, fsel e d = 0 \/ fsel e d = 1) /\
  exists m, neighbour_position g a (off e) m /\ In (n_loc e) (children (gdim g) m) /\ forall d, (d < 3)%nat -> coord d (n_loc e) = 2 * coord d m + bitf e d.
Definition coarser_nb (g : grid) (a : loc) (e : nblock) : Prop := level a = S (level (n_loc e)) /\ (forall d, (d < 3)%nat -> off e d <> 0 -> myo (coord d a) = off e d) /\
  exists m, neighbour_position g a (off e) m /\ In m (children (gdim g) (n_loc e)).

Section N.
Variable g : grid.
Hypothesis Vg : valid_grid g.
Hypothesis NP : no_pole g.
Hypothesis NS : no_shear g.
Variable t : tree.
Hypothesis W : wf g t.
Hypothesis Bt : B g t.
Variable ml : bool.
Hypothesis ML : declared g ml (blocks t).
Local Notation dim := (gdim g).
Local Notation E := (E g t ml).

Lemma np_off : forall a o m e, edir e = o -> neighbour_position g a (od o) m -> neighbour_position g a (off e) m.
Proof using . intros a o m e Ee (N1 & N2 & N3). split; [exact N1|]. split; [exact N2|]. intros d Hd. destruct (N3 d Hd) as (s & S1 & S2). exists s. split; [exact S1|]. rewrite off_dir, Ee. exact S2. Qed.
Lemma kinds : forall a e, In a (blocks t) -> E a e -> same_nb g a e \/ (ml = true /\ finer_nb g a e) \/ (ml = true /\ coarser_nb g a e).
Proof using Vg NP NS t W Bt ml ML.
  intros a e Ha HE0. pose proof HE0 as (o & m & Hin & Hnb & HE). pose proof (dim13 g Vg) as D13. pose proof Hin as Ho. apply (dirs_iff dim o D13) in Ho. pose proof (proj1 (spec_pos g Vg t W a o m Ha Ho) Hnb) as Hnp.
  pose proof Ha as Ha'. apply (in_blocks g t a W) in Ha' as [Ca (za & Ka)]. destruct (leaf_level g t a za W Ca Ka) as [Da Ra]. pose proof Hnp as (Lm & Dm & _). pose proof (dom_canon g Vg m Dm) as Cm.
  destruct HE as [(z & k & Em & Ek & He)|[(Em & f1 & f2 & z & k & H1 & H2 & Ec & Ek & He)|(Em & Li & z & k & Eb & Ek & He)]].
  - left. destruct (mkn_fields m z o k (slot dim ml (opp3 o) 0 0) 0 0) as (F1 & F2 & F3 & _). rewrite <- He in F1, F3. unfold same_nb. rewrite F1. split; [exact Lm|]. apply (np_off a o m e F3 Hnp).
  - right. left. destruct (mkn_fields (getleaf m o false f1 f2) z o k (slot dim ml (opp3 o) 0 0) f1 f2) as (F1 & F2 & F3 & _). rewrite <- He in F1, F3. destruct (f_range g ml o f1 f2 H1 H2) as [R1 R2].
    assert (Hf : n_f1 e = f1 /\ n_f2 e = f2) by (rewrite He; destruct o as [[o1 o2] o3]; split; reflexivity). destruct Hf as [E1 E2].
    destruct (finer_leaf g Vg NP t W Bt ml ML a za o m f1 f2 Ho Ca Ka Hnb Em H1 H2) as (Cc & _).
    split. { apply (ml_true g t W ml ML (getleaf m o false f1 f2) z Cc Ec). rewrite getleaf_level. lia. }
    split; [rewrite F1, getleaf_level; lia|].
    assert (F01 : forall d, fsel e d = 0 \/ fsel e d = 1). { intros [|[|d]]; unfold fsel; rewrite ?E1, ?E2; [assumption|destruct (Z.eqb _ _); assumption|destruct (_ && _)%bool; assumption]. }
    split; [exact F01|]. exists m. split; [apply (np_off a o m e F3 Hnp)|]. split.
    + rewrite F1. destruct (getleaf_child g Vg t ml ML m o f1 f2 Ho H1 H2) as (j & Hj & ->). apply in_map, in_seq. lia.
    + intros d Hd. rewrite F1, coord_getleaf by assumption. unfold bitf. rewrite fsel_tang, ox_off, off_dir, F3, E1, E2. reflexivity.
  - right. right. destruct (mkn_fields (anc 1 m) z o k (slot dim ml (opp3 o) (sub1 o (myf (lx1 a)) (myf (lx2 a)) (myf (lx3 a))) (sub2 o (myf (lx1 a)) (myf (lx2 a)) (myf (lx3 a)))) 0 0) as (F1 & F2 & F3 & _). rewrite <- He in F1, F3.
    assert (Hr : (groot g < level m)%nat). { destruct (Nat.lt_ge_cases (groot g) (level m)); [assumption|]. contradiction (wf_root g t W m Dm ltac:(assumption)). }
    split. { apply (ml_true g t W ml ML a za Ca Ka). lia. }
    split; [rewrite F1; cbn [anc level]; lia|]. split; [intros d Hd; rewrite off_dir, F3; apply Li, Hd|].
    exists m. split; [apply (np_off a o m e F3 Hnp)|]. rewrite F1. destruct (dom_child_of g m Dm ltac:(lia)) as (j & Hj & Ej). rewrite Ej at 1. apply in_map, in_seq. lia.
Qed.
Lemma entry_dirs : forall a e, In a (blocks t) -> E a e -> (forall d, okrange (ox e d)) /\ (forall d, (dim <= d)%nat -> (d < 3)%nat -> ox e d = 0).
Proof using Vg NP t W Bt ml ML.
  intros a e Ha He. destruct (entry_facts g Vg t W ml ML a e Ha He) as (_ & _ & _ & (R1 & R2 & R3 & D2 & D3 & _) & _ & _). unfold okrange. split.
  - intros [|[|d]]; assumption.
  - intros [|[|[|d]]] H1 H2; try lia; pose proof (dim13 g Vg); [lia|apply D2; lia|apply D3; lia].
Qed.

(** The message that arrives for an entry was loaded for the opposite entry of the neighbour. *)
Context {A : Type}.
Variables (Bz : bsz) (nl nu : Z) (V : loc -> arr4 (A := A)) (R : loc -> arr4 (A := A) -> arr4 (A := A)).
Lemma arriving_ok : forall a e, In a (blocks t) -> E a e -> In (n_loc e) (blocks t) /\
  exists e', arriving g ml t Bz nl nu V R a e = Some (Load Bz nl nu (level (n_loc e)) (V (n_loc e)) (R (n_loc e) (V (n_loc e))) e') /\ E (n_loc e) e' /\ n_loc e' = a /\ (forall d, ox e' d = - ox e d).
Proof using Vg NP NS t W Bt ml ML.
  intros a e Ha He. destruct (entry_block g Vg NP t W Bt ml ML a e Ha He) as [Hb _]. split; [exact Hb|].
  destruct (lists g Vg NP NS t W Bt ml ML a Ha) as (za & ns & Ca & Ka & Es & Hin & ND).
  destruct (lists g Vg NP NS t W Bt ml ML (n_loc e) Hb) as (zb & ns' & Cb & Kb & Es' & Hin' & ND').
  destruct (recip_ex g Vg NP t W Bt ml ML a za e Ca Ka He) as (_ & _ & e0 & He0 & (Q1 & Q2 & Q3 & Q4 & Q5 & Q6)).
  unfold arriving. rewrite Es'. destruct (find (targets a (n_bufid e)) ns') as [e'|] eqn:Ef.
  - apply find_some in Ef as [Hi Ht]. unfold targets in Ht. apply andb_prop in Ht as [Ht1 Ht2]. destruct (loc_eqb_spec (n_loc e') a) as [El|]; [|discriminate Ht1]. destruct (n_target e') as [k|] eqn:Ek; [|discriminate Ht2]. apply Nat.eqb_eq in Ht2. subst k.
    exists e'. split; [reflexivity|]. apply Hin' in Hi. split; [exact Hi|]. split; [exact El|].
    destruct (recip_ex g Vg NP t W Bt ml ML (n_loc e) zb e' Cb Kb Hi) as (_ & _ & e2 & He2 & (P1 & P2 & P3 & P4 & P5 & P6)). rewrite El in He2.
    assert (Eb : n_bufid e2 = n_bufid e) by congruence. apply Hin in He2. apply Hin in He.
    assert (e2 = e). { clear -ND He He2 Eb. induction ns as [|x l IH]; [contradiction He|]. cbn [map] in ND. apply NoDup_cons_iff in ND as [N1 N2]. destruct He as [->|He], He2 as [->|He2]; [reflexivity| | |apply IH; assumption]; exfalso; apply N1; [rewrite <- Eb|rewrite Eb]; apply in_map; assumption. }
    subst e2. intros d. rewrite !ox_off, !off_dir. rewrite P5, od_opp. ring.
  - exfalso. apply (find_none _ _ Ef) in He0 as Hf || (apply Hin' in He0; pose proof (find_none _ _ Ef e0 He0) as Hf).
    unfold targets in Hf. rewrite Q1, Q4 in Hf. rewrite Nat.eqb_refl in Hf. destruct (loc_eqb_spec a a); [discriminate Hf|contradiction].
Qed.
End N.
