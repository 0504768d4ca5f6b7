(** Corrected electromotive forces are means over the blocks that share the edge. *)
From Coq Require Import List Arith NArith ZArith Bool Lia Permutation Reals Lra.
From Verif Require Fv_Spec Fv_Proofs2.
From Verif Require Import Loc LB_Spec Tags_Model Tags_Spec Tags_Proofs AMR_Model AMR_Spec AMR_Proofs AMR_Proofs2 Tree_Model Tree_Spec Tree_Proofs1 Tree_Proofs2 Tree_Proofs3 Tree_Proofs4 Tree_Proofs5 Tree_Proofs6 Tree_Proofs7 Tree_Proofs8 Tree_Restart Tree_Proofs9 Tree_Proofs10 Nbr_Model Nbr_Spec Nbr_Proofs Nbr_Proofs2 Nbr_Proofs3 Buf_Model Gho_Model Gho_Spec Gho_Proofs Gho_Proofs2 Con_Model Con_Spec Con_Proofs Emf_Model Emf_Spec Emf_Proofs Emf_Proofs2 Emf_Proofs3 Emf_Proofs4.
Import ListNotations.
Local Open Scope Z_scope.

Lemma perm_filter : forall (X : Type) (f : X -> bool) l l', Permutation l l' -> Permutation (filter f l) (filter f l').
Proof. intros X f l l' H. induction H as [|x l l' H IH|x y l|l l' l'' H1 IH1 H2 IH2]; cbn [filter]; [constructor|destruct (f x); [constructor|]; exact IH|destruct (f x), (f y); try apply Permutation_refl; constructor|eapply perm_trans; eassumption]. Qed.
Lemma NoDup_disjoint : forall (X Y : Type) (f : X -> list Y) l, NoDup l -> (forall x, In x l -> NoDup (f x)) -> (forall x x' y, In x l -> In x' l -> In y (f x) -> In y (f x') -> x = x') -> NoDup (flat_map f l).
Proof.
  intros X Y f l. induction l as [|x l IH]; intros ND H1 H2; [constructor|]. apply NoDup_cons_iff in ND as [N1 N2]. cbn [flat_map].
  assert (Hr : NoDup (flat_map f l)) by (apply IH; [exact N2|intros y Hy; apply H1; right; exact Hy|intros y y' z Hy Hy'; apply H2; right; assumption]). specialize (H1 x (or_introl eq_refl)) as Hx.
  assert (Hd : forall y, In y (f x) -> ~ In y (flat_map f l)) by (intros y Hy H; apply in_flat_map in H as (x' & Hx' & Hy'); apply N1; rewrite (H2 x x' y (or_introl eq_refl) (or_intror Hx') Hy Hy'); exact Hx').
  clear -Hx Hr Hd. induction (f x) as [|y l' IH]; [exact Hr|]. apply NoDup_cons_iff in Hx as [A1 A2]. cbn [app]. constructor; [|apply IH; [exact A2|intros z Hz; apply Hd; right; exact Hz]]. rewrite in_app_iff. intros [H|H]; [contradiction|]. apply (Hd y (or_introl eq_refl) H).
Qed.
Lemma NoDup_map_on : forall (X Y : Type) (f : X -> Y) l, NoDup l -> (forall x x', In x l -> In x' l -> f x = f x' -> x = x') -> NoDup (map f l).
Proof.
  intros X Y f l. induction l as [|x l IH]; intros ND H; [constructor|]. apply NoDup_cons_iff in ND as [N1 N2]. cbn [map]. constructor; [|apply IH; [exact N2|intros y y' Hy Hy'; apply H; right; assumption]]. intros Hi. apply in_map_iff in Hi as (y & E & Hy). apply N1. rewrite <- (H y x (or_intror Hy) (or_introl eq_refl) E). exact Hy.
Qed.

Section P.
Variable g : grid.
Hypothesis Vg : valid_grid g.
Hypothesis NP : no_pole g.
Hypothesis NS : no_shear g.
Variable t : tree.
Hypothesis W : wf g t.
Hypothesis Bt : B g t.
Variable ml : bool.
Hypothesis ML : declared g ml (blocks t).
Variable Bz : bsz.
Hypothesis FT : fitting g Bz ml.
Local Notation dim := (gdim g).
Local Notation E := (E g t ml).
Local Notation D13 := (dim13 g Vg).
Local Notation bs := (blocks t).
Local Notation first := (first Bz dim).
Local Notation nn := (cells_in Bz).
Local Notation edge_of := (edge_of g Bz).
Variable a : loc.
Hypothesis Ha : In a bs.
Variables (c : nat) (p : fpos).
Hypothesis Hc : (c < 3)%nat.
Hypothesis Hp : edge_of c p.
Local Notation o := (sg g Bz c p).
Local Notation lev := (Z.of_nat (level a)).
Local Notation nl := (nblevel g t a).
Local Notation entries := (entries g t ml).
Local Notation sames := (sames g t ml Bz a c p).
Local Notation fines := (fines g t ml Bz a c p).
Definition fineish : bool := existsb (fun x => Z.eqb (nl x) (lev + 1)) (around o).
Local Notation Od := (odir_sg g Bz c p).

Lemma in_entries : forall e, E a e -> fits g Bz (entry_dir e) c p -> In e (entries a).
Proof using Vg NP NS W Bt ML Ha Hc.
  intros e He Hf. apply (entries_in g Vg NP NS t W Bt ml ML a Ha). split; [exact He|]. destruct (entry_facts g Vg t W ml ML a e Ha He) as (_ & _ & _ & Ok & Ht & _). pose proof (fits_along g Bz _ c p Hc Hf) as Oc. pose proof (nonzeros_le _ c Hc Oc) as N2. destruct (dtype_nonzeros (entry_dir e)) as [T1 T2]. unfold is_corner. rewrite Ht. change (edir e) with (entry_dir e).
  assert (N0 : nonzeros (entry_dir e) <> 0%nat). { intros N0. apply nonzeros_0 in N0. apply (okdir_odir g Vg) in Ok as [_ (d & Hd & Hn)]. apply Hn. change (edir e) with (entry_dir e). rewrite N0. destruct d as [|[|d]]; reflexivity. }
  assert (X : nonzeros (entry_dir e) = 1%nat \/ nonzeros (entry_dir e) = 2%nat) by lia. destruct X as [X|X]; [rewrite (T1 X)|rewrite (T2 X)]; reflexivity.
Qed.
Lemma fits_nonzeros : forall x, fits g Bz x c p -> nonzeros x = 2%nat -> x = o.
Proof using Hc.
  intros x Hf N2. pose proof (fits_along g Bz _ c p Hc Hf) as Oc. apply dirt_ext. intros d Hd. destruct (Nat.eq_dec d c) as [->|N]; [rewrite Oc, (sg_along g Bz c p Hc); reflexivity|]. destruct (Hf d Hd) as [Z0|Z0]; [contradiction (two_others x c N2 Hc Oc d Hd N)|]. rewrite dd_sg by exact Hd. exact Z0.
Qed.
Lemma around_one : nonzeros o = 1%nat -> Permutation (around o) [(0, 0, 0); o].
Proof using Hc.
  intros N1. apply NoDup_Permutation; [apply NoDup_around| |].
  - constructor; [|repeat constructor; cbn; tauto]. intros [H|[]]. rewrite H in N1. discriminate N1.
  - intros x. split.
    + intros H. pose proof (proj1 (in_around_of g o x Od) H) as X. cbn [In]. destruct (across_spec c Hc o N1 (sg_along g Bz c p Hc)) as (A1 & A2 & A3 & A4).
      destruct (dirt_dec x o) as [->|Nx]; [right; left; reflexivity|left]. symmetry. apply dirt_ext. intros d Hd. replace (dd (0, 0, 0) d) with 0 by (destruct d as [|[|d]]; reflexivity).
      destruct (Nat.eq_dec d c) as [->|Ndc]; [destruct (X c Hc) as [Y|Y]; [exact Y|rewrite Y; apply sg_along, Hc]|]. destruct (Nat.eq_dec d (across o c)) as [->|Nda]; [destruct (X _ A1) as [Y|Y]; [exact Y|rewrite Y; exact A3]|]. destruct (X d Hd) as [Y|Y]; [exact Y|]. exfalso. apply Nx. apply dirt_ext. intros d' Hd'. destruct (X d' Hd') as [Y'|Y']; [|exact Y'].
      destruct (Nat.eq_dec d' d) as [->|N']; [exact Y|]. rewrite Y'. symmetry. destruct (Nat.eq_dec d' c) as [->|M1]; [apply sg_along, Hc|]. destruct (Nat.eq_dec d' (across o c)) as [->|M2]; [exact A3|]. exfalso. lia.
    + intros H. apply (proj2 (in_around_of g o x Od)). intros d Hd. destruct H as [<-|[<-|[]]]; [left; destruct d as [|[|d]]; reflexivity|right; reflexivity].
Qed.
Lemma around_zero : nonzeros o = 0%nat -> around o = [(0, 0, 0)].
Proof using . intros N0. apply nonzeros_0 in N0. rewrite N0. reflexivity. Qed.
Lemma nz_cases : nonzeros o = 0%nat \/ nonzeros o = 1%nat \/ nonzeros o = 2%nat.
Proof using Hc. pose proof (nonzeros_le o c Hc (sg_along g Bz c p Hc)). lia. Qed.
Lemma nl_zero : nl (0, 0, 0) = lev.
Proof using . reflexivity. Qed.
Lemma existsb_perm : forall f l l', Permutation l l' -> @existsb dirt f l = existsb f l'.
Proof using . intros f l l' H. induction H as [|x l l' H IH|x y l|l l' l'' H1 IH1 H2 IH2]; cbn [existsb]; [reflexivity|rewrite IH; reflexivity|destruct (f x), (f y); reflexivity|congruence]. Qed.
Lemma cnt_perm : forall f l l', Permutation l l' -> cnt f l = cnt f l'.
Proof using . intros f l l' H. unfold cnt. apply Permutation_length, perm_filter, H. Qed.
Lemma cleared_fine : ((Nat.eqb (nonzeros o) 1 && Z.ltb lev (nl o)) || (Nat.eqb (nonzeros o) 2 && negb (edge_flag g t a o)))%bool = fineish.
Proof using Vg NP NS W Bt Ha Hc.
  unfold fineish. destruct nz_cases as [N|[N|N]]; rewrite N; cbn [Nat.eqb andb orb].
  - rewrite (around_zero N). cbn [existsb]. rewrite nl_zero. destruct (Z.eqb_spec lev (lev + 1)); [lia|reflexivity].
  - rewrite orb_false_r. rewrite (existsb_perm _ _ _ (around_one N)). cbn [existsb]. rewrite nl_zero. destruct (Z.eqb_spec lev (lev + 1)); [lia|]. cbn [orb]. rewrite orb_false_r. pose proof (nblevel_le g Vg NP NS t W Bt a Ha o Od) as L. destruct (Z.ltb_spec lev (nl o)), (Z.eqb_spec (nl o) (lev + 1)); try reflexivity; lia.
  - pose proof (flag_iff g Vg NP NS t W Bt a Ha o Od) as X. destruct (existsb _ (around o)) eqn:Ex.
    + apply existsb_exists in Ex as (x & H1 & H2). apply Z.eqb_eq in H2. destruct (edge_flag g t a o); [|reflexivity]. contradiction (proj1 X eq_refl x H1).
    + assert (Y : edge_flag g t a o = true); [|rewrite Y; reflexivity]. apply X. intros x H1 H2. assert (Z0 : existsb (fun x => Z.eqb (nl x) (lev + 1)) (around o) = true) by (apply existsb_exists; exists x; split; [exact H1|apply Z.eqb_eq, H2]). congruence.
Qed.

(** ** No finer block at the edge *)
Lemma in_sames : fineish = false -> forall e, In e sames <-> E a e /\ level (n_loc e) = level a /\ fits g Bz (entry_dir e) c p.
Proof using Vg NP NS W Bt ML Ha Hc.
  intros Hn e. unfold Emf_Proofs3.sames. rewrite filter_In. unfold sameb. rewrite !andb_true_iff, Nat.eqb_eq, fitsb_iff. split.
  - intros [He [[H1 H2] H3]]. apply (entries_in g Vg NP NS t W Bt ml ML a Ha) in He. tauto.
  - intros (He & Hl & Hf). split; [apply in_entries; assumption|]. split; [|exact Hf]. split; [exact Hl|]. unfold exchanged. destruct (entry_facts g Vg t W ml ML a e Ha He) as (_ & _ & _ & Ok & Ht & _). pose proof (fits_along g Bz _ c p Hc Hf) as Oc. pose proof (nonzeros_le _ c Hc Oc) as N2. destruct (dtype_nonzeros (entry_dir e)) as [T1 T2].
    assert (N0 : nonzeros (entry_dir e) <> 0%nat). { intros N0. apply nonzeros_0 in N0. apply (okdir_odir g Vg) in Ok as [_ (d & Hd & Hx)]. apply Hx. change (edir e) with (entry_dir e). rewrite N0. destruct d as [|[|d]]; reflexivity. }
    assert (X : nonzeros (entry_dir e) = 1%nat \/ nonzeros (entry_dir e) = 2%nat) by lia. destruct X as [X|X].
    + unfold is_face. rewrite Ht. change (edir e) with (entry_dir e). rewrite (T1 X). reflexivity.
    + apply orb_true_intro. right. rewrite (fits_nonzeros _ Hf X). apply (flag_iff g Vg NP NS t W Bt a Ha o Od). intros x H1 H2. unfold fineish in Hn. assert (Z0 : existsb (fun x => Z.eqb (nl x) (lev + 1)) (around o) = true) by (apply existsb_exists; exists x; split; [exact H1|apply Z.eqb_eq, H2]). congruence.
Qed.
Lemma NoDup_sames : NoDup sames.
Proof using Vg NP NS W Bt ML Ha. apply NoDup_filter, (entries_in g Vg NP NS t W Bt ml ML a Ha). Qed.
Lemma same_dir_inj : forall e1 e2, E a e1 -> E a e2 -> level (n_loc e1) = level a -> level (n_loc e2) = level a -> entry_dir e1 = entry_dir e2 -> e1 = e2.
Proof using Vg NP NS W Bt ML Ha.
  intros e1 e2 H1 H2 L1 L2 Ed. destruct (entry_dir_ok g Vg t W ml a Ha e1 H1) as (Ok & _). apply (entry_unique g Vg NP t W Bt ml a Ha e1 e2 H1 H2 Ed). destruct (same_level_of g Vg NP NS t W Bt ml ML a Ha e1 H1 L1) as [_ (_ & A1 & A2 & A3)]. destruct (same_level_of g Vg NP NS t W Bt ml ML a Ha e2 H2 L2) as [_ (_ & B1 & B2 & B3)].
  apply (nbpos_det g Vg t W a Ha (entry_dir e1) _ _ Ok); (split; [assumption|]; split; [assumption|]); intros d Hd; rewrite od_dd; [apply A3, Hd|rewrite Ed; apply B3, Hd].
Qed.
Lemma sames_count : fineish = false -> S (length sames) = cnt (fun x => Z.eqb (nl x) lev) (around o).
Proof using Vg NP NS W Bt ML Ha Hc.
  intros Hn. unfold cnt. rewrite <- (map_length entry_dir sames). change (S (length (map entry_dir sames))) with (length ((0, 0, 0) :: map entry_dir sames)). apply Permutation_length. apply NoDup_Permutation.
  - constructor.
    + intros H. apply in_map_iff in H as (e & E0 & He). apply (in_sames Hn) in He as (He & _). destruct (entry_dir_ok g Vg t W ml a Ha e He) as (Ok & _). apply (okdir_odir g Vg) in Ok as [_ (d & Hd & Hx)]. apply Hx. rewrite E0. destruct d as [|[|d]]; reflexivity.
    + apply NoDup_map_on; [apply NoDup_sames|]. intros e1 e2 H1 H2 Ed. apply (in_sames Hn) in H1 as (H1 & L1 & _), H2 as (H2 & L2 & _). apply same_dir_inj; assumption.
  - apply NoDup_filter, NoDup_around.
  - intros x. rewrite filter_In, Z.eqb_eq. split.
    + intros [<-|H].
      * split; [|apply nl_zero]. apply (proj2 (in_around_of g o _ Od)). intros d Hd. left. destruct d as [|[|d]]; reflexivity.
      * apply in_map_iff in H as (e & <- & He). apply (in_sames Hn) in He as (He & Hl & Hf). split; [apply fits_around, Hf|]. apply (same_level_of g Vg NP NS t W Bt ml ML a Ha e He Hl).
    + intros [H1 H2]. destruct (odir_cases g Vg x (around_odir g o x Od H1)) as [->|Ok]; [left; reflexivity|right]. destruct (same_entry g Vg NP NS t W Bt ml ML a Ha x Ok H2) as (e & He & Ed & (Hl & _)). apply in_map_iff. exists e. split; [exact Ed|]. apply (in_sames Hn). split; [exact He|]. split; [exact Hl|]. apply fits_around. rewrite Ed. exact H1.
Qed.
Lemma factor_same : fineish = false -> factor g Bz t a c p = (/ INR (S (length sames)))%R.
Proof using Vg NP NS W Bt ML Ha Hc.
  intros Hn. rewrite (sames_count Hn). unfold factor. pose proof Hn as Hn'. unfold fineish in Hn'. destruct nz_cases as [N|[N|N]]; rewrite N; cbn [Nat.eqb].
  - rewrite (around_zero N). unfold cnt. cbn [filter]. rewrite nl_zero, Z.eqb_refl. cbn. lra.
  - rewrite (cnt_perm _ _ _ (around_one N)). unfold cnt. cbn [filter]. rewrite nl_zero, Z.eqb_refl. rewrite (existsb_perm _ _ _ (around_one N)) in Hn'. cbn [existsb] in Hn'. apply orb_false_elim in Hn' as [_ Hn']. apply orb_false_elim in Hn' as [Hn' _]. apply Z.eqb_neq in Hn'. pose proof (nblevel_le g Vg NP NS t W Bt a Ha o Od) as L. destruct (Z.eqb_spec (nl o) lev) as [X|X]; cbn [length]; [reflexivity|]. destruct (Z.ltb_spec lev (nl o)); [lia|]. cbn; lra.
  - pose proof (nedge_ok g Vg NP NS t W Bt a Ha o Od) as X. assert (Y : edge_flag g t a o = true). { apply (flag_iff g Vg NP NS t W Bt a Ha o Od). intros x H1 H2. assert (Z0 : existsb (fun x => Z.eqb (nl x) (lev + 1)) (around o) = true) by (apply existsb_exists; exists x; split; [exact H1|apply Z.eqb_eq, H2]). congruence. }
    rewrite Y in X. rewrite X. destruct (Nat.eqb_spec (cnt (fun o' => Z.eqb (nl o') lev) (around o)) 1) as [Z0|Z0]; [rewrite Z0; cbn; lra|reflexivity].
Qed.
Lemma copies_all : fineish = false -> lists_all ((a, p) :: map (fun e => (n_loc e, same_pos Bz p e)) sames) (copy g Bz bs c a p).
Proof using Vg NP NS W Bt ML FT Ha Hc Hp.
  intros Hn. pose proof D13 as V. assert (Inj : forall e1 e2, E a e1 -> E a e2 -> fits g Bz (entry_dir e1) c p -> fits g Bz (entry_dir e2) c p -> same_pos Bz p e1 = same_pos Bz p e2 -> entry_dir e1 = entry_dir e2).
  { intros e1 e2 _ _ F1 F2 Eq. apply dirt_ext. intros d Hd. destruct (Nat.lt_ge_cases d dim) as [L|L].
    - assert (X : index (same_pos Bz p e1) d = index (same_pos Bz p e2) d) by (rewrite Eq; reflexivity). unfold same_pos in X. rewrite !index_mv in X by exact Hd. unfold sh in X. pose proof (nn2 g Vg ml Bz FT d L). nia.
    - rewrite (proj2 (fits_odir g Bz c p Hc _ F1) d L Hd), (proj2 (fits_odir g Bz c p Hc _ F2) d L Hd). reflexivity. }
  split.
  - constructor.
    + intros H. apply in_map_iff in H as (e & E0 & He). apply (in_sames Hn) in He as (He & Hl & Hf). injection E0 as E1 E2. destruct (entry_dir_ok g Vg t W ml a Ha e He) as (Ok & _). apply (okdir_odir g Vg) in Ok as [[_ O2] (d & Hd & Hx)]. destruct (Nat.lt_ge_cases d dim) as [L|L]; [|apply Hx, O2; assumption].
      assert (X : index (same_pos Bz p e) d = index p d) by (rewrite E2; reflexivity). unfold same_pos in X. rewrite index_mv in X by exact Hd. unfold sh in X. pose proof (nn2 g Vg ml Bz FT d L). nia.
    + apply NoDup_map_on; [apply NoDup_sames|]. intros e1 e2 H1 H2 Eq. apply (in_sames Hn) in H1 as (H1 & L1 & F1), H2 as (H2 & L2 & F2). apply (f_equal snd) in Eq. cbn [snd] in Eq. apply same_dir_inj; try assumption. apply Inj; assumption.
  - intros x. split.
    + intros [<-|H].
      * split; [exact Ha|]. split; [reflexivity|]. split; [exact Hp|]. intros d Hd. exists 0. split; [left; reflexivity|]. cbn [fst snd]. lia.
      * apply in_map_iff in H as (e & <- & He). apply (in_sames Hn) in He as (He & Hl & Hf). apply (same_sound g Vg NP NS t W Bt ml ML Bz FT a Ha c p Hc Hp e He Hl Hf).
    + intros H. destruct (same_complete g Vg NP NS t W Bt ml ML Bz FT a Ha c p Hc Hp x H) as [->|(e & He & Hl & Hf & ->)]; [left; reflexivity|right]. apply in_map_iff. exists e. split; [reflexivity|]. apply (in_sames Hn). tauto.
Qed.

(** ** Finer blocks at the edge *)
Lemma in_fines : forall e, In e fines <-> E a e /\ level (n_loc e) = S (level a) /\ fits g Bz (entry_dir e) c p /\ covers g Bz c p e.
Proof using Vg NP NS W Bt ML FT Ha Hc Hp.
  intros e. unfold Emf_Proofs3.fines. rewrite filter_In. unfold fineb. rewrite andb_true_iff, Nat.eqb_eq. split.
  - intros [He [H1 H2]]. destruct (entry_odir g Vg NP NS t W Bt ml ML a e Ha He) as [_ Oe]. apply (entries_in g Vg NP NS t W Bt ml ML a Ha) in He as [He _]. apply (finpos_iff g Vg ml Bz FT c p Hc Hp e Oe) in H2. tauto.
  - intros (He & Hl & Hf & Hcv). pose proof (in_entries e He Hf) as Hi. split; [exact Hi|]. split; [exact Hl|]. destruct (entry_odir g Vg NP NS t W Bt ml ML a e Ha Hi) as [_ Oe]. apply (finpos_iff g Vg ml Bz FT c p Hc Hp e Oe). tauto.
Qed.
Lemma NoDup_fines : NoDup fines.
Proof using Vg NP NS W Bt ML Ha. apply NoDup_filter, (entries_in g Vg NP NS t W Bt ml ML a Ha). Qed.
Lemma fines_fineish : forall e, In e fines -> fineish = true.
Proof using Vg NP NS W Bt ML FT Ha Hc Hp.
  intros e He. apply in_fines in He as (He & Hl & Hf & _). unfold fineish. apply existsb_exists. exists (entry_dir e). split; [apply fits_around, Hf|]. apply Z.eqb_eq. apply (finer_level_of g Vg NP NS t W Bt ml ML a Ha e He Hl).
Qed.
Lemma piece_inj : forall e1 e2 x, In e1 fines -> In e2 fines -> In x (pieces g Bz c p e1) -> In x (pieces g Bz c p e2) -> e1 = e2.
Proof using Vg NP NS W Bt ML FT Ha Hc Hp.
  pose proof D13 as V. intros e1 e2 [b q] H1 H2 I1 I2. apply in_fines in H1 as (H1 & L1 & F1 & _), H2 as (H2 & L2 & F2 & _).
      assert (Q : forall e, In (b, q) (pieces g Bz c p e) -> n_loc e = b /\ forall d, (d < 3)%nat -> exists r, index q d = index (fine_pos Bz p e) d + r /\ 0 <= r <= 1 /\ (d <> c -> r = 0)).
      { intros e [H|H]; [injection H as -> <-; split; [reflexivity|]; intros d Hd; exists 0; lia|]. destruct (Nat.ltb c dim); [|contradiction H]. destruct H as [H|[]]. injection H as -> <-. split; [reflexivity|]. intros d Hd. rewrite index_nx by exact Hd. destruct (Nat.eqb_spec d c); [exists 1; lia|exists 0; lia]. }
      destruct (Q e1 I1) as [B1 Q1]. destruct (Q e2 I2) as [B2 Q2]. destruct (finer_level_of g Vg NP NS t W Bt ml ML a Ha e1 H1 L1) as (_ & (_ & A01 & _) & Hm). destruct (finer_level_of g Vg NP NS t W Bt ml ML a Ha e2 H2 L2) as (_ & (_ & B01 & _) & _).
      apply (entry_unique g Vg NP t W Bt ml a Ha e1 e2 H1 H2); [|congruence]. apply dirt_ext. intros d Hd. destruct (Nat.lt_ge_cases d dim) as [L|L]; [|rewrite (proj2 (fits_odir g Bz c p Hc _ F1) d L Hd), (proj2 (fits_odir g Bz c p Hc _ F2) d L Hd); reflexivity].
      destruct (Q1 d Hd) as (r1 & E1 & R1 & R1'). destruct (Q2 d Hd) as (r2 & E2 & R2 & R2'). pose proof (fine_index g Vg ml Bz FT c p Hc Hp e1 d Hm L F1) as X1. pose proof (fine_index g Vg ml Bz FT c p Hc Hp e2 d Hm L F2) as X2. pose proof (nn2 g Vg ml Bz FT d L) as N2.
      assert (U : ue e1 d = ue e2 d). { assert (X : (ue e1 d - ue e2 d) * nn d = r1 - r2) by lia. clear -X N2 R1 R2. destruct (Z.lt_trichotomy (ue e1 d - ue e2 d) 0) as [Y|[Y|Y]]; [nia|lia|nia]. }
      unfold ue in U. rewrite !bitf_dd in U. pose proof (proj1 (fits_odir g Bz c p Hc _ F1) d). pose proof (proj1 (fits_odir g Bz c p Hc _ F2) d). specialize (A01 d). specialize (B01 d). destruct (Z.eqb_spec (dd (entry_dir e1) d) 0), (Z.eqb_spec (dd (entry_dir e2) d) 0), (Z.eqb_spec (dd (entry_dir e1) d) (-1)), (Z.eqb_spec (dd (entry_dir e2) d) (-1)); lia.
Qed.
Lemma pieces_all : lists_all (flat_map (pieces g Bz c p) fines) (part g Bz bs c a p).
Proof using Vg NP NS W Bt ML FT Ha Hc Hp.
  pose proof D13 as V. split.
  - apply NoDup_disjoint; [apply NoDup_fines| |].
    + intros e He. unfold pieces. destruct (Nat.ltb c dim); [|repeat constructor; cbn; tauto]. constructor; [|repeat constructor; cbn; tauto]. intros [H|[]]. apply (f_equal snd) in H. cbn [snd] in H. assert (X : index (nx c (fine_pos Bz p e)) c = index (fine_pos Bz p e) c) by (rewrite H; reflexivity). rewrite index_nx, Nat.eqb_refl in X by exact Hc. lia.
    + exact piece_inj.
  - intros x. rewrite in_flat_map. split.
    + intros (e & He & Hx). apply in_fines in He as (He & Hl & Hf & Hcv). apply (fine_sound g Vg NP NS t W Bt ml ML Bz FT a Ha c p Hc Hp e He Hl Hf Hcv x Hx).
    + intros H. destruct (fine_complete g Vg NP NS t W Bt ml ML Bz FT a Ha c p Hc Hp x H) as (e & He & Hl & Hf & Hcv & Hx). exists e. split; [apply in_fines; tauto|exact Hx].
Qed.
(** One finer block in every direction, unless the edge is in the middle of a face. *)
Definition mid (x : nat) : Prop := (x < dim)%nat /\ x <> c /\ sgd g Bz c p x = 0 /\ index p x - first x = nn x / 2.
Definition std (d : nat) : Z := if Nat.ltb d dim then if Z.ltb (index p d - first d) (nn d / 2) then 0 else 1 else 0.
Lemma half_of_mid : forall d, (d < dim)%nat -> index p d - first d = nn d / 2 -> d <> c -> mid d.
Proof using Vg FT Hc Hp.
  intros d L Hi N. pose proof D13 as V. split; [exact L|]. split; [exact N|]. split; [|exact Hi]. pose proof (nn2 g Vg ml Bz FT d L) as N2. assert (Y : 0 < nn d / 2 < nn d) by (split; [apply Z.div_str_pos; lia|apply Z.div_lt; lia]). destruct (dir_facts g Bz ml V FT c p d Hp ltac:(lia)) as [(A0 & A1 & A2 & A3 & A4 & A5 & A6 & A7 & A8)|(A0 & _)]; [|lia]. destruct (A8 (proj2 (Nat.eqb_neq _ _) N)) as [[Y1 Y2]|[[Y1 Y2]|[Y1 Y2]]]; lia.
Qed.
Lemma half_unique : forall e1 e2, In e1 fines -> In e2 fines -> forall d, (d < dim)%nat -> dd (entry_dir e1) d = 0 -> dd (entry_dir e2) d = 0 -> fsel e1 d = fsel e2 d \/ mid d.
Proof using Vg NP NS W Bt ML FT Ha Hc Hp.
  intros e1 e2 H1 H2 d Hd Z1 Z2. apply in_fines in H1 as (H1 & L1 & F1 & C1), H2 as (H2 & L2 & F2 & C2). destruct (finer_level_of g Vg NP NS t W Bt ml ML a Ha e1 H1 L1) as (_ & (_ & A01 & _) & _). destruct (finer_level_of g Vg NP NS t W Bt ml ML a Ha e2 H2 L2) as (_ & (_ & B01 & _) & _).
  specialize (C1 d Hd Z1). specialize (C2 d Hd Z2). destruct (A01 d) as [Y1|Y1], (B01 d) as [Y2|Y2]; rewrite Y1, Y2 in *; cbn [Z.eqb] in C1, C2; try (left; reflexivity); right; (destruct (Nat.eqb_spec d c); [lia|]; apply half_of_mid; [exact Hd|lia|assumption]).
Qed.
Lemma fine_at : forall x h, In x (around o) -> nl x = lev + 1 -> (forall d, h d = 0 \/ h d = 1) -> (forall d, (dim <= d)%nat -> (d < 3)%nat -> h d = 0) -> (forall d, (d < dim)%nat -> if Z.eqb (h d) 0 then index p d - first d < nn d / 2 + (if Nat.eqb d c then 0 else 1) else nn d / 2 <= index p d - first d) ->
  exists e, In e fines /\ entry_dir e = x /\ forall d, (d < 3)%nat -> dd x d = 0 -> fsel e d = h d.
Proof using Vg NP NS W Bt ML FT Ha Hc Hp.
  intros x h Hx Hl H01 H0 Hh. pose proof D13 as V. destruct (odir_cases g Vg x (around_odir g o x Od Hx)) as [->|Ok]; [rewrite nl_zero in Hl; lia|]. destruct (finer_entry g Vg NP NS t W Bt ml ML a Ha x h Ok Hl H01 H0) as (e & He & Ed & Le & Hs). exists e. split; [|split; [exact Ed|exact Hs]]. apply in_fines. split; [exact He|]. split; [exact Le|]. rewrite Ed. split; [apply fits_around, Hx|]. intros d Hd Zd. rewrite Ed in Zd. rewrite (Hs d ltac:(lia) Zd). apply Hh, Hd.
Qed.
Lemma std_ok : (forall d, std d = 0 \/ std d = 1) /\ (forall d, (dim <= d)%nat -> (d < 3)%nat -> std d = 0) /\ (forall d, (d < dim)%nat -> if Z.eqb (std d) 0 then index p d - first d < nn d / 2 + (if Nat.eqb d c then 0 else 1) else nn d / 2 <= index p d - first d).
Proof using .
  clear Hp Hc. split; [|split].
  - intros d. unfold std. destruct (Nat.ltb d dim); [destruct (Z.ltb _ _)|]; lia.
  - intros d Hd _. unfold std. rewrite (proj2 (Nat.ltb_ge _ _) Hd). reflexivity.
  - intros d Hd. unfold std. rewrite (proj2 (Nat.ltb_lt _ _) Hd). destruct (Z.ltb_spec (index p d - first d) (nn d / 2)); cbn [Z.eqb]; [destruct (Nat.eqb d c)|]; lia.
Qed.
Lemma fines_count : (forall d, ~ mid d) -> length fines = cnt (fun x => Z.eqb (nl x) (lev + 1)) (around o).
Proof using Vg NP NS W Bt ML FT Ha Hc Hp.
  intros Hm. unfold cnt. rewrite <- (map_length entry_dir fines). apply Permutation_length. apply NoDup_Permutation; [|apply NoDup_filter, NoDup_around|].
  - apply NoDup_map_on; [apply NoDup_fines|]. intros e1 e2 I1 I2 Ed. pose proof I1 as H1. pose proof I2 as H2. apply in_fines in H1 as (H1 & L1 & F1 & C1), H2 as (H2 & L2 & F2 & C2). apply (finer_unique g Vg NP NS t W Bt ml ML a Ha e1 e2 H1 H2 L1 L2 Ed). intros d Hd Zd. destruct (half_unique e1 e2 I1 I2 d Hd Zd ltac:(rewrite <- Ed; exact Zd)) as [X|X]; [exact X|contradiction (Hm d)].
  - intros x. rewrite filter_In, Z.eqb_eq. split.
    + intros H. apply in_map_iff in H as (e & <- & He). apply in_fines in He as (He & Hl & Hf & _). split; [apply fits_around, Hf|]. apply (finer_level_of g Vg NP NS t W Bt ml ML a Ha e He Hl).
    + intros [H1 H2]. destruct std_ok as (S1 & S2 & S3). destruct (fine_at x std H1 H2 S1 S2 S3) as (e & He & Ed & _). apply in_map_iff. exists e. split; assumption.
Qed.
Lemma fines_two : nonzeros o = 1%nat -> nl o = lev + 1 -> mid (across o c) -> length fines = 2%nat.
Proof using Vg NP NS W Bt ML FT Ha Hc Hp.
  intros N1 Hl (M1 & M2 & M3 & M4). destruct (across_spec c Hc o N1 (sg_along g Bz c p Hc)) as (X1 & X2 & X3 & X4). set (x := across o c) in *.
  assert (Do : forall e, In e fines -> entry_dir e = o). { intros e He. apply in_fines in He as (He & Le & Hf & _). apply fits_around in Hf. apply (Permutation_in _ (around_one N1)) in Hf. destruct Hf as [Hf|[Hf|[]]]; [|symmetry; exact Hf]. exfalso. destruct (finer_level_of g Vg NP NS t W Bt ml ML a Ha e He Le) as (Y & _). rewrite <- Hf, nl_zero in Y. lia. }
  change 2%nat with (length [0; 1]). rewrite <- (map_length (fun e => fsel e x) fines). apply Permutation_length. apply NoDup_Permutation; [|repeat constructor; cbn; lia|].
  - apply NoDup_map_on; [apply NoDup_fines|]. intros e1 e2 I1 I2 Ef. pose proof I1 as H1. pose proof I2 as H2. apply in_fines in H1 as (H1 & L1 & F1 & C1), H2 as (H2 & L2 & F2 & C2). apply (finer_unique g Vg NP NS t W Bt ml ML a Ha e1 e2 H1 H2 L1 L2); [rewrite (Do e1 I1), (Do e2 I2); reflexivity|]. intros d Hd Zd. destruct (half_unique e1 e2 I1 I2 d Hd Zd) as [X|(Y1 & Y2 & Y3 & Y4)]; [rewrite (Do e2 I2), <- (Do e1 I1); exact Zd|exact X|]. destruct (Nat.eq_dec d x) as [->|N]; [exact Ef|]. rewrite (Do e1 I1) in Zd. pose proof D13. contradiction (X4 d ltac:(lia) Y2 N).
  - intros f. split.
    + intros H. apply in_map_iff in H as (e & <- & He). apply in_fines in He as (He & Le & _). destruct (finer_level_of g Vg NP NS t W Bt ml ML a Ha e He Le) as (_ & (_ & A01 & _) & _). cbn. specialize (A01 x). lia.
    + intros H. assert (Hf : f = 0 \/ f = 1) by (cbn in H; lia). destruct std_ok as (S1 & S2 & S3). destruct (fine_at o (fun d => if Nat.eqb d x then f else std d)) as (e & He & Ed & Es).
      * apply (proj2 (in_around_of g o o Od)). intros d Hd. right. reflexivity.
      * exact Hl.
      * intros d. destruct (Nat.eqb d x); [exact Hf|apply S1].
      * intros d Hd H3. destruct (Nat.eqb_spec d x); [lia|apply S2; assumption].
      * intros d Hd. destruct (Nat.eqb_spec d x) as [->|N]; [|apply S3, Hd]. rewrite M4. destruct (Nat.eqb_spec x c); [contradiction|]. destruct (Z.eqb f 0); lia.
      * apply in_map_iff. exists e. split; [|exact He]. rewrite (Es x X1 X3), Nat.eqb_refl. reflexivity.
Qed.
Lemma factor_fine : fineish = true -> factor g Bz t a c p = (/ INR (length fines))%R /\ (0 < length fines)%nat.
Proof using Vg NP NS W Bt ML FT Ha Hc Hp.
  intros Hn. pose proof Hn as Hn'. unfold fineish in Hn'. pose proof D13 as V. split.
  2:{ apply existsb_exists in Hn' as (x & H1 & H2). apply Z.eqb_eq in H2. destruct std_ok as (S1 & S2 & S3). destruct (fine_at x std H1 H2 S1 S2 S3) as (e & He & _). destruct fines; [contradiction He|cbn; lia]. }
  unfold factor. destruct nz_cases as [N|[N|N]]; rewrite N; cbn [Nat.eqb].
  - exfalso. rewrite (around_zero N) in Hn'. cbn [existsb] in Hn'. rewrite nl_zero in Hn'. destruct (Z.eqb_spec lev (lev + 1)); [lia|discriminate Hn'].
  - rewrite (existsb_perm _ _ _ (around_one N)) in Hn'. cbn [existsb] in Hn'. rewrite nl_zero in Hn'. destruct (Z.eqb_spec lev (lev + 1)); [lia|]. cbn [orb] in Hn'. rewrite orb_false_r in Hn'. apply Z.eqb_eq in Hn'. rewrite Hn'. destruct (Z.eqb_spec (lev + 1) lev); [lia|]. destruct (Z.ltb_spec lev (lev + 1)); [|lia].
    destruct (across_spec c Hc o N (sg_along g Bz c p Hc)) as (X1 & X2 & X3 & X4). destruct (midb g Bz c p) eqn:Em; unfold midb in Em.
    + apply andb_prop in Em as [M1 M2]. apply Nat.ltb_lt in M1. apply Z.eqb_eq in M2. rewrite (fines_two N Hn'); [cbn; reflexivity|]. apply half_of_mid; [exact M1|lia|exact X2].
    + rewrite fines_count.
      * rewrite (cnt_perm _ _ _ (around_one N)). unfold cnt. cbn [filter]. rewrite nl_zero. destruct (Z.eqb_spec lev (lev + 1)); [lia|]. rewrite Hn', Z.eqb_refl. cbn. lra.
      * intros d (M1 & M2 & M3 & M4). assert (d = across o c) as ->. { destruct (Nat.eq_dec d (across o c)) as [X|X]; [exact X|]. exfalso. apply (X4 d ltac:(lia) M2 X). rewrite dd_sg by lia. exact M3. }
        apply (proj2 (Nat.ltb_lt _ _)) in M1. rewrite M1 in Em. cbn [andb] in Em. apply Z.eqb_neq in Em. lia.
  - assert (Fl : edge_flag g t a o = false). { destruct (edge_flag g t a o) eqn:Y; [|reflexivity]. exfalso. pose proof (proj1 (flag_iff g Vg NP NS t W Bt a Ha o Od) Y) as X. apply existsb_exists in Hn' as (x & H1 & H2). apply Z.eqb_eq in H2. exact (X x H1 H2). }
    pose proof (nedge_ok g Vg NP NS t W Bt a Ha o Od) as X. rewrite Fl in X. rewrite X, <- fines_count.
    + destruct (Nat.eqb_spec (length fines) 1) as [Z0|Z0]; [rewrite Z0; cbn; lra|reflexivity].
    + intros d (M1 & M2 & M3 & _). apply (two_others o c N Hc (sg_along g Bz c p Hc) d ltac:(lia) M2). rewrite dd_sg by lia. exact M3.
Qed.
End P.
