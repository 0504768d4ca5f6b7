(** Faces and cells of the exchange. *)
From Coq Require Import List Arith NArith ZArith Bool Lia Permutation.
From Verif Require Import Loc LB_Spec Tags_Model Tags_Spec Tags_Proofs AMR_Model AMR_Spec AMR_Proofs AMR_Proofs2 Tree_Model Tree_Spec Tree_Proofs1 Tree_Proofs2 Tree_Proofs3 Tree_Proofs4 Tree_Proofs5 Tree_Proofs6 Tree_Proofs7 Tree_Proofs8 Tree_Restart Tree_Proofs9 Tree_Proofs10 Nbr_Model Nbr_Spec Nbr_Proofs Nbr_Proofs2 Nbr_Proofs3 Buf_Model Gho_Model Gho_Spec Gho_Proofs Gho_Proofs2 Gho_Proofs3 Gho_Proofs4 Gho_Proofs5 Fgh_Model Fgh_Spec Fgh_Proofs.
Import ListNotations.
Local Open Scope Z_scope.

Lemma in_widen : forall drop act o r x, fst r <= snd r -> fst (widen drop act o r) <= x <= snd (widen drop act o r) -> fst r <= x <= snd r \/ (act = true /\ fst r <= x - 1 <= snd r).
Proof. intros drop [|] o r x N H; unfold widen in H; [|left; exact H]. cbn [fst snd] in H. destruct (drop && Z.ltb 0 o), (drop && Z.ltb o 0); lia. Qed.
Lemma widen_in : forall (drop act hi : bool) o r x, fst r <= x <= snd r -> (hi = true -> act = true) -> let y := if hi then x + 1 else x in
  fst (widen drop act o r) <= y <= snd (widen drop act o r) \/ (drop = true /\ act = true /\ ((0 < o /\ y = fst r) \/ (o < 0 /\ y = snd r + 1))).
Proof.
  intros drop act hi o r x H Ha y. unfold y, widen. destruct act; [|destruct hi; [discriminate (Ha eq_refl)|left; exact H]]. cbn [fst snd].
  destruct drop; cbn [andb]; [|left; destruct hi; lia]. destruct (Z.ltb_spec 0 o), (Z.ltb_spec o 0), hi; lia.
Qed.
Lemma od_off : forall e d, off e d = od (edir e) d.
Proof. intros e d. apply off_dir. Qed.
(** Faces have one direction. *)
Lemma face_single : forall e c d, n_type e = dtype (edir e) -> not_face e = false -> (c < 3)%nat -> (d < 3)%nat -> ox e c <> 0 -> d <> c -> ox e d = 0.
Proof.
  intros e c d Ht Hn Hc Hd Hx Hdc. unfold not_face in Hn. rewrite Ht in Hn. unfold dtype, nz, edir in Hn. destruct c as [|[|[|c]]], d as [|[|[|d]]]; try lia; cbn [ox] in *;
    destruct (Z.eqb_spec (n_o1 e) 0), (Z.eqb_spec (n_o2 e) 0), (Z.eqb_spec (n_o3 e) 0); cbn in Hn; try discriminate Hn; try assumption; contradiction.
Qed.
Lemma edge_other : forall e c, n_type e = dtype (edir e) -> not_face e = true -> (c < 3)%nat -> ox e c <> 0 -> exists d, (d < 3)%nat /\ d <> c /\ ox e d <> 0.
Proof.
  intros e c Ht Hn Hc Hx. unfold not_face in Hn. rewrite Ht in Hn. unfold dtype, nz, edir in Hn. destruct c as [|[|[|c]]]; try lia; cbn [ox] in *;
    destruct (Z.eqb_spec (n_o1 e) 0), (Z.eqb_spec (n_o2 e) 0), (Z.eqb_spec (n_o3 e) 0); cbn in Hn; try discriminate Hn; try contradiction;
    solve [exists 0%nat; split; [lia|split; [lia|assumption]]|exists 1%nat; split; [lia|split; [lia|assumption]]|exists 2%nat; split; [lia|split; [lia|assumption]]].
Qed.
Lemma opp_type : forall e e', n_type e = dtype (edir e) -> n_type e' = dtype (edir e') -> (forall d, ox e' d = - ox e d) -> not_face e' = not_face e.
Proof.
  intros e e' H H' Ho. unfold not_face. rewrite H, H'. unfold dtype, nz, edir. pose proof (Ho 0%nat) as H0. pose proof (Ho 1%nat) as H1. pose proof (Ho 2%nat) as H2. cbn [ox] in *. rewrite H0, H1, H2.
  assert (Q : forall z, Z.eqb (- z) 0 = Z.eqb z 0) by (intros z; destruct (Z.eqb_spec (- z) 0), (Z.eqb_spec z 0); lia). rewrite !Q. reflexivity.
Qed.

Section N.
Variable g : grid.
Hypothesis Vg : valid_grid g.
Hypothesis NP : no_pole g.
Hypothesis NS : no_shear g.
Variable t : tree.
Hypothesis W : wf g t.
Hypothesis Bt : B g t.
Variable ml : bool.
Hypothesis ML : declared g ml (blocks t).
Local Notation dim := (gdim g).
Local Notation E := (E g t ml).
Variable Bz : bsz.
Hypothesis FT : fitting g Bz ml.
Local Notation D13 := (dim13 g Vg).

Lemma etype : forall a e, In a (blocks t) -> E a e -> n_type e = dtype (edir e).
Proof using Vg W ML. intros a e Ha He. apply (entry_facts g Vg t W ml ML a e Ha He). Qed.
Lemma actv_dim : forall c, (c < 3)%nat -> actv Bz c = Nat.ltb c dim.
Proof using Vg FT.
  intros c Hc. destruct (Nat.ltb_spec c dim) as [H|H]; [apply (active_facts g Bz ml D13 FT c H)|apply (inactive_facts g Bz ml D13 FT c H Hc)].
Qed.
Definition fwm (a : loc) (e : nblock) (c : nat) (x : cell) : Prop :=
  if Nat.eqb (level (n_loc e)) (level a) then inbox (fset_same Bz ml e c) x else if Nat.ltb (level (n_loc e)) (level a) then False else inbox (fset_finer Bz e c) x.
Definition fwc (a : loc) (e : nblock) (c : nat) (x : cell) : Prop :=
  if Nat.eqb (level (n_loc e)) (level a) then False else if Nat.ltb (level (n_loc e)) (level a) then inbox (fset_coarser Bz a e c) x else False.
(** The cell boxes are not empty. *)
Lemma same_ne : forall e d, (d < 3)%nat -> okrange (ox e d) -> ((dim <= d)%nat -> ox e d = 0) -> fst (set_same Bz e d) <= snd (set_same Bz e d).
Proof using Vg FT.
  intros e d Hd Ho Z0. unfold set_same. destruct (Nat.lt_ge_cases d dim) as [Ha|Hi].
  - destruct (active_facts g Bz ml D13 FT d Ha) as (-> & -> & _ & _ & _ & _ & _ & _ & N1 & N2). destruct (Z.eqb_spec (ox e d) 0), (Z.ltb_spec 0 (ox e d)); cbn [fst snd]; lia.
  - destruct (inactive_facts g Bz ml D13 FT d Hi Hd) as (-> & -> & _). rewrite (Z0 Hi). cbn. lia.
Qed.
Lemma finer_ne : forall e d, ml = true -> (d < 3)%nat -> okrange (ox e d) -> ((dim <= d)%nat -> ox e d = 0) -> fst (set_finer Bz e d) <= snd (set_finer Bz e d).
Proof using Vg FT.
  intros e d Hm Hd Ho Z0. unfold set_finer. destruct (Nat.lt_ge_cases d dim) as [Ha|Hi].
  - destruct (active_facts g Bz ml D13 FT d Ha) as (-> & -> & _ & _ & -> & -> & _ & _ & N1 & N2). destruct (multi_facts g Bz ml D13 FT Hm d Ha) as (h & k & G1 & G2 & _ & _ & G3 & G4). rewrite G2, G1. destruct (Z.eqb_spec (ox e d) 0), (Z.eqb (fsel e d) 1), (Z.ltb_spec 0 (ox e d)); cbn [fst snd]; lia.
  - destruct (inactive_facts g Bz ml D13 FT d Hi Hd) as (-> & -> & _ & _ & -> & _). rewrite (Z0 Hi). cbn. lia.
Qed.
Lemma coarser_ne : forall l e d, ml = true -> (d < 3)%nat -> okrange (ox e d) -> ((dim <= d)%nat -> ox e d = 0) -> fst (set_coarser Bz l e d) <= snd (set_coarser Bz l e d).
Proof using Vg FT.
  intros l e d Hm Hd Ho Z0. unfold set_coarser. destruct (Nat.lt_ge_cases d dim) as [Ha|Hi].
  - destruct (active_facts g Bz ml D13 FT d Ha) as (_ & _ & -> & -> & -> & _). destruct (multi_facts g Bz ml D13 FT Hm d Ha) as (h & k & G1 & -> & _ & -> & G3 & G4). destruct (Z.eqb_spec (ox e d) 0), (Z.even (lx l d)), (Z.ltb_spec 0 (ox e d)); cbn [fst snd]; lia.
  - destruct (inactive_facts g Bz ml D13 FT d Hi Hd) as (_ & _ & -> & -> & -> & _). rewrite (Z0 Hi). cbn. lia.
Qed.
(** A box of faces and the box of cells it comes from. *)
Lemma box_cell : forall (q : nat -> rangez) (r : nat -> rangez) drop o c x, (c < 3)%nat -> (forall d, (d < 3)%nat -> fst (r d) <= snd (r d)) -> (forall d, (d < 3)%nat -> q d = if Nat.eqb d c then widen drop (actv Bz d) o (r d) else r d) ->
  inbox q x -> exists z hi, (forall d, cell_face z c hi d = x d) /\ (hi = true -> (c < dim)%nat) /\ inbox r z.
Proof using Vg FT.
  intros q r drop o c x Hc Ne Hq Hx. pose proof (Hx c Hc) as Hxc. rewrite (Hq c Hc), Nat.eqb_refl in Hxc. destruct (in_widen _ _ _ _ _ (Ne c Hc) Hxc) as [H|[Ha H]].
  - exists x, false. split; [reflexivity|]. split; [intros X; discriminate X|]. intros d Hd. destruct (Nat.eq_dec d c) as [->|Hdc]; [exact H|]. specialize (Hx d Hd). rewrite (Hq d Hd) in Hx. apply Nat.eqb_neq in Hdc. rewrite Hdc in Hx. exact Hx.
  - exists (down x c), true. split; [intros d; unfold cell_face, down; cbn [andb]; destruct (Nat.eqb d c); lia|]. split; [intros _; rewrite (actv_dim c Hc) in Ha; apply Nat.ltb_lt, Ha|].
    intros d Hd. unfold down. destruct (Nat.eqb_spec d c) as [->|Hdc]; [exact H|]. specialize (Hx d Hd). rewrite (Hq d Hd) in Hx. apply Nat.eqb_neq in Hdc. rewrite Hdc in Hx. exact Hx.
Qed.
Lemma cell_box : forall (q : nat -> rangez) (r : nat -> rangez) drop o c z hi, (c < 3)%nat -> (forall d, (d < 3)%nat -> q d = if Nat.eqb d c then widen drop (actv Bz d) o (r d) else r d) -> inbox r z -> (hi = true -> (c < dim)%nat) ->
  inbox q (cell_face z c hi) \/ (drop = true /\ (c < dim)%nat /\ ((0 < o /\ cell_face z c hi c = fst (r c)) \/ (o < 0 /\ cell_face z c hi c = snd (r c) + 1))).
Proof using Vg FT.
  intros q r drop o c z hi Hc Hq Hz Hh.
  assert (Ha : hi = true -> actv Bz c = true) by (intros X; rewrite (actv_dim c Hc); apply Nat.ltb_lt, Hh, X).
  assert (Ec : cell_face z c hi c = if hi then z c + 1 else z c) by (unfold cell_face; rewrite Nat.eqb_refl; destruct hi; reflexivity). rewrite Ec.
  destruct (widen_in drop (actv Bz c) hi o (r c) (z c) (Hz c Hc) Ha) as [H|(H1 & H2 & H3)].
  - left. intros d Hd. rewrite (Hq d Hd). destruct (Nat.eqb_spec d c) as [->|Hdc]; [rewrite Ec; exact H|]. unfold cell_face. apply Nat.eqb_neq in Hdc. rewrite Hdc, andb_false_r. apply Hz, Hd.
  - right. split; [exact H1|]. split; [|exact H3]. rewrite (actv_dim c Hc) in H2. apply Nat.ltb_lt, H2.
Qed.
Lemma fwm_cell : forall a e c x, In a (blocks t) -> E a e -> (c < 3)%nat -> fwm a e c x -> exists z hi, (forall d, cell_face z c hi d = x d) /\ (hi = true -> (c < dim)%nat) /\ wm Bz a e z.
Proof using Vg NP NS W Bt ML FT.
  intros a e c x Ha He Hc Hx. destruct (entry_dirs g Vg NP t W Bt ml ML a e Ha He) as [O1 O2]. unfold fwm, wm in *.
  destruct (kinds g Vg NP NS t W Bt ml ML a e Ha He) as [[L _]|[[Hm (L & _)]|[Hm (L & _)]]].
  - rewrite L, Nat.eqb_refl in *. apply (box_cell (fset_same Bz ml e c) (set_same Bz e) (drops ml e) (ox e c) c x Hc (fun d Hd => same_ne e d Hd (O1 d) (fun H => O2 d H Hd))); [|exact Hx].
    intros d Hd. rewrite (fset_same_widen g Bz ml D13 FT e c d Hd (O1 d) (fun H => O2 d H Hd)). destruct (Nat.eqb_spec d c) as [->|]; reflexivity.
  - replace (Nat.eqb (level (n_loc e)) (level a)) with false in * by (symmetry; apply Nat.eqb_neq; lia). replace (Nat.ltb (level (n_loc e)) (level a)) with false in * by (symmetry; apply Nat.ltb_ge; lia).
    apply (box_cell (fset_finer Bz e c) (set_finer Bz e) (drops true e) (ox e c) c x Hc (fun d Hd => finer_ne e d Hm Hd (O1 d) (fun H => O2 d H Hd))); [|exact Hx].
    intros d Hd. rewrite (fset_finer_widen g Bz ml D13 FT e c d Hd (O1 d) (fun H => O2 d H Hd)). destruct (Nat.eqb_spec d c) as [->|]; reflexivity.
  - exfalso. replace (Nat.eqb (level (n_loc e)) (level a)) with false in * by (symmetry; apply Nat.eqb_neq; lia). replace (Nat.ltb (level (n_loc e)) (level a)) with true in * by (symmetry; apply Nat.ltb_lt; lia). exact Hx.
Qed.
Lemma fwc_cell : forall a e c x, In a (blocks t) -> E a e -> (c < 3)%nat -> fwc a e c x -> exists z hi, (forall d, cell_face z c hi d = x d) /\ (hi = true -> (c < dim)%nat) /\ wc Bz a e z.
Proof using Vg NP NS W Bt ML FT.
  intros a e c x Ha He Hc Hx. destruct (entry_dirs g Vg NP t W Bt ml ML a e Ha He) as [O1 O2]. unfold fwc, wc in *.
  destruct (kinds g Vg NP NS t W Bt ml ML a e Ha He) as [[L _]|[[Hm (L & _)]|[Hm (L & _)]]].
  - rewrite L, Nat.eqb_refl in *. contradiction.
  - replace (Nat.eqb (level (n_loc e)) (level a)) with false in * by (symmetry; apply Nat.eqb_neq; lia). replace (Nat.ltb (level (n_loc e)) (level a)) with false in * by (symmetry; apply Nat.ltb_ge; lia). contradiction.
  - replace (Nat.eqb (level (n_loc e)) (level a)) with false in * by (symmetry; apply Nat.eqb_neq; lia). replace (Nat.ltb (level (n_loc e)) (level a)) with true in * by (symmetry; apply Nat.ltb_lt; lia).
    apply (box_cell (fset_coarser Bz a e c) (set_coarser Bz a e) false (ox e c) c x Hc (fun d Hd => coarser_ne a e d Hm Hd (O1 d) (fun H => O2 d H Hd))); [|exact Hx].
    intros d Hd. rewrite (fset_coarser_widen g Bz ml D13 FT a e c d Hd (O1 d) (fun H => O2 d H Hd)). destruct (Nat.eqb_spec d c) as [->|]; reflexivity.
Qed.
Lemma cell_fwc : forall a e c z hi, In a (blocks t) -> E a e -> (c < 3)%nat -> wc Bz a e z -> (hi = true -> (c < dim)%nat) -> fwc a e c (cell_face z c hi).
Proof using Vg NP NS W Bt ML FT.
  intros a e c z hi Ha He Hc Hz Hh. destruct (entry_dirs g Vg NP t W Bt ml ML a e Ha He) as [O1 O2]. unfold fwc, wc in *. destruct (Nat.eqb _ _); [exact Hz|]. destruct (Nat.ltb _ _); [|exact Hz].
  destruct (cell_box (fset_coarser Bz a e c) (set_coarser Bz a e) false (ox e c) c z hi Hc) as [H|(X & _)]; [|exact Hz|exact Hh|exact H|discriminate X].
  intros d Hd. rewrite (fset_coarser_widen g Bz ml D13 FT a e c d Hd (O1 d) (fun H => O2 d H Hd)). destruct (Nat.eqb_spec d c) as [->|]; reflexivity.
Qed.
(** Faces on the boundary of the block may be left out. *)
Lemma cell_fwm : forall a e c z hi, In a (blocks t) -> E a e -> (c < 3)%nat -> wm Bz a e z -> (hi = true -> (c < dim)%nat) ->
  fwm a e c (cell_face z c hi) \/ ((ml = false \/ not_face e = false) /\ (c < dim)%nat /\ ((0 < ox e c /\ cell_face z c hi c = first Bz dim c + size Bz dim false c) \/ (ox e c < 0 /\ cell_face z c hi c = first Bz dim c))).
Proof using Vg NP NS W Bt ML FT.
  intros a e c z hi Ha He Hc Hz Hh. destruct (entry_dirs g Vg NP t W Bt ml ML a e Ha He) as [O1 O2]. unfold fwm, wm in *. destruct (Nat.eqb (level (n_loc e)) (level a)) eqn:El.
  - destruct (cell_box (fset_same Bz ml e c) (set_same Bz e) (drops ml e) (ox e c) c z hi Hc) as [H|(X & Hd & Y)]; [|exact Hz|exact Hh|left; exact H|].
    { intros d Hd. rewrite (fset_same_widen g Bz ml D13 FT e c d Hd (O1 d) (fun H => O2 d H Hd)). destruct (Nat.eqb_spec d c) as [->|]; reflexivity. }
    right. split; [unfold drops in X; apply negb_true_iff, andb_false_iff in X; exact X|]. split; [exact Hd|]. destruct (active_facts g Bz ml D13 FT c Hd) as (E1 & E2 & _ & _ & _ & _ & E3 & E4 & _). rewrite E3, E4. unfold set_same in Y. rewrite E1, E2 in Y.
    destruct (Z.eqb_spec (ox e c) 0), (Z.ltb_spec 0 (ox e c)); cbn [fst snd] in Y; lia.
  - destruct (Nat.ltb _ _) eqn:Lt; [contradiction|].
    destruct (cell_box (fset_finer Bz e c) (set_finer Bz e) (drops true e) (ox e c) c z hi Hc) as [H|(X & Hd & Y)]; [|exact Hz|exact Hh|left; exact H|].
    { intros d Hd. rewrite (fset_finer_widen g Bz ml D13 FT e c d Hd (O1 d) (fun H => O2 d H Hd)). destruct (Nat.eqb_spec d c) as [->|]; reflexivity. }
    right. split; [right; unfold drops in X; cbn [andb] in X; apply negb_true_iff in X; exact X|]. split; [exact Hd|]. destruct (active_facts g Bz ml D13 FT c Hd) as (E1 & E2 & _ & _ & _ & _ & E3 & E4 & _). rewrite E3, E4. unfold set_finer in Y. rewrite E1, E2 in Y.
    destruct (Z.eqb_spec (ox e c) 0), (Z.ltb_spec 0 (ox e c)); cbn [fst snd] in Y; lia.
Qed.
(** In a missing direction only the first face is written. *)
Lemma fwm_zero : forall a e c x, In a (blocks t) -> E a e -> (dim <= c)%nat -> (c < 3)%nat -> fwm a e c x -> x c = 0.
Proof using Vg NP NS W Bt ML FT.
  intros a e c x Ha He Hi Hc Hx. destruct (fwm_cell a e c x Ha He Hc Hx) as (z & hi & Ez & Hh & Hw). destruct (wm_where g Vg NP NS t W Bt ml ML Bz FT a e z Ha He Hw) as [N _]. specialize (N c Hc). cbv zeta in N.
  destruct (inactive_facts g Bz ml D13 FT c Hi Hc) as (_ & _ & _ & _ & _ & _ & E3 & E4 & _). rewrite E3, E4 in N. replace (Nat.ltb c dim) with false in N by (symmetry; apply Nat.ltb_ge, Hi).
  destruct hi; [specialize (Hh eq_refl); lia|]. rewrite <- (Ez c). unfold cell_face. cbn [andb]. lia.
Qed.
Lemma fwc_zero : forall a e c x, In a (blocks t) -> E a e -> (dim <= c)%nat -> (c < 3)%nat -> fwc a e c x -> x c = 0.
Proof using Vg NP NS W Bt ML FT.
  intros a e c x Ha He Hi Hc Hx. destruct (fwc_cell a e c x Ha He Hc Hx) as (z & hi & Ez & Hh & Hw). pose proof (wc_where g Vg NP NS t W Bt ml ML Bz FT a e z Ha He Hw) as N. specialize (N c Hc). cbv zeta in N.
  destruct (inactive_facts g Bz ml D13 FT c Hi Hc) as (_ & _ & _ & _ & _ & _ & E3 & E4 & _). rewrite E3, E4 in N. replace (Nat.ltb c dim) with false in N by (symmetry; apply Nat.ltb_ge, Hi).
  destruct hi; [specialize (Hh eq_refl); lia|]. rewrite <- (Ez c). unfold cell_face. cbn [andb]. lia.
Qed.
(** Faces of a pair of cells at the same place. *)
Lemma face_place : forall lev a (ha : bool) z b (hb : bool) y c hi, (hi = true -> (c < dim)%nat) -> same_place g Bz lev a ha z b hb y -> same_place g Bz lev a ha (cell_face z c hi) b hb (cell_face y c hi).
Proof using . intros lev a ha z b hb y c hi Hh P d Hd. destruct (P d Hd) as (s & S1 & S2). exists s. split; [exact S1|]. unfold cell_face. destruct (hi && Nat.eqb d c); lia. Qed.
Lemma face_own : forall h y c hi, (hi = true -> (c < dim)%nat) -> own Bz dim h y -> own_face Bz dim h c (cell_face y c hi).
Proof using .
  intros h y c hi Hh O d Hd. specialize (O d Hd). unfold cell_face. destruct hi; cbn [andb].
  - specialize (Hh eq_refl). replace (Nat.ltb c dim) with true by (symmetry; apply Nat.ltb_lt, Hh). destruct (Nat.eqb d c); cbn [andb]; lia.
  - destruct (Nat.eqb d c && Nat.ltb c dim); lia.
Qed.
Lemma own_face_cell : forall h y c, (c < 3)%nat -> (h = true -> ml = true) -> own_face Bz dim h c y -> exists z hi, (forall d, cell_face z c hi d = y d) /\ (hi = true -> (c < dim)%nat) /\ own Bz dim h z.
Proof using Vg FT.
  intros h y c Hc Hm O. pose proof (O c Hc) as Oc. rewrite Nat.eqb_refl in Oc. cbn [andb] in Oc. destruct (Nat.ltb_spec c dim) as [Hd|Hd].
  - replace (Nat.ltb c dim) with true in O by (symmetry; apply Nat.ltb_lt, Hd).
    assert (O' : forall d, (d < 3)%nat -> d <> c -> first Bz dim d <= y d < first Bz dim d + size Bz dim h d). { intros d Hd3 Hn. specialize (O d Hd3). apply Nat.eqb_neq in Hn. rewrite Hn in O. cbn [andb] in O. lia. }
    pose proof (size_pos g Vg ml Bz FT h c Hc Hm) as Sp. destruct (Z_lt_dec (y c) (first Bz dim c + size Bz dim h c)) as [L|L].
    + exists y, false. split; [reflexivity|]. split; [intros X; discriminate X|]. intros d Hd3. destruct (Nat.eq_dec d c) as [E0|E0]; [subst d; lia|apply O'; assumption].
    + exists (down y c), true. split; [intros d; unfold cell_face, down; cbn [andb]; destruct (Nat.eqb d c); lia|]. split; [intros _; exact Hd|]. intros d Hd3. unfold down. destruct (Nat.eq_dec d c) as [E0|E0]; [subst d; rewrite Nat.eqb_refl; lia|]. specialize (O' d Hd3 E0). apply Nat.eqb_neq in E0. rewrite E0. exact O'.
  - exists y, false. split; [reflexivity|]. split; [intros X; discriminate X|]. intros d Hd3. specialize (O d Hd3). replace (Nat.ltb c dim) with false in O by (symmetry; apply Nat.ltb_ge, Hd). rewrite andb_false_r in O. lia.
Qed.
Lemma face_range : forall b (hb : bool) y lev c d, In b (blocks t) -> (hb = true -> ml = true) -> level b = (if hb then S lev else lev) -> (groot g <= lev)%nat -> (c < 3)%nat -> own_face Bz dim hb c y -> (d < 3)%nat -> (d < dim)%nat ->
  0 <= coord d b * size Bz dim hb d + (y d - first Bz dim d) <= gnrb g d * 2 ^ Z.of_nat (lev - groot g) * cells_in Bz d.
Proof using Vg W FT.
  intros b hb y lev c d Hb Hm L Hr Hc O Hd Hdd. destruct (own_face_cell hb y c Hc Hm O) as (z & hi & Ez & Hh & Oz). destruct (place_range g Vg t W ml Bz FT b hb z lev d Hb Hm L Hr Oz Hd) as [P|(Hi & _)]; [|lia].
  rewrite <- (Ez d). unfold cell_face. destruct (hi && Nat.eqb d c); lia.
Qed.
Lemma face_zero : forall b (hb : bool) y c d, In b (blocks t) -> own_face Bz dim hb c y -> (d < 3)%nat -> (dim <= d)%nat -> coord d b * size Bz dim hb d + (y d - first Bz dim d) = 0.
Proof using Vg W FT.
  intros b hb y c d Hb O Hd Hi. destruct (in_dom g t W b Hb) as [Db _]. destruct (Db d Hd) as (_ & _ & C0). rewrite (C0 Hi). specialize (O d Hd). destruct (inactive_facts g Bz ml D13 FT d Hi Hd) as (_ & _ & _ & _ & _ & _ & E3 & E4 & _). rewrite E3, E4 in *.
  destruct (Nat.eqb_spec d c) as [E0|E0]; cbn [andb] in O; [|lia]. destruct (Nat.ltb_spec c dim); lia.
Qed.
Lemma face_trans : forall lev a ha x b hb y b0 hb0 y0 c, In b (blocks t) -> In b0 (blocks t) -> (hb = true -> ml = true) -> (hb0 = true -> ml = true) -> level b = (if hb then S lev else lev) -> level b0 = (if hb0 then S lev else lev) -> (groot g <= lev)%nat ->
  (c < 3)%nat -> own_face Bz dim hb c y -> own_face Bz dim hb0 c y0 -> same_place g Bz lev a ha x b hb y -> same_place g Bz lev a ha x b0 hb0 y0 -> same_place g Bz lev b hb y b0 hb0 y0.
Proof using Vg W FT.
  intros lev a ha x b hb y b0 hb0 y0 c Hb Hb0 Hm Hm0 L L0 Hr Hc O O0 P P0 d Hd. destruct (Nat.lt_ge_cases d dim) as [Hdd|Hdd].
  - destruct (P d Hd) as (s & S1 & S2). destruct (P0 d Hd) as (s0 & S3 & S4). exists (s0 - s). split; [|lia].
    pose proof (face_range b hb y lev c d Hb Hm L Hr Hc O Hd Hdd) as R1. pose proof (face_range b0 hb0 y0 lev c d Hb0 Hm0 L0 Hr Hc O0 Hd Hdd) as R2.
    set (w := gnrb g d * 2 ^ Z.of_nat (lev - groot g) * cells_in Bz d) in *. set (p := coord d b * size Bz dim hb d + (y d - first Bz dim d)) in *. set (p0 := coord d b0 * size Bz dim hb0 d + (y0 d - first Bz dim d)) in *. clearbody w p p0.
    unfold period_shift in *. destruct S1 as [->|(Q1 & Q2 & S1)], S3 as [->|(Q3 & Q4 & S3)]; [left; lia|right; split; [exact Q3|split; [exact Q4|lia]]|right; split; [exact Q1|split; [exact Q2|lia]]|]. left. lia.
  - exists 0. split; [left; reflexivity|]. rewrite (face_zero b hb y c d Hb O Hd Hdd), (face_zero b0 hb0 y0 c d Hb0 O0 Hd Hdd). reflexivity.
Qed.
End N.
