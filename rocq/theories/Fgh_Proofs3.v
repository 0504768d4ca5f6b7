(** The exchange of faces as a whole. *)
From Coq Require Import List Arith NArith ZArith Bool Lia Permutation.
From Verif Require Import Loc LB_Spec Tags_Model Tags_Spec Tags_Proofs AMR_Model AMR_Spec AMR_Proofs AMR_Proofs2 Tree_Model Tree_Spec Tree_Proofs1 Tree_Proofs2 Tree_Proofs3 Tree_Proofs4 Tree_Proofs5 Tree_Proofs6 Tree_Proofs7 Tree_Proofs8 Tree_Restart Tree_Proofs9 Tree_Proofs10 Nbr_Model Nbr_Spec Nbr_Proofs Nbr_Proofs2 Nbr_Proofs3 Buf_Model Gho_Model Gho_Spec Gho_Proofs Gho_Proofs2 Gho_Proofs3 Gho_Proofs4 Gho_Proofs5 Fgh_Model Fgh_Spec Fgh_Proofs Fgh_Proofs2.
Import ListNotations.
Local Open Scope Z_scope.

Section N.
Variable g : grid.
Hypothesis Vg : valid_grid g.
Hypothesis NP : no_pole g.
Hypothesis NS : no_shear g.
Variable t : tree.
Hypothesis W : wf g t.
Hypothesis Bt : B g t.
Variable ml : bool.
Hypothesis ML : declared g ml (blocks t).
Local Notation dim := (gdim g).
Local Notation E := (E g t ml).
Variable Bz : bsz.
Hypothesis FT : fitting g Bz ml.
Local Notation D13 := (dim13 g Vg).
Local Notation fwm := (fwm ml Bz).
Local Notation fwc := (fwc Bz).

Lemma h_ml : forall b (h : bool) lev, In b (blocks t) -> level b = (if h then S lev else lev) -> (groot g <= lev)%nat -> h = true -> ml = true.
Proof using W ML. intros b h lev Hb L Hr ->. apply (finer_ml g t W ml ML b lev Hb L Hr). Qed.
Lemma cov : forall a x b (h : bool) y, In a (blocks t) -> In b (blocks t) -> near Bz dim false (ng Bz) x -> ~ own Bz dim false x -> level b = (if h then S (level a) else level a) -> own Bz dim h y -> same_place g Bz (level a) a false x b h y -> exists e, E a e /\ wm Bz a e x.
Proof using Vg NP NS W Bt ML FT.
  intros a x b h y Ha Hb N NO L O P. destruct (in_dom g t W a Ha) as [_ Ra]. destruct h.
  - apply (cov_finer g Vg NP NS t W Bt ml ML Bz FT a x b y (finer_ml g t W ml ML b (level a) Hb L Ra) Ha Hb N NO L O P).
  - apply (cov_same g Vg NP NS t W Bt ml ML Bz FT a x b y Ha Hb N NO L O P).
Qed.
(** Every face of a ghost cell that lies in such a block is written by some message, or is a face of the block itself. *)
Lemma cov_face : forall a z b (h : bool) y c hi, In a (blocks t) -> In b (blocks t) -> near Bz dim false (ng Bz) z -> ~ own Bz dim false z -> level b = (if h then S (level a) else level a) -> own Bz dim h y ->
  same_place g Bz (level a) a false z b h y -> (c < 3)%nat -> (hi = true -> (c < dim)%nat) -> (exists e, E a e /\ fwm a e c (cell_face z c hi)) \/ own_face Bz dim false c (cell_face z c hi).
Proof using Vg NP NS W Bt ML FT.
  intros a z b h y c hi Ha Hb N NO L O P Hc Hh. destruct (in_dom g t W a Ha) as [Da Ra]. destruct (cov a z b h y Ha Hb N NO L O P) as (e & He & Hw).
  destruct (cell_fwm g Vg NP NS t W Bt ml ML Bz FT a e c z hi Ha He Hc Hw Hh) as [H|(HD & Hd & HB)]; [left; exists e; split; assumption|].
  pose proof (wm_side g Vg NP NS t W Bt ml ML Bz FT a e z Ha He Hw) as WS. pose proof (etype g Vg t W ml ML a e Ha He) as Ht.
  assert (Oc : ox e c <> 0) by lia. destruct (active_facts g Bz ml D13 FT c Hd) as (_ & _ & _ & _ & _ & _ & E3 & E4 & N1 & N2).
  assert (HX : first Bz dim c <= cell_face z c hi c <= first Bz dim c + size Bz dim false c) by (rewrite E4 in *; lia).
  assert (Hcf : forall d, d <> c -> cell_face z c hi d = z d) by (intros d Hn; unfold cell_face; apply Nat.eqb_neq in Hn; rewrite Hn, andb_false_r; reflexivity).
  destruct (not_face e) eqn:Nf.
  - destruct HD as [Hml|X]; [|discriminate X]. left. destruct (edge_other e c Ht Nf Hc Oc) as (d0 & Hd0 & Hdc & Od0).
    set (z' := fun d => if Nat.eqb d c then (if Z.ltb 0 (ox e c) then first Bz dim c + size Bz dim false c - 1 else first Bz dim c) else z d). set (hi' := Z.ltb 0 (ox e c)).
    assert (Zc : z' c = if Z.ltb 0 (ox e c) then first Bz dim c + size Bz dim false c - 1 else first Bz dim c) by (unfold z'; rewrite Nat.eqb_refl; reflexivity).
    assert (Zo : forall d, d <> c -> z' d = z d) by (intros d Hn; unfold z'; apply Nat.eqb_neq in Hn; rewrite Hn; reflexivity).
    assert (Zr : first Bz dim c <= z' c < first Bz dim c + size Bz dim false c) by (rewrite Zc, E4; destruct (Z.ltb 0 (ox e c)); lia).
    assert (Eq : forall d, cell_face z c hi d = cell_face z' c hi' d).
    { intros d. destruct (Nat.eq_dec d c) as [->|Hn]; [|rewrite (Hcf d Hn); unfold cell_face; apply Nat.eqb_neq in Hn as Hn'; rewrite Hn', andb_false_r, (Zo d Hn); reflexivity].
      unfold cell_face at 2. rewrite Nat.eqb_refl, andb_true_r. rewrite Zc. unfold hi'. destruct (Z.ltb_spec 0 (ox e c)); lia. }
    assert (N' : near Bz dim false (ng Bz) z'). { intros d Hd3. cbv zeta. destruct (Nat.eq_dec d c) as [->|Hn]; [|rewrite (Zo d Hn); apply N, Hd3]. destruct (Nat.ltb c dim); lia. }
    assert (NO' : ~ own Bz dim false z'). { intros X. specialize (X d0 Hd0). rewrite (Zo d0 Hdc) in X. specialize (WS d0 Hd0). unfold side in WS. destruct (Z.ltb_spec (z d0) (first Bz dim d0)); [lia|]. destruct (Z.leb_spec (first Bz dim d0 + size Bz dim false d0) (z d0)); lia. }
    assert (I' : inside g Bz a z').
    { intros d Hdd. assert (Hd3 : (d < 3)%nat) by (pose proof D13; lia). destruct (active_facts g Bz ml D13 FT d Hdd) as (_ & _ & _ & _ & _ & _ & F3 & F4 & _). destruct (Nat.eq_dec d c) as [->|Hn].
      - exists 0. split; [left; reflexivity|]. assert (Oy : own Bz dim false (fun d => if Nat.eqb d c then z' c else first Bz dim d)).
        { intros d Hd4. destruct (Nat.eqb_spec d c) as [->|]; [exact Zr|]. pose proof (size_pos g Vg ml Bz FT false d Hd4 ltac:(intros X; discriminate X)). lia. }
        destruct (place_range g Vg t W ml Bz FT a false _ (level a) c Ha ltac:(intros X; discriminate X) eq_refl Ra Oy Hc) as [Q|(Q & _)]; [|lia]. rewrite Nat.eqb_refl, F3, F4 in Q. rewrite Z.add_0_r. exact Q.
      - destruct (P d Hd3) as (s & S1 & S2). exists s. split; [exact S1|]. rewrite F3, !F4 in S2. rewrite (Zo d Hn), <- S2.
        destruct (place_range g Vg t W ml Bz FT b h y (level a) d Hb (h_ml b h (level a) Hb L Ra) L Ra O Hd3) as [Q|(Q & _)]; [|lia]. rewrite F3, F4 in Q. exact Q. }
    destruct (complete g Vg NP NS t W Bt ml ML Bz FT a z' Ha N' NO' I') as (b' & y' & Hb' & [(L' & O' & P')|[(L' & _)|(L' & _)]]).
    + destruct (cov_same g Vg NP NS t W Bt ml ML Bz FT a z' b' y' Ha Hb' N' NO' L' O' P') as (e' & He' & Hw'). exists e'. split; [exact He'|].
      assert (Hh' : hi' = true -> (c < dim)%nat) by (intros _; exact Hd).
      pose proof (wm_side g Vg NP NS t W Bt ml ML Bz FT a e' z' Ha He' Hw' c Hc) as WS'. unfold side in WS'. destruct (Z.ltb_spec (z' c) (first Bz dim c)); [lia|]. destruct (Z.leb_spec (first Bz dim c + size Bz dim false c) (z' c)); [lia|].
      destruct (cell_fwm g Vg NP NS t W Bt ml ML Bz FT a e' c z' hi' Ha He' Hc Hw' Hh') as [H'|(_ & _ & X)]; [|lia].
      clear -H' Eq. unfold Fgh_Proofs2.fwm in *. destruct (Nat.eqb _ _); [|destruct (Nat.ltb _ _); [exact H'|]]; intros d Hd; rewrite Eq; apply H', Hd.
    + rewrite (finer_ml g t W ml ML b' (level a) Hb' L' Ra) in Hml. discriminate Hml.
    + destruct (in_dom g t W b' Hb') as [_ Rb']. rewrite (finer_ml g t W ml ML a (level b') Ha L' Rb') in Hml. discriminate Hml.
  - right. intros d Hd3. destruct (Nat.eq_dec d c) as [->|Hn].
    + rewrite Nat.eqb_refl. replace (Nat.ltb c dim) with true by (symmetry; apply Nat.ltb_lt, Hd). cbn [andb]. lia.
    + rewrite (Hcf d Hn). apply Nat.eqb_neq in Hn as Hn'. rewrite Hn'. cbn [andb]. specialize (WS d Hd3). rewrite (face_single e c d Ht Nf Hc Hd3 Oc Hn) in WS. unfold side in WS.
      destruct (Z.ltb_spec (z d) (first Bz dim d)); [discriminate WS|]. destruct (Z.leb_spec (first Bz dim d + size Bz dim false d) (z d)); [discriminate WS|]. lia.
Qed.
Lemma cov_face_coarse : forall a z b y c hi, In a (blocks t) -> In b (blocks t) -> near Bz dim true (coarse_ghosts Bz) z -> level a = S (level b) -> own Bz dim false y ->
  same_place g Bz (level b) a true z b false y -> (c < 3)%nat -> (hi = true -> (c < dim)%nat) -> exists e, E a e /\ fwc a e c (cell_face z c hi).
Proof using Vg NP NS W Bt ML FT.
  intros a z b y c hi Ha Hb N L O P Hc Hh. destruct (in_dom g t W b Hb) as [Db Rb]. pose proof (finer_ml g t W ml ML a (level b) Ha L Rb) as Hm. destruct (cov_coarser g Vg NP NS t W Bt ml ML Bz FT a z b y Hm Ha Hb N L O P) as (e & He & Hw).
  exists e. split; [exact He|]. apply (cell_fwc g Vg NP NS t W Bt ml ML Bz FT a e c z hi Ha He Hc Hw Hh).
Qed.
(** Faces written are not the block's own. *)
Lemma fwm_not_own : forall a e c x hi, In a (blocks t) -> E a e -> (c < 3)%nat -> own Bz dim false x -> ~ fwm a e c (cell_face x c hi).
Proof using Vg NP NS W Bt ML FT.
  intros a e c x hi Ha He Hc O Hf. destruct (fwm_cell g Vg NP NS t W Bt ml ML Bz FT a e c _ Ha He Hc Hf) as (z & hz & Ez & Hh & Hw). pose proof (wm_side g Vg NP NS t W Bt ml ML Bz FT a e z Ha He Hw) as WS. pose proof (etype g Vg t W ml ML a e Ha He) as Ht.
  destruct (entry_dirs g Vg NP t W Bt ml ML a e Ha He) as [O1 O2]. destruct (wm_where g Vg NP NS t W Bt ml ML Bz FT a e z Ha He Hw) as [Nz NOz].
  assert (Q : forall d, (d < 3)%nat -> d <> c -> ox e d = 0).
  { intros d Hd Hn. rewrite <- (WS d Hd). specialize (Ez d). specialize (O d Hd). unfold cell_face in Ez. apply Nat.eqb_neq in Hn. rewrite Hn, !andb_false_r in Ez. unfold side. rewrite Ez. destruct (Z.ltb_spec (x d) (first Bz dim d)); [lia|]. destruct (Z.leb_spec (first Bz dim d + size Bz dim false d) (x d)); lia. }
  assert (Nf : ox e c <> 0 /\ not_face e = false).
  { assert (Oc : ox e c <> 0). { intros Z0. apply NOz. intros d Hd. assert (ZZ : ox e d = 0) by (destruct (Nat.eq_dec d c) as [->|Hn]; [exact Z0|apply Q; assumption]). specialize (WS d Hd). rewrite ZZ in WS. unfold side in WS. destruct (Z.ltb_spec (z d) (first Bz dim d)); [discriminate WS|]. destruct (Z.leb_spec (first Bz dim d + size Bz dim false d) (z d)); [discriminate WS|]. lia. }
    split; [exact Oc|]. destruct (not_face e) eqn:Nf; [|reflexivity]. destruct (edge_other e c Ht Nf Hc Oc) as (d & Hd & Hn & X). contradiction (X (Q d Hd Hn)). }
  destruct Nf as [Oc Nf]. assert (Hd : (c < dim)%nat). { destruct (Nat.lt_ge_cases c dim); [assumption|]. contradiction (Oc (O2 c ltac:(assumption) Hc)). }
  destruct (active_facts g Bz ml D13 FT c Hd) as (E1 & E2 & _ & _ & Ea & _ & E3 & E4 & N1 & N2). specialize (O c Hc). rewrite E3, E4 in O.
  assert (R : ng Bz <= cell_face x c hi c <= ng Bz + cells_in Bz c) by (unfold cell_face; rewrite Nat.eqb_refl; destruct hi; cbn [andb]; lia).
  unfold Fgh_Proofs2.fwm in Hf. destruct (Nat.eqb _ _).
  - specialize (Hf c Hc). unfold fset_same in Hf. rewrite Nat.eqb_refl, Nf, Ea, andb_false_r, E1, E2 in Hf. cbn [negb] in Hf. destruct (Z.eqb_spec (ox e c) 0); [contradiction|]. destruct (Z.ltb_spec 0 (ox e c)); cbn [fst snd] in Hf; lia.
  - destruct (Nat.ltb _ _); [exact Hf|]. specialize (Hf c Hc). unfold fset_finer in Hf. rewrite Nat.eqb_refl, Nf, E1, E2 in Hf. destruct (Z.eqb_spec (ox e c) 0); [contradiction|]. destruct (Z.ltb_spec 0 (ox e c)); cbn [fst snd] in Hf; lia.
Qed.

Context {A : Type}.
Variables (V : loc -> arr4 (A := A)) (R : loc -> arr4 (A := A) -> arr4 (A := A)).
Lemma farriving_ok : forall a e, In a (blocks t) -> E a e -> In (n_loc e) (blocks t) /\
  exists e', farriving g ml t Bz V R a e = Some (FLoad Bz ml (level (n_loc e)) (V (n_loc e)) (R (n_loc e) (V (n_loc e))) e') /\ E (n_loc e) e' /\ n_loc e' = a /\ (forall d, ox e' d = - ox e d).
Proof using Vg NP NS t W Bt ml ML.
  intros a e Ha He. destruct (entry_block g Vg NP t W Bt ml ML a e Ha He) as [Hb _]. split; [exact Hb|].
  destruct (lists g Vg NP NS t W Bt ml ML a Ha) as (za & ns & Ca & Ka & Es & Hin & ND).
  destruct (lists g Vg NP NS t W Bt ml ML (n_loc e) Hb) as (zb & ns' & Cb & Kb & Es' & Hin' & ND').
  destruct (recip_ex g Vg NP t W Bt ml ML a za e Ca Ka He) as (_ & _ & e0 & He0 & (Q1 & Q2 & Q3 & Q4 & Q5 & Q6)).
  unfold farriving. rewrite Es'. destruct (find (targets a (n_bufid e)) ns') as [e'|] eqn:Ef.
  - apply find_some in Ef as [Hi Ht]. unfold targets in Ht. apply andb_prop in Ht as [Ht1 Ht2]. destruct (loc_eqb_spec (n_loc e') a) as [El|]; [|discriminate Ht1]. destruct (n_target e') as [k|] eqn:Ek; [|discriminate Ht2]. apply Nat.eqb_eq in Ht2. subst k.
    exists e'. split; [reflexivity|]. apply Hin' in Hi. split; [exact Hi|]. split; [exact El|].
    destruct (recip_ex g Vg NP t W Bt ml ML (n_loc e) zb e' Cb Kb Hi) as (_ & _ & e2 & He2 & (P1 & P2 & P3 & P4 & P5 & P6)). rewrite El in He2.
    assert (Eb : n_bufid e2 = n_bufid e) by congruence. apply Hin in He2. apply Hin in He.
    assert (e2 = e). { clear -ND He He2 Eb. induction ns as [|x l IH]; [contradiction He|]. cbn [map] in ND. apply NoDup_cons_iff in ND as [N1 N2]. destruct He as [->|He], He2 as [->|He2]; [reflexivity| | |apply IH; assumption]; exfalso; apply N1; [rewrite <- Eb|rewrite Eb]; apply in_map; assumption. }
    subst e2. intros d. rewrite !ox_off, !off_dir. rewrite P5, od_opp. ring.
  - exfalso. apply Hin' in He0. pose proof (find_none _ _ Ef e0 He0) as Hf. unfold targets in Hf. rewrite Q1, Q4 in Hf. rewrite Nat.eqb_refl in Hf. destruct (loc_eqb_spec a a); [discriminate Hf|contradiction].
Qed.
Definition fgood (lev : nat) (a : loc) (ha : bool) (c : nat) (x : cell) (v : A) : Prop := exists b (h : bool) y, In b (blocks t) /\ level b = (if h then S lev else lev) /\ own_face Bz dim h c y /\ same_place g Bz lev a ha x b h y /\ v = value (reading V R h b) (Z.of_nat c) y.
(** One entry. *)
Lemma single : forall (q : nat -> nat -> rangez) (r : nat -> rangez) drop (o : Z) c, (c < 3)%nat -> actv Bz c = false -> q c c = widen drop (actv Bz c) o (r c) -> r c = (0, 0) -> snd (q c c) <= fst (q c c).
Proof using . intros q r drop o c Hc Ha H Hr. rewrite H, Ha, Hr. cbn. lia. Qed.
Lemma fset1 : forall a e, In a (blocks t) -> E a e -> exists msg, farriving g ml t Bz V R a e = Some msg /\
  forall st c x, (c < 3)%nat -> let st' := FSet1 Bz ml a e msg st in
  (fwm a e c x -> fgood (level a) a false c x (value (fst st') (Z.of_nat c) x) /\ ((dim <= c)%nat -> value (fst st') (Z.of_nat c) (cell_face x c true) = value (fst st') (Z.of_nat c) x)) /\
  (~ fwm a e c x -> ((dim <= c)%nat -> ~ fwm a e c (down x c)) -> value (fst st') (Z.of_nat c) x = value (fst st) (Z.of_nat c) x) /\
  (fwc a e c x -> fgood (level a - 1) a true c x (value (snd st') (Z.of_nat c) x) /\ ((dim <= c)%nat -> value (snd st') (Z.of_nat c) (cell_face x c true) = value (snd st') (Z.of_nat c) x)) /\
  (~ fwc a e c x -> ((dim <= c)%nat -> ~ fwc a e c (down x c)) -> value (snd st') (Z.of_nat c) x = value (snd st) (Z.of_nat c) x).
Proof using Vg NP NS W Bt ML FT.
  intros a e Ha He. destruct (farriving_ok a e Ha He) as (Hb & e' & Em & He' & El & Ho). eexists. split; [exact Em|].
  pose proof (opp_type e e' (etype g Vg t W ml ML a e Ha He) (etype g Vg t W ml ML (n_loc e) e' Hb He') Ho) as Nf.
  intros [var cbuf] c x Hc. cbv zeta. unfold FLoad, FSet1. rewrite El. pose proof (fwm_cell g Vg NP NS t W Bt ml ML Bz FT a e c x Ha He Hc) as CM. pose proof (fwc_cell g Vg NP NS t W Bt ml ML Bz FT a e c x Ha He Hc) as CC.
  pose proof (actv_dim g Vg ml Bz FT c Hc) as Act. assert (Ai : (dim <= c)%nat -> actv Bz c = false) by (intros H; rewrite Act; apply Nat.ltb_ge, H).
  assert (Ai' : actv Bz c = false -> (dim <= c)%nat) by (intros H; rewrite Act in H; apply Nat.ltb_ge, H).
  unfold Fgh_Proofs2.fwm, Fgh_Proofs2.fwc, wm, wc in *. pose proof (dim13 g Vg) as D13. destruct (entry_dirs g Vg NP t W Bt ml ML a e Ha He) as [O1 O2].
  destruct (kinds g Vg NP NS t W Bt ml ML a e Ha He) as [S|[[Hm S]|[Hm S]]]; pose proof S as SS.
  - destruct S as (L & N). rewrite L, Nat.eqb_refl in *. cbn [fst snd].
    assert (SG : actv Bz c = false -> snd (fset_same Bz ml e c c) <= fst (fset_same Bz ml e c c)).
    { intros Hf. apply (single (fset_same Bz ml e) (set_same Bz e) (drops ml e) (ox e c) c Hc Hf).
      - rewrite (fset_same_widen g Bz ml D13 FT e c c Hc (O1 c) (fun H => O2 c H Hc)), Nat.eqb_refl. reflexivity.
      - unfold set_same. destruct (inactive_facts g Bz ml D13 FT c (Ai' Hf) Hc) as (-> & -> & _). rewrite (O2 c (Ai' Hf) Hc). reflexivity. }
    destruct (unpack_all Bz (V (n_loc e)) (fload_same Bz ml e') (fset_same Bz ml e) (fun d => - ox e d * cells_in Bz d)
      (fun c0 d Hc0 Hd => fload_same_move g Bz ml D13 FT e e' c0 d _ Hd (O1 d) (Ho d) Nf (fun H => O2 d H Hd) (same_range g Bz ml D13 FT e e' d Hd (O1 d) (Ho d) (fun H => O2 d H Hd))) var c x Hc SG) as [U1 U2].
    split; [|split; [|split; [contradiction|reflexivity]]].
    + intros Hw. destruct (U1 Hw) as [U3 U4]. split; [|intros Hi; apply U4, Ai, Hi]. destruct (CM Hw) as (z & hi & Ez & Hh & Hz). destruct (place_same g Vg NP NS t W Bt ml ML Bz FT a e e' z Ha Hb He SS Ho Hz) as [P1 P2].
      exists (n_loc e), false, (fun d => x d + - ox e d * cells_in Bz d). split; [exact Hb|]. split; [exact L|].
      pose proof (face_own g Bz false _ c hi Hh P1) as Q1. pose proof (face_place g Bz _ _ _ _ _ _ _ c hi Hh P2) as Q2.
      split; [|split; [|exact U3]]; intros d Hd; [specialize (Q1 d Hd)|specialize (Q2 d Hd)]; rewrite <- (Ez d); unfold cell_face in *; destruct (hi && Nat.eqb d c); try exact Q1; try exact Q2; [lia|].
      destruct Q2 as (s & S1 & S2). exists s. split; [exact S1|]. lia.
    + intros H1 H2. apply U2; [exact H1|]. intros Hf. apply H2, Ai', Hf.
  - pose proof S as (L & F01 & m & N & Hch & _). replace (Nat.eqb (level (n_loc e)) (level a)) with false in * by (symmetry; apply Nat.eqb_neq; lia). replace (Nat.eqb (level a) (level (n_loc e))) with false by (symmetry; apply Nat.eqb_neq; lia).
    replace (Nat.ltb (level (n_loc e)) (level a)) with false in * by (symmetry; apply Nat.ltb_ge; lia). replace (Nat.ltb (level a) (level (n_loc e))) with true by (symmetry; apply Nat.ltb_lt; lia). cbn [fst snd].
    assert (SG : actv Bz c = false -> snd (fset_finer Bz e c c) <= fst (fset_finer Bz e c c)).
    { intros Hf. apply (single (fset_finer Bz e) (set_finer Bz e) (drops true e) (ox e c) c Hc Hf).
      - rewrite (fset_finer_widen g Bz ml D13 FT e c c Hc (O1 c) (fun H => O2 c H Hc)), Nat.eqb_refl. reflexivity.
      - unfold set_finer. rewrite Hf. destruct (inactive_facts g Bz ml D13 FT c (Ai' Hf) Hc) as (-> & -> & _). rewrite (O2 c (Ai' Hf) Hc). reflexivity. }
    assert (Hne : inbox (set_finer Bz e) (fun d => fst (set_finer Bz e d))) by (intros d Hd; split; [lia|]; apply (finer_ne g Vg ml Bz FT e d Hm Hd (O1 d) (fun H => O2 d H Hd))).
    destruct (place_finer g Vg NP NS t W Bt ml ML Bz FT a e e' _ Hm Ha Hb He SS Ho Hne) as (RG & _).
    destruct (unpack_all Bz (R (n_loc e) (V (n_loc e))) (fload_coarser Bz e') (fset_finer Bz e) (fun d => - ox e d * cells_in Bz d - bitf e d * (cells_in Bz d / 2))
      (fun c0 d Hc0 Hd => fload_coarser_move g Bz ml D13 FT e e' c0 d _ Hd (O1 d) (Ho d) Nf (fun H => O2 d H Hd) (RG d Hd)) var c x Hc SG) as [U1 U2].
    split; [|split; [|split; [contradiction|reflexivity]]].
    + intros Hw. destruct (U1 Hw) as [U3 U4]. split; [|intros Hi; apply U4, Ai, Hi]. destruct (CM Hw) as (z & hi & Ez & Hh & Hz). destruct (place_finer g Vg NP NS t W Bt ml ML Bz FT a e e' z Hm Ha Hb He SS Ho Hz) as (_ & P1 & P2).
      exists (n_loc e), true, (fun d => x d + (- ox e d * cells_in Bz d - bitf e d * (cells_in Bz d / 2))). split; [exact Hb|]. split; [exact L|].
      pose proof (face_own g Bz true _ c hi Hh P1) as Q1. pose proof (face_place g Bz _ _ _ _ _ _ _ c hi Hh P2) as Q2.
      split; [|split; [|exact U3]]; intros d Hd; [specialize (Q1 d Hd)|specialize (Q2 d Hd)]; rewrite <- (Ez d); unfold cell_face in *; destruct (hi && Nat.eqb d c); try exact Q1; try exact Q2; [lia|].
      destruct Q2 as (s & S1 & S2). exists s. split; [exact S1|]. lia.
    + intros H1 H2. apply U2; [exact H1|]. intros Hf. apply H2, Ai', Hf.
  - pose proof S as (L & Li & m & N & Hch). replace (Nat.eqb (level (n_loc e)) (level a)) with false in * by (symmetry; apply Nat.eqb_neq; lia). replace (Nat.eqb (level a) (level (n_loc e))) with false by (symmetry; apply Nat.eqb_neq; lia).
    replace (Nat.ltb (level (n_loc e)) (level a)) with true in * by (symmetry; apply Nat.ltb_lt; lia). replace (Nat.ltb (level a) (level (n_loc e))) with false by (symmetry; apply Nat.ltb_ge; lia). cbn [fst snd].
    assert (SG : actv Bz c = false -> snd (fset_coarser Bz a e c c) <= fst (fset_coarser Bz a e c c)).
    { intros Hf. apply (single (fset_coarser Bz a e) (set_coarser Bz a e) false (ox e c) c Hc Hf).
      - rewrite (fset_coarser_widen g Bz ml D13 FT a e c c Hc (O1 c) (fun H => O2 c H Hc)), Nat.eqb_refl. reflexivity.
      - unfold set_coarser. rewrite Hf. destruct (inactive_facts g Bz ml D13 FT c (Ai' Hf) Hc) as (_ & _ & -> & -> & _). rewrite (O2 c (Ai' Hf) Hc). reflexivity. }
    assert (Hne : inbox (set_coarser Bz a e) (fun d => fst (set_coarser Bz a e d))) by (intros d Hd; split; [lia|]; apply (coarser_ne g Vg ml Bz FT a e d Hm Hd (O1 d) (fun H => O2 d H Hd))).
    destruct (place_coarser g Vg NP NS t W Bt ml ML Bz FT a e e' _ Hm Ha Hb He SS He' El Ho Hne) as (RG & _).
    destruct (unpack_all Bz (V (n_loc e)) (fload_finer Bz e') (fset_coarser Bz a e) (fun d => ox e' d * cells_in Bz d + bitf e' d * (cells_in Bz d / 2))
      (fun c0 d Hc0 Hd => fload_finer_move g Bz ml D13 FT a e e' c0 d _ Hd (O1 d) (Ho d) (fun H => O2 d H Hd) (RG d Hd)) cbuf c x Hc SG) as [U1 U2].
    split; [contradiction|]. split; [reflexivity|]. split.
    + intros Hw. destruct (U1 Hw) as [U3 U4]. split; [|intros Hi; apply U4, Ai, Hi]. destruct (CC Hw) as (z & hi & Ez & Hh & Hz). destruct (place_coarser g Vg NP NS t W Bt ml ML Bz FT a e e' z Hm Ha Hb He SS He' El Ho Hz) as (_ & P1 & P2).
      assert (EL : (level a - 1)%nat = level (n_loc e)) by lia. rewrite EL.
      exists (n_loc e), false, (fun d => x d + (ox e' d * cells_in Bz d + bitf e' d * (cells_in Bz d / 2))). split; [exact Hb|]. split; [reflexivity|].
      pose proof (face_own g Bz false _ c hi Hh P1) as Q1. pose proof (face_place g Bz _ _ _ _ _ _ _ c hi Hh P2) as Q2.
      split; [|split; [|exact U3]]; intros d Hd; [specialize (Q1 d Hd)|specialize (Q2 d Hd)]; rewrite <- (Ez d); unfold cell_face in *; destruct (hi && Nat.eqb d c); try exact Q1; try exact Q2; [lia|].
      destruct Q2 as (s & S1 & S2). exists s. split; [exact S1|]. lia.
    + intros H1 H2. apply U2; [exact H1|]. intros Hf. apply H2, Ai', Hf.
Qed.
End N.
