(** All messages. *)
From Coq Require Import List Arith NArith ZArith Bool Lia Permutation.
From Verif Require Import Loc LB_Spec Tags_Model Tags_Spec Tags_Proofs AMR_Model AMR_Spec AMR_Proofs AMR_Proofs2 Tree_Model Tree_Spec Tree_Proofs1 Tree_Proofs2 Tree_Proofs3 Tree_Proofs4 Tree_Proofs5 Tree_Proofs6 Tree_Proofs7 Tree_Proofs8 Tree_Restart Tree_Proofs9 Tree_Proofs10 Nbr_Model Nbr_Spec Nbr_Proofs Nbr_Proofs2 Nbr_Proofs3 Buf_Model Gho_Model Gho_Spec Gho_Proofs Gho_Proofs2 Gho_Proofs3 Gho_Proofs4 Gho_Proofs5 Fgh_Model Fgh_Spec Fgh_Proofs Fgh_Proofs2 Fgh_Proofs3.
Import ListNotations.
Local Open Scope Z_scope.

Lemma inbox_ext : forall r x y, (forall d, x d = y d) -> inbox r x -> inbox r y.
Proof. intros r x y H I d Hd. rewrite <- H. apply I, Hd. Qed.
Lemma fwm_ext : forall ml B a e c x y, (forall d, x d = y d) -> fwm ml B a e c x -> fwm ml B a e c y.
Proof. intros ml B a e c x y H. unfold fwm. destruct (Nat.eqb _ _); [|destruct (Nat.ltb _ _); [tauto|]]; apply inbox_ext, H. Qed.
Lemma fwc_ext : forall B a e c x y, (forall d, x d = y d) -> fwc B a e c x -> fwc B a e c y.
Proof. intros B a e c x y H. unfold fwc. destruct (Nat.eqb _ _); [tauto|]. destruct (Nat.ltb _ _); [|tauto]. apply inbox_ext, H. Qed.
Lemma fwm_dec : forall ml B a e c x, fwm ml B a e c x \/ ~ fwm ml B a e c x.
Proof. intros. unfold fwm. destruct (Nat.eqb _ _); [apply inbox_dec|]. destruct (Nat.ltb _ _); [right; tauto|apply inbox_dec]. Qed.
Lemma fwc_dec : forall B a e c x, fwc B a e c x \/ ~ fwc B a e c x.
Proof. intros. unfold fwc. destruct (Nat.eqb _ _); [right; tauto|]. destruct (Nat.ltb _ _); [apply inbox_dec|right; tauto]. Qed.
Lemma some_dec : forall (T : Type) (P : T -> Prop) l, (forall e, P e \/ ~ P e) -> (exists e, In e l /\ P e) \/ ~ (exists e, In e l /\ P e).
Proof.
  intros T P l D. induction l as [|e l IH]; [right; intros (e & [] & _)|]. destruct (D e) as [H|H]; [left; exists e; split; [left; reflexivity|exact H]|].
  destruct IH as [(e1 & H1 & H2)|IH]; [left; exists e1; split; [right; exact H1|exact H2]|]. right. intros (e1 & [->|H1] & H2); [contradiction|]. apply IH. exists e1. split; assumption.
Qed.
Lemma value_at : forall (A : Type) (v : arr4 (A := A)) n x y, (forall d, x d = y d) -> value v n x = value v n y.
Proof. intros A v n x y H. unfold value. rewrite !H. reflexivity. Qed.
Lemma down_up : forall x c d, down (cell_face x c true) c d = x d.
Proof. intros x c d. unfold down, cell_face. cbn [andb]. destruct (Nat.eqb d c); lia. Qed.
Lemma up_down : forall x c d, cell_face (down x c) c true d = x d.
Proof. intros x c d. unfold down, cell_face. cbn [andb]. destruct (Nat.eqb d c); lia. Qed.

(** A chain of writes to one array: [w e c x] says that entry [e] writes place x. *)
Section Chain.
Context {A T : Type}.
Variable dim : nat.
Variable w : T -> nat -> cell -> Prop.
Hypothesis Wdec : forall e c x, w e c x \/ ~ w e c x.
Hypothesis Wext : forall e c x y, (forall d, x d = y d) -> w e c x -> w e c y.
Variable good : nat -> cell -> A -> Prop.
Definition writes (ws : cell -> nat -> Prop) (v v' : arr4 (A := A)) : Prop := forall c x, (c < 3)%nat ->
  (ws x c -> good c x (value v' (Z.of_nat c) x) /\ ((dim <= c)%nat -> value v' (Z.of_nat c) (cell_face x c true) = value v' (Z.of_nat c) x)) /\
  (~ ws x c -> ((dim <= c)%nat -> ~ ws (down x c) c) -> value v' (Z.of_nat c) x = value v (Z.of_nat c) x).
Lemma chain : forall e es v v1 v2, (forall e0 c x, In e0 (e :: es) -> (dim <= c)%nat -> (c < 3)%nat -> w e0 c x -> x c = 0) ->
  writes (fun x c => w e c x) v v1 -> writes (fun x c => exists e0, In e0 es /\ w e0 c x) v1 v2 -> writes (fun x c => exists e0, In e0 (e :: es) /\ w e0 c x) v v2.
Proof using Wdec Wext.
  intros e es v v1 v2 Z0 P Q c x Hc. destruct (P c x Hc) as [P1 P2]. destruct (Q c x Hc) as [Q1 Q2]. split.
  - intros (e0 & He0 & Hw). destruct (some_dec T (fun e0 => w e0 c x) es (fun e0 => Wdec e0 c x)) as [D|D]; [apply Q1, D|].
    assert (e0 = e) by (destruct He0 as [He0|He0]; [congruence|]; contradiction D; exists e0; split; assumption). subst e0. destruct (P1 Hw) as [P3 P4].
    assert (Qx : value v2 (Z.of_nat c) x = value v1 (Z.of_nat c) x).
    { apply Q2; [exact D|]. intros Hi (e0 & H0 & H1). pose proof (Z0 e c x (or_introl eq_refl) Hi Hc Hw) as Z1. pose proof (Z0 e0 c _ (or_intror H0) Hi Hc H1) as Z2. unfold down in Z2. rewrite Nat.eqb_refl in Z2. lia. }
    rewrite Qx. split; [exact P3|]. intros Hi. rewrite <- (P4 Hi). apply (proj2 (Q c (cell_face x c true) Hc)).
    + intros (e0 & H0 & H1). pose proof (Z0 e c x (or_introl eq_refl) Hi Hc Hw) as Z1. pose proof (Z0 e0 c _ (or_intror H0) Hi Hc H1) as Z2. unfold cell_face in Z2. rewrite Nat.eqb_refl in Z2. cbn [andb] in Z2. lia.
    + intros _ (e0 & H0 & H1). apply D. exists e0. split; [exact H0|]. apply (Wext e0 c _ _ (down_up x c) H1).
  - intros H1 H2. rewrite Q2, P2; [reflexivity| | | |].
    + intros X. apply H1. exists e. split; [left; reflexivity|exact X].
    + intros Hi X. apply (H2 Hi). exists e. split; [left; reflexivity|exact X].
    + intros (e0 & X & Y). apply H1. exists e0. split; [right; exact X|exact Y].
    + intros Hi (e0 & X & Y). apply (H2 Hi). exists e0. split; [right; exact X|exact Y].
Qed.
End Chain.

Section N.
Variable g : grid.
Hypothesis Vg : valid_grid g.
Hypothesis NP : no_pole g.
Hypothesis NS : no_shear g.
Variable t : tree.
Hypothesis W : wf g t.
Hypothesis Bt : B g t.
Variable ml : bool.
Hypothesis ML : declared g ml (blocks t).
Local Notation dim := (gdim g).
Local Notation E := (E g t ml).
Variable Bz : bsz.
Hypothesis FT : fitting g Bz ml.
Local Notation D13 := (dim13 g Vg).
Local Notation fwm := (fwm ml Bz).
Local Notation fwc := (fwc Bz).
Context {A : Type}.
Variables (V : loc -> arr4 (A := A)) (R : loc -> arr4 (A := A) -> arr4 (A := A)).
Local Notation fgood := (fgood g t Bz V R).

Lemma set_all : forall a es st, In a (blocks t) -> (forall e, In e es -> E a e) -> exists st', SetFaceBoundaries g ml t Bz V R a es st = Some st' /\
  writes dim (fgood (level a) a false) (fun x c => exists e, In e es /\ fwm a e c x) (fst st) (fst st') /\ writes dim (fgood (level a - 1) a true) (fun x c => exists e, In e es /\ fwc a e c x) (snd st) (snd st').
Proof using Vg NP NS W Bt ML FT.
  intros a es. induction es as [|e es IH]; intros st Ha Hes.
  - exists st. split; [reflexivity|]. split; intros c x Hc; split; try reflexivity; intros (e & [] & _).
  - destruct (fset1 g Vg NP NS t W Bt ml ML Bz FT V R a e Ha (Hes e (or_introl eq_refl))) as (msg & Em & P). cbn [SetFaceBoundaries]. rewrite Em. destruct (IH (FSet1 Bz ml a e msg st) Ha (fun e0 H => Hes e0 (or_intror H))) as (st' & E' & Q1 & Q2). exists st'. split; [exact E'|]. split.
    + apply (chain dim (fun e c x => fwm a e c x) (fun e c x => fwm_dec ml Bz a e c x) (fun e c x y => fwm_ext ml Bz a e c x y) (fgood (level a) a false) e es (fst st) (fst (FSet1 Bz ml a e msg st)) (fst st')); [|intros c x Hc; destruct (P st c x Hc) as (P1 & P2 & _); split; assumption|exact Q1].
      intros e0 c x He0 Hi Hc Hw. apply (fwm_zero g Vg NP NS t W Bt ml ML Bz FT a e0 c x Ha (Hes e0 He0) Hi Hc Hw).
    + apply (chain dim (fun e c x => fwc a e c x) (fun e c x => fwc_dec Bz a e c x) (fun e c x y => fwc_ext Bz a e c x y) (fgood (level a - 1) a true) e es (snd st) (snd (FSet1 Bz ml a e msg st)) (snd st')); [|intros c x Hc; destruct (P st c x Hc) as (_ & _ & P3 & P4); split; assumption|exact Q2].
      intros e0 c x He0 Hi Hc Hw. apply (fwc_zero g Vg NP NS t W Bt ml ML Bz FT a e0 c x Ha (Hes e0 He0) Hi Hc Hw).
Qed.
(** In a direction the mesh does not have, each face belongs to one block only. *)
Lemma own_flat : forall h c y, (dim <= c)%nat -> own_face Bz dim h c y -> own Bz dim h y.
Proof using . intros h c y Hi O d Hd. specialize (O d Hd). replace (Nat.ltb c dim) with false in O by (symmetry; apply Nat.ltb_ge, Hi). rewrite andb_false_r in O. lia. Qed.
Lemma agree : consistent g Bz (blocks t) V R -> forall lev a ha x b (h : bool) y b' (h' : bool) y' c, In b (blocks t) -> In b' (blocks t) -> level b = (if h then S lev else lev) -> level b' = (if h' then S lev else lev) -> (groot g <= lev)%nat -> (c < 3)%nat ->
  own_face Bz dim h c y -> own_face Bz dim h' c y' -> same_place g Bz lev a ha x b h y -> same_place g Bz lev a ha x b' h' y' -> value (reading V R h b) (Z.of_nat c) y = value (reading V R h' b') (Z.of_nat c) y'.
Proof using Vg W ML FT.
  intros CN lev a ha x b h y b' h' y' c Hb Hb' L L' Hr Hc O O' P P'.
  assert (Hm : forall b0 (h0 : bool), In b0 (blocks t) -> level b0 = (if h0 then S lev else lev) -> h0 = true -> ml = true) by (intros b0 h0 Hb0 L0; apply (h_ml g t W ml ML b0 h0 lev Hb0 L0 Hr)).
  pose proof (Hm b h Hb L) as M. pose proof (Hm b' h' Hb' L') as M'. clear Hm. destruct (Nat.lt_ge_cases c dim) as [Hd|Hi].
  - apply (CN lev b h y b' h' y' c Hb Hb' L L' Hr Hd O O'). apply (face_trans g Vg t W ml Bz FT lev a ha x b h y b' h' y' c Hb Hb' M M' L L' Hr Hc O O' P P').
  - apply own_flat in O; [|exact Hi]. apply own_flat in O'; [|exact Hi]. destruct h, h'.
    + destruct (place_det g Vg t W ml Bz FT a ha x lev b true y b' y' Hb Hb' M L L' Hr O O' P P') as [<- Q]. apply value_ext3; apply Q; lia.
    + exfalso. apply (place_excl g Vg t W ml Bz FT a ha x lev b' y' b y Hb' Hb (M eq_refl) L' L Hr O' O P' P).
    + exfalso. apply (place_excl g Vg t W ml Bz FT a ha x lev b y b' y' Hb Hb' (M' eq_refl) L L' Hr O O' P P').
    + destruct (place_det g Vg t W ml Bz FT a ha x lev b false y b' y' Hb Hb' M L L' Hr O O' P P') as [<- Q]. apply value_ext3; apply Q; lia.
Qed.
Lemma self : forall a x, same_place g Bz (level a) a false x a false x.
Proof using . intros a x d Hd. exists 0. split; [left; reflexivity|lia]. Qed.
Lemma exchange : consistent g Bz (blocks t) V R -> forall a es st, In a (blocks t) -> (forall e, In e es <-> E a e) -> (forall c y, (c < 3)%nat -> own_face Bz dim false c y -> value (fst st) (Z.of_nat c) y = value (V a) (Z.of_nat c) y) ->
  exists st', SetFaceBoundaries g ml t Bz V R a es st = Some st' /\ faces_filled g Bz (blocks t) V R a (fst st') (snd st') /\ faces_kept g Bz (blocks t) a (fst st) (fst st') (snd st) (snd st').
Proof using Vg NP NS W Bt ML FT.
  intros CN a es st Ha Hes HV. destruct (set_all a es st Ha (fun e H => proj1 (Hes e) H)) as (st' & E' & PM & PC). exists st'. split; [exact E'|]. destruct (in_dom g t W a Ha) as [Da Ra].
  assert (KO : forall x c hi, (c < 3)%nat -> own Bz dim false x -> value (fst st') (Z.of_nat c) (cell_face x c hi) = value (fst st) (Z.of_nat c) (cell_face x c hi)).
  { intros x c hi Hc O. apply (proj2 (PM c (cell_face x c hi) Hc)).
    - intros (e & He & Hw). apply (fwm_not_own g Vg NP NS t W Bt ml ML Bz FT a e c x hi Ha (proj1 (Hes e) He) Hc O Hw).
    - intros Hi (e & He & Hw). destruct hi.
      + apply (fwm_not_own g Vg NP NS t W Bt ml ML Bz FT a e c x false Ha (proj1 (Hes e) He) Hc O). apply (fwm_ext ml Bz a e c (down (cell_face x c true) c)); [|exact Hw]. intros d. rewrite down_up. reflexivity.
      + pose proof (fwm_zero g Vg NP NS t W Bt ml ML Bz FT a e c _ Ha (proj1 (Hes e) He) Hi Hc Hw) as Z1. unfold down, cell_face in Z1. rewrite Nat.eqb_refl in Z1. cbn [andb] in Z1. specialize (O c Hc). destruct (inactive_facts g Bz ml D13 FT c Hi Hc) as (_ & _ & _ & _ & _ & _ & E3 & E4 & _). rewrite E3, E4 in O. lia. }
  (* the faces whose index is stored, then their copies *)
  assert (FM : forall x b (h : bool) y c hi, (c < 3)%nat -> (hi = true -> (c < dim)%nat) -> near Bz dim false (ng Bz) x -> ~ own Bz dim false x -> In b (blocks t) -> level b = (if h then S (level a) else level a) -> own Bz dim h y ->
    same_place g Bz (level a) a false x b h y -> value (fst st') (Z.of_nat c) (cell_face x c hi) = value (reading V R h b) (Z.of_nat c) (cell_face y c hi)).
  { intros x b h y c hi Hc Hh N NO Hb L O P. pose proof (face_own g Bz h y c hi Hh O) as OF. pose proof (face_place g Bz _ _ _ _ _ _ _ c hi Hh P) as PF. destruct (cov_face g Vg NP NS t W Bt ml ML Bz FT a x b h y c hi Ha Hb N NO L O P Hc Hh) as [(e & He & Hw)|OO].
    - destruct (proj1 (PM c (cell_face x c hi) Hc) (ex_intro _ e (conj (proj2 (Hes e) He) Hw))) as [(b0 & h0 & y0 & Hb0 & L0 & O0 & P0 & ->) _].
      apply (agree CN (level a) a false (cell_face x c hi) b0 h0 y0 b h (cell_face y c hi) c Hb0 Hb L0 L Ra Hc O0 OF P0 PF).
    - destruct (own_face_cell g Vg ml Bz FT false (cell_face x c hi) c Hc ltac:(intros X; discriminate X) OO) as (z & hz & Ez & _ & Oz).
      rewrite <- (value_at A (fst st') _ _ _ Ez), (KO z c hz Hc Oz), (value_at A (fst st) _ _ _ Ez), (HV c _ Hc OO).
      apply (agree CN (level a) a false (cell_face x c hi) a false (cell_face x c hi) b h (cell_face y c hi) c Ha Hb eq_refl L Ra Hc OO OF (self a _) PF). }
  assert (FC : forall x b y c hi, (c < 3)%nat -> (hi = true -> (c < dim)%nat) -> near Bz dim true (coarse_ghosts Bz) x -> In b (blocks t) -> level a = S (level b) -> own Bz dim false y ->
    same_place g Bz (level b) a true x b false y -> value (snd st') (Z.of_nat c) (cell_face x c hi) = value (V b) (Z.of_nat c) (cell_face y c hi)).
  { intros x b y c hi Hc Hh N Hb L O P. pose proof (face_own g Bz false y c hi Hh O) as OF. pose proof (face_place g Bz _ _ _ _ _ _ _ c hi Hh P) as PF. destruct (in_dom g t W b Hb) as [Db Rb]. destruct (cov_face_coarse g Vg NP NS t W Bt ml ML Bz FT a x b y c hi Ha Hb N L O P Hc Hh) as (e & He & Hw).
    destruct (proj1 (PC c (cell_face x c hi) Hc) (ex_intro _ e (conj (proj2 (Hes e) He) Hw))) as [(b0 & h0 & y0 & Hb0 & L0 & O0 & P0 & ->) _]. replace (level a - 1)%nat with (level b) in * by lia.
    apply (agree CN (level b) a true (cell_face x c hi) b0 h0 y0 b false (cell_face y c hi) c Hb0 Hb L0 eq_refl Rb Hc O0 OF P0 PF). }
  split; [split|split; [|split]].
  - intros x b h y c hi Hc N NO Hb L O P. destruct (Nat.lt_ge_cases c dim) as [Hd|Hi]; unfold upper.
    + replace (Nat.ltb c dim) with true by (symmetry; apply Nat.ltb_lt, Hd). rewrite andb_true_r. apply (FM x b h y c hi Hc (fun _ => Hd) N NO Hb L O P).
    + replace (Nat.ltb c dim) with false by (symmetry; apply Nat.ltb_ge, Hi). rewrite andb_false_r. assert (Hf : false = true -> (c < dim)%nat) by (intros X; discriminate X). rewrite <- (FM x b h y c false Hc Hf N NO Hb L O P). destruct hi; [|reflexivity].
      destruct (cov_face g Vg NP NS t W Bt ml ML Bz FT a x b h y c false Ha Hb N NO L O P Hc Hf) as [(e & He & Hw)|OO].
      * destruct (proj1 (PM c (cell_face x c false) Hc) (ex_intro _ e (conj (proj2 (Hes e) He) Hw))) as [_ Q]. rewrite <- (Q Hi). apply value_at. intros d. reflexivity.
      * exfalso. apply NO. apply (own_flat false c x Hi). exact OO.
  - intros x b y c hi Hc N Hb L O P. destruct (Nat.lt_ge_cases c dim) as [Hd|Hi]; unfold upper.
    + replace (Nat.ltb c dim) with true by (symmetry; apply Nat.ltb_lt, Hd). rewrite andb_true_r. apply (FC x b y c hi Hc (fun _ => Hd) N Hb L O P).
    + replace (Nat.ltb c dim) with false by (symmetry; apply Nat.ltb_ge, Hi). rewrite andb_false_r. assert (Hf : false = true -> (c < dim)%nat) by (intros X; discriminate X). rewrite <- (FC x b y c false Hc Hf N Hb L O P). destruct hi; [|reflexivity].
      destruct (cov_face_coarse g Vg NP NS t W Bt ml ML Bz FT a x b y c false Ha Hb N L O P Hc Hf) as (e & He & Hw).
      destruct (proj1 (PC c (cell_face x c false) Hc) (ex_intro _ e (conj (proj2 (Hes e) He) Hw))) as [_ Q]. rewrite <- (Q Hi). apply value_at. intros d. reflexivity.
  - exact KO.
  - assert (K : forall p c e, (c < 3)%nat -> In e es -> fwm a e c p -> exists z hi, (forall d, cell_face z c hi d = p d) /\ (hi = true -> (c < dim)%nat) /\ near Bz dim false (ng Bz) z /\ ~ empty g Bz (blocks t) a z).
    { intros p c e Hc He Hw. apply Hes in He. destruct (fwm_cell g Vg NP NS t W Bt ml ML Bz FT a e c p Ha He Hc Hw) as (z & hi & Ez & Hh & Hz). destruct (wm_where g Vg NP NS t W Bt ml ML Bz FT a e z Ha He Hz) as [N _].
      exists z, hi. split; [exact Ez|]. split; [exact Hh|]. split; [exact N|]. intros X.
      unfold wm in Hz. destruct (kinds g Vg NP NS t W Bt ml ML a e Ha He) as [S|[[Hm S]|[Hm S]]]; pose proof S as SS.
      - destruct S as (L & _). destruct (farriving_ok g Vg NP NS t W Bt ml ML Bz V R a e Ha He) as (Hb & e' & _ & He' & El & Ho). rewrite L, Nat.eqb_refl in Hz. destruct (place_same g Vg NP NS t W Bt ml ML Bz FT a e e' z Ha Hb He SS Ho Hz) as [P1 P2]. apply (proj1 (X (n_loc e) _ Hb) L P1 P2).
      - destruct S as (L & _). destruct (farriving_ok g Vg NP NS t W Bt ml ML Bz V R a e Ha He) as (Hb & e' & _ & He' & El & Ho). replace (Nat.eqb (level (n_loc e)) (level a)) with false in Hz by (symmetry; apply Nat.eqb_neq; lia). replace (Nat.ltb (level (n_loc e)) (level a)) with false in Hz by (symmetry; apply Nat.ltb_ge; lia).
        destruct (place_finer g Vg NP NS t W Bt ml ML Bz FT a e e' z Hm Ha Hb He SS Ho Hz) as (_ & P1 & P2). apply (proj2 (X (n_loc e) _ Hb) L P1 P2).
      - destruct S as (L & _). replace (Nat.eqb (level (n_loc e)) (level a)) with false in Hz by (symmetry; apply Nat.eqb_neq; lia). replace (Nat.ltb (level (n_loc e)) (level a)) with true in Hz by (symmetry; apply Nat.ltb_lt; lia). exact Hz. }
    intros p c Hc Hk. apply (proj2 (PM c p Hc)).
    + intros (e & He & Hw). destruct (K p c e Hc He Hw) as (z & hi & Ez & _ & N & NE). destruct (Hk z hi Ez); contradiction.
    + intros Hi (e & He & Hw). destruct (K _ c e Hc He Hw) as (z & hi & Ez & Hh & N & NE). destruct hi; [specialize (Hh eq_refl); lia|].
      destruct (Hk z true); [|contradiction|contradiction]. intros d. specialize (Ez d). unfold cell_face, down in *. cbn [andb] in *. destruct (Nat.eqb d c); lia.
  - assert (K : forall p c e, (c < 3)%nat -> In e es -> fwc a e c p -> exists z hi, (forall d, cell_face z c hi d = p d) /\ (hi = true -> (c < dim)%nat) /\ near Bz dim true (coarse_ghosts Bz) z /\ ~ empty_coarse g Bz (blocks t) a z).
    { intros p c e Hc He Hw. apply Hes in He. destruct (fwc_cell g Vg NP NS t W Bt ml ML Bz FT a e c p Ha He Hc Hw) as (z & hi & Ez & Hh & Hz). pose proof (wc_where g Vg NP NS t W Bt ml ML Bz FT a e z Ha He Hz) as N.
      exists z, hi. split; [exact Ez|]. split; [exact Hh|]. split; [exact N|]. intros X.
      unfold wc in Hz. destruct (kinds g Vg NP NS t W Bt ml ML a e Ha He) as [S|[[Hm S]|[Hm S]]]; pose proof S as SS.
      - destruct S as (L & _). rewrite L, Nat.eqb_refl in Hz. exact Hz.
      - destruct S as (L & _). replace (Nat.eqb (level (n_loc e)) (level a)) with false in Hz by (symmetry; apply Nat.eqb_neq; lia). replace (Nat.ltb (level (n_loc e)) (level a)) with false in Hz by (symmetry; apply Nat.ltb_ge; lia). exact Hz.
      - destruct S as (L & _). destruct (farriving_ok g Vg NP NS t W Bt ml ML Bz V R a e Ha He) as (Hb & e' & _ & He' & El & Ho). replace (Nat.eqb (level (n_loc e)) (level a)) with false in Hz by (symmetry; apply Nat.eqb_neq; lia). replace (Nat.ltb (level (n_loc e)) (level a)) with true in Hz by (symmetry; apply Nat.ltb_lt; lia).
        destruct (place_coarser g Vg NP NS t W Bt ml ML Bz FT a e e' z Hm Ha Hb He SS He' El Ho Hz) as (_ & P1 & P2). apply (X (n_loc e) _ Hb L P1 P2). }
    intros p c Hc Hk. apply (proj2 (PC c p Hc)).
    + intros (e & He & Hw). destruct (K p c e Hc He Hw) as (z & hi & Ez & _ & N & NE). destruct (Hk z hi Ez); contradiction.
    + intros Hi (e & He & Hw). destruct (K _ c e Hc He Hw) as (z & hi & Ez & Hh & N & NE). destruct hi; [specialize (Hh eq_refl); lia|].
      destruct (Hk z true); [|contradiction|contradiction]. intros d. specialize (Ez d). unfold cell_face, down in *. cbn [andb] in *. destruct (Nat.eqb d c); lia.
Qed.
End N.
