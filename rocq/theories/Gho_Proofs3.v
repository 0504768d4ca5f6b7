(** What one message writes. *)
From Coq Require Import List Arith NArith ZArith Bool Lia Permutation.
From Verif Require Import Loc LB_Spec Tags_Model Tags_Spec Tags_Proofs AMR_Model AMR_Spec AMR_Proofs AMR_Proofs2 Tree_Model Tree_Spec Tree_Proofs1 Tree_Proofs2 Tree_Proofs3 Tree_Proofs4 Tree_Proofs5 Tree_Proofs6 Tree_Proofs7 Tree_Proofs8 Tree_Restart Tree_Proofs9 Tree_Proofs10 Nbr_Model Nbr_Spec Nbr_Proofs Nbr_Proofs2 Nbr_Proofs3 Buf_Model Gho_Model Gho_Spec Gho_Proofs Gho_Proofs2.
Import ListNotations.
Local Open Scope Z_scope.

Lemma shift_scale : forall g d w s c, period_shift g d w s -> period_shift g d (w * c) (s * c).
Proof. intros g d w s c [->|(P1 & P2 & [->| ->])]; [left; ring|right|right]; (split; [exact P1|]; split; [exact P2|]); [left|right]; ring. Qed.
Lemma np_ext : forall g a o o' m, (forall d, (d < gdim g)%nat -> o d = o' d) -> neighbour_position g a o m -> neighbour_position g a o' m.
Proof. intros g a o o' m H (N1 & N2 & N3). split; [exact N1|]. split; [exact N2|]. intros d Hd. destruct (N3 d Hd) as (s & S1 & S2). exists s. split; [exact S1|]. rewrite <- (H d Hd). exact S2. Qed.
Definition inbox (q : nat -> rangez) (x : cell) : Prop := forall d, (d < 3)%nat -> fst (q d) <= x d <= snd (q d).
Lemma inbox_dec : forall q x, inbox q x \/ ~ inbox q x.
Proof.
  intros q x. destruct (Z_le_dec (fst (q 0%nat)) (x 0%nat)), (Z_le_dec (x 0%nat) (snd (q 0%nat))), (Z_le_dec (fst (q 1%nat)) (x 1%nat)), (Z_le_dec (x 1%nat) (snd (q 1%nat))), (Z_le_dec (fst (q 2%nat)) (x 2%nat)), (Z_le_dec (x 2%nat) (snd (q 2%nat)));
    try (right; intro H; pose proof (H 0%nat ltac:(lia)); pose proof (H 1%nat ltac:(lia)); pose proof (H 2%nat ltac:(lia)); lia).
  left. intros [|[|[|d]]] Hd; lia.
Qed.

Section N.
Variable g : grid.
Hypothesis Vg : valid_grid g.
Hypothesis NP : no_pole g.
Hypothesis NS : no_shear g.
Variable t : tree.
Hypothesis W : wf g t.
Hypothesis Bt : B g t.
Variable ml : bool.
Hypothesis ML : declared g ml (blocks t).
Local Notation dim := (gdim g).
Local Notation E := (E g t ml).
Variable Bz : bsz.
Hypothesis FT : fitting g Bz ml.
Context {A : Type}.
Variables (nl nu : Z) (V : loc -> arr4 (A := A)) (R : loc -> arr4 (A := A) -> arr4 (A := A)).

Lemma in_dom : forall a, In a (blocks t) -> in_domain g a /\ (groot g <= level a)%nat.
Proof using W. intros a Ha. apply (in_blocks g t a W) in Ha as [Ca (za & Ka)]. apply (leaf_level g t a za W Ca Ka). Qed.

Definition wm (a : loc) (e : nblock) (x : cell) : Prop :=
  if Nat.eqb (level (n_loc e)) (level a) then inbox (set_same Bz e) x else if Nat.ltb (level (n_loc e)) (level a) then False else inbox (set_finer Bz e) x.
Definition wc (a : loc) (e : nblock) (x : cell) : Prop :=
  if Nat.eqb (level (n_loc e)) (level a) then False else if Nat.ltb (level (n_loc e)) (level a) then inbox (set_coarser Bz a e) x else False.
Definition good_main (a : loc) (n : Z) (x : cell) (z : A) : Prop := exists b y, In b (blocks t) /\
  ((neighbour_position g a (side Bz dim false x) b /\ own Bz dim false y /\ same_place g Bz (level a) a false x b false y /\ z = value (V b) n y) \/
   (exists m, neighbour_position g a (side Bz dim false x) m /\ In b (children dim m) /\ own Bz dim true y /\ same_place g Bz (level a) a false x b true y /\ z = value (R b (V b)) n y)).
(** The part of a direction that leads out of the parent. *)
Definition outward (a : loc) (o : nat -> Z) (d : nat) : Z := if Z.eqb (o d) (myo (coord d a)) then o d else 0.
Definition good_coarse (a : loc) (n : Z) (x : cell) (z : A) : Prop := exists b y m, In b (blocks t) /\ neighbour_position g a (outward a (side Bz dim true x)) m /\ In m (children dim b) /\
  own Bz dim false y /\ same_place g Bz (level b) a true x b false y /\ z = value (V b) n y.

Lemma even_lx : forall a d, (if Z.even (lx a d) then -1 else 1) = myo (coord d a).
Proof using. intros a d. rewrite lx_coord. unfold myo, myf. rewrite <- Z.negb_even. destruct (Z.even (coord d a)); reflexivity. Qed.
(** where an entry writes *)
Lemma wm_side : forall a e x, In a (blocks t) -> E a e -> wm a e x -> forall d, (d < 3)%nat -> side Bz dim false x d = ox e d.
Proof using Vg NP NS W Bt ML FT.
  intros a e x Ha He Hw d Hd. destruct (entry_dirs g Vg NP t W Bt ml ML a e Ha He) as [O1 O2]. pose proof (dim13 g Vg) as D13. unfold wm in Hw.
  destruct (kinds g Vg NP NS t W Bt ml ML a e Ha He) as [[L _]|[[Hm (L & F01 & _)]|[Hm (L & _)]]].
  - rewrite L, Nat.eqb_refl in Hw. apply (proj1 (set_same_side g Bz ml D13 FT e d x Hd (O1 d) (fun H => O2 d H Hd)) (Hw d Hd)).
  - replace (Nat.eqb (level (n_loc e)) (level a)) with false in Hw by (symmetry; apply Nat.eqb_neq; lia). replace (Nat.ltb (level (n_loc e)) (level a)) with false in Hw by (symmetry; apply Nat.ltb_ge; lia).
    apply (proj1 (set_finer_side g Bz ml D13 FT e d x Hm Hd (O1 d) (fun H => O2 d H Hd) (F01 d)) (Hw d Hd)).
  - exfalso. replace (Nat.eqb (level (n_loc e)) (level a)) with false in Hw by (symmetry; apply Nat.eqb_neq; lia). replace (Nat.ltb (level (n_loc e)) (level a)) with true in Hw by (symmetry; apply Nat.ltb_lt; lia). exact Hw.
Qed.
Lemma wc_side : forall a e x, In a (blocks t) -> E a e -> wc a e x -> ml = true /\ coarser_nb g a e /\ forall d, (d < 3)%nat -> outward a (side Bz dim true x) d = ox e d.
Proof using Vg NP NS W Bt ML FT.
  intros a e x Ha He Hw. destruct (entry_dirs g Vg NP t W Bt ml ML a e Ha He) as [O1 O2]. pose proof (dim13 g Vg) as D13. unfold wc in Hw.
  destruct (kinds g Vg NP NS t W Bt ml ML a e Ha He) as [[L _]|[[Hm (L & F01 & _)]|[Hm C]]].
  - exfalso. rewrite L, Nat.eqb_refl in Hw. exact Hw.
  - exfalso. replace (Nat.eqb (level (n_loc e)) (level a)) with false in Hw by (symmetry; apply Nat.eqb_neq; lia). replace (Nat.ltb (level (n_loc e)) (level a)) with false in Hw by (symmetry; apply Nat.ltb_ge; lia). exact Hw.
  - split; [exact Hm|]. split; [exact C|]. destruct C as (L & Li & _). intros d Hd.
    replace (Nat.eqb (level (n_loc e)) (level a)) with false in Hw by (symmetry; apply Nat.eqb_neq; lia). replace (Nat.ltb (level (n_loc e)) (level a)) with true in Hw by (symmetry; apply Nat.ltb_lt; lia).
    pose proof (proj1 (set_coarser_side g Bz ml D13 FT a e d x Hm Hd (O1 d) (fun H => O2 d H Hd) ltac:(intros Hn; rewrite even_lx; symmetry; rewrite ox_off in *; apply Li; assumption)) (Hw d Hd)) as [Q _].
    cbv zeta in Q. rewrite even_lx in Q. unfold outward. symmetry. exact Q.
Qed.

Lemma place_same : forall a e e' x, In a (blocks t) -> In (n_loc e) (blocks t) -> E a e -> same_nb g a e -> (forall d, ox e' d = - ox e d) -> inbox (set_same Bz e) x ->
  let y d := x d + - ox e d * cells_in Bz d in own Bz dim false y /\ same_place g Bz (level a) a false x (n_loc e) false y.
Proof using Vg NP NS W Bt ML FT.
  intros a e e' x Ha Hb He (L & N1 & N2 & N3) Ho Hx y. destruct (entry_dirs g Vg NP t W Bt ml ML a e Ha He) as [O1 O2]. pose proof (dim13 g Vg) as D13. split.
  - intros d Hd. apply (load_same_own g Bz ml D13 FT e' d (y d) Hd); [intros H; rewrite Ho, (O2 d H Hd); reflexivity|]. unfold y. destruct (same_range g Bz ml D13 FT e e' d Hd (O1 d) (Ho d) (fun H => O2 d H Hd)) as [E1 E2]. specialize (Hx d Hd). lia.
  - intros d Hd. destruct (Nat.lt_ge_cases d dim) as [Hdd|Hdd].
    + destruct (N3 d Hdd) as (s & S1 & S2). exists (s * cells_in Bz d). split; [apply shift_scale, S1|]. destruct (active_facts g Bz ml D13 FT d Hdd) as (_ & _ & _ & _ & _ & _ & _ & -> & _). rewrite S2. unfold y. change (ox e d) with (off e d). ring.
    + exists 0. split; [left; reflexivity|]. destruct (inactive_facts g Bz ml D13 FT d Hdd Hd) as (_ & _ & _ & _ & _ & _ & _ & -> & Ec). unfold y. rewrite (O2 d Hdd Hd). destruct (in_dom a Ha) as [Da _]. destruct (Da d Hd) as (_ & _ & ->); [|exact Hdd]. destruct (N2 d Hd) as (_ & _ & ->); [|exact Hdd]. ring.
Qed.
Lemma place_finer : forall a e e' x, ml = true -> In a (blocks t) -> In (n_loc e) (blocks t) -> E a e -> finer_nb g a e -> (forall d, ox e' d = - ox e d) -> inbox (set_finer Bz e) x ->
  let y d := x d + (- ox e d * cells_in Bz d - bitf e d * (cells_in Bz d / 2)) in
  (forall d, (d < 3)%nat -> fst (load_coarser Bz e' d) = fst (set_finer Bz e d) + (- ox e d * cells_in Bz d - bitf e d * (cells_in Bz d / 2)) /\ snd (load_coarser Bz e' d) = snd (set_finer Bz e d) + (- ox e d * cells_in Bz d - bitf e d * (cells_in Bz d / 2))) /\
  own Bz dim true y /\ same_place g Bz (level a) a false x (n_loc e) true y.
Proof using Vg NP NS W Bt ML FT.
  intros a e e' x Hm Ha Hb He (L & F01 & m & (N1 & N2 & N3) & Hc & Hbit) Ho Hx y. destruct (entry_dirs g Vg NP t W Bt ml ML a e Ha He) as [O1 O2]. pose proof (dim13 g Vg) as D13.
  destruct (in_dom _ Hb) as [Db _]. destruct (in_dom _ Ha) as [Da _].
  assert (Z0 : forall d, (dim <= d)%nat -> (d < 3)%nat -> bitf e d = 0). { intros d H1 H2. specialize (Hbit d H2). destruct (Db d H2) as (_ & _ & Q1). destruct (N2 d H2) as (_ & _ & Q2). rewrite (Q1 H1), (Q2 H1) in Hbit. lia. }
  assert (B01 : forall d, bitf e d = 0 \/ bitf e d = 1). { intros d. unfold bitf. destruct (Z.eqb (ox e d) 0); [apply F01|destruct (Z.eqb _ _); auto]. }
  assert (RG : forall d, (d < 3)%nat -> fst (load_coarser Bz e' d) = fst (set_finer Bz e d) + (- ox e d * cells_in Bz d - bitf e d * (cells_in Bz d / 2)) /\ snd (load_coarser Bz e' d) = snd (set_finer Bz e d) + (- ox e d * cells_in Bz d - bitf e d * (cells_in Bz d / 2))).
  { intros d Hd. apply (finer_range g Bz ml D13 FT e e' d (bitf e d) Hm Hd (O1 d) (Ho d)); [intros H; split; [apply O2|apply Z0]; assumption|reflexivity|apply B01]. }
  split; [exact RG|]. split.
  - intros d Hd. apply (load_coarser_own g Bz ml D13 FT e' d (y d) Hm Hd); [intros H; rewrite Ho, (O2 d H Hd); reflexivity|]. unfold y. destruct (RG d Hd) as [E1 E2]. specialize (Hx d Hd). lia.
  - intros d Hd. destruct (Nat.lt_ge_cases d dim) as [Hdd|Hdd].
    + destruct (N3 d Hdd) as (s & S1 & S2). exists (s * cells_in Bz d). split; [apply shift_scale, S1|]. destruct (active_facts g Bz ml D13 FT d Hdd) as (_ & _ & _ & _ & _ & _ & _ & Es & _). rewrite !Es.
      destruct (multi_facts g Bz ml D13 FT Hm d Hdd) as (h & k & G1 & G2 & _). rewrite (Hbit d Hd), S2. unfold y. rewrite G2, G1. change (ox e d) with (off e d). ring.
    + exists 0. split; [left; reflexivity|]. destruct (inactive_facts g Bz ml D13 FT d Hdd Hd) as (_ & _ & _ & _ & _ & _ & _ & Es & Ec). rewrite !Es. unfold y. rewrite (O2 d Hdd Hd), (Z0 d Hdd Hd). destruct (Da d Hd) as (_ & _ & ->); [|exact Hdd]. destruct (Db d Hd) as (_ & _ & ->); [|exact Hdd]. ring.
Qed.
Lemma place_coarser : forall a e e' x, ml = true -> In a (blocks t) -> In (n_loc e) (blocks t) -> E a e -> coarser_nb g a e -> E (n_loc e) e' -> n_loc e' = a -> (forall d, ox e' d = - ox e d) -> inbox (set_coarser Bz a e) x ->
  let y d := x d + (ox e' d * cells_in Bz d + bitf e' d * (cells_in Bz d / 2)) in
  (forall d, (d < 3)%nat -> fst (load_finer Bz e' d) = fst (set_coarser Bz a e d) + (ox e' d * cells_in Bz d + bitf e' d * (cells_in Bz d / 2)) /\ snd (load_finer Bz e' d) = snd (set_coarser Bz a e d) + (ox e' d * cells_in Bz d + bitf e' d * (cells_in Bz d / 2))) /\
  own Bz dim false y /\ same_place g Bz (level (n_loc e)) a true x (n_loc e) false y.
Proof using Vg NP NS W Bt ML FT.
  intros a e e' x Hm Ha Hb He (L & Li & _) He' El Ho Hx y. destruct (entry_dirs g Vg NP t W Bt ml ML a e Ha He) as [O1 O2]. pose proof (dim13 g Vg) as D13.
  destruct (in_dom _ Hb) as [Db _]. destruct (in_dom _ Ha) as [Da _].
  assert (FN : finer_nb g (n_loc e) e'). { destruct (kinds g Vg NP NS t W Bt ml ML (n_loc e) e' Hb He') as [[Q _]|[[_ Q]|[_ (Q & _)]]]; [rewrite El in Q; lia|exact Q|rewrite El in Q; lia]. }
  destruct FN as (_ & F01 & m & (N1 & N2 & N3) & Hc & Hbit). rewrite El in Hbit.
  assert (Z0 : forall d, (dim <= d)%nat -> (d < 3)%nat -> bitf e' d = 0). { intros d H1 H2. specialize (Hbit d H2). destruct (Da d H2) as (_ & _ & Q1). destruct (N2 d H2) as (_ & _ & Q2). rewrite (Q1 H1), (Q2 H1) in Hbit. lia. }
  assert (B01 : forall d, bitf e' d = 0 \/ bitf e' d = 1). { intros d. unfold bitf. destruct (Z.eqb (ox e' d) 0); [apply F01|destruct (Z.eqb _ _); auto]. }
  assert (RG : forall d, (d < 3)%nat -> fst (load_finer Bz e' d) = fst (set_coarser Bz a e d) + (ox e' d * cells_in Bz d + bitf e' d * (cells_in Bz d / 2)) /\ snd (load_finer Bz e' d) = snd (set_coarser Bz a e d) + (ox e' d * cells_in Bz d + bitf e' d * (cells_in Bz d / 2))).
  { intros d Hd. apply (coarser_range g Bz ml D13 FT a e e' d (bitf e' d) Hm Hd (O1 d) (Ho d)); [intros H; split; [apply O2|apply Z0]; assumption|reflexivity|apply B01|].
    rewrite lx_coord, (Hbit d Hd). rewrite Z.even_add_mul_2 || idtac. replace (2 * coord d m + bitf e' d) with (bitf e' d + 2 * coord d m) by ring. rewrite Z.even_add_mul_2. destruct (B01 d) as [->| ->]; reflexivity. }
  split; [exact RG|]. split.
  - intros d Hd. apply (load_finer_own g Bz ml D13 FT e' d (y d) Hm Hd); [intros H; rewrite Ho, (O2 d H Hd); reflexivity|]. unfold y. destruct (RG d Hd) as [E1 E2]. specialize (Hx d Hd). lia.
  - intros d Hd. destruct (Nat.lt_ge_cases d dim) as [Hdd|Hdd].
    + destruct (N3 d Hdd) as (s & S1 & S2). exists (- s * cells_in Bz d). split.
      { replace (- s * cells_in Bz d) with (- s * cells_in Bz d) by ring. apply shift_scale. destruct S1 as [->|(P1 & P2 & [->| ->])]; [left; reflexivity|right|right]; (split; [exact P1|]; split; [exact P2|]); [right|left]; ring. }
      destruct (active_facts g Bz ml D13 FT d Hdd) as (_ & _ & _ & _ & _ & _ & _ & Es & _). rewrite !Es.
      destruct (multi_facts g Bz ml D13 FT Hm d Hdd) as (h & k & G1 & G2 & _). rewrite (Hbit d Hd), S2. unfold y. rewrite G2, G1. change (ox e' d) with (off e' d). ring.
    + exists 0. split; [left; reflexivity|]. destruct (inactive_facts g Bz ml D13 FT d Hdd Hd) as (_ & _ & _ & _ & _ & _ & _ & Es & Ec). rewrite !Es. unfold y. rewrite Ho, (O2 d Hdd Hd), (Z0 d Hdd Hd). destruct (Da d Hd) as (_ & _ & ->); [|exact Hdd]. destruct (Db d Hd) as (_ & _ & ->); [|exact Hdd]. ring.
Qed.

(** One entry. *)
Lemma set1 : forall a e, In a (blocks t) -> E a e -> exists msg, arriving g ml t Bz nl nu V R a e = Some msg /\
  forall st n x, let st' := Set1 Bz nl nu a e msg st in
  (nl <= n <= nu -> wm a e x -> good_main a n x (value (fst st') n x)) /\ (~ (nl <= n <= nu /\ wm a e x) -> value (fst st') n x = value (fst st) n x) /\
  (nl <= n <= nu -> wc a e x -> good_coarse a n x (value (snd st') n x)) /\ (~ (nl <= n <= nu /\ wc a e x) -> value (snd st') n x = value (snd st) n x).
Proof using Vg NP NS W Bt ML FT.
  intros a e Ha He. destruct (arriving_ok g Vg NP NS t W Bt ml ML Bz nl nu V R a e Ha He) as (Hb & e' & Em & He' & El & Ho). eexists. split; [exact Em|].
  intros [var cbuf] n x. cbv zeta. unfold Load, Set1. rewrite El. pose proof (wm_side a e x Ha He) as WS. pose proof (wc_side a e x Ha He) as CS. unfold wm, wc in *. pose proof (dim13 g Vg) as D13. destruct (entry_dirs g Vg NP t W Bt ml ML a e Ha He) as [O1 O2].
  destruct (kinds g Vg NP NS t W Bt ml ML a e Ha He) as [S|[[Hm S]|[Hm S]]]; pose proof S as SS.
  - destruct S as (L & N). rewrite L, Nat.eqb_refl in *. cbn [fst snd]. split; [|split; [|split; [contradiction|reflexivity]]].
    + intros Hn Hw. destruct (place_same a e e' x Ha Hb He SS Ho Hw) as [P1 P2].
      rewrite (written (V (n_loc e)) nl nu (load_same Bz e') (set_same Bz e) (fun d => - ox e d * cells_in Bz d)); [|intros d Hd; apply (same_range g Bz ml D13 FT e e' d Hd (O1 d) (Ho d) (fun H => O2 d H Hd))|exact Hw|exact Hn].
      eexists (n_loc e), _. split; [exact Hb|]. left. split; [|split; [exact P1|split; [exact P2|reflexivity]]]. apply (np_ext g a (off e)); [intros d Hd; rewrite <- ox_off; symmetry; apply WS; [exact Hw|lia]|exact N].
    + intros H. apply unwritten. intros [H1 H2]. apply H. split; [exact H1|exact H2].
  - pose proof S as (L & F01 & m & N & Hc & _). replace (Nat.eqb (level (n_loc e)) (level a)) with false in * by (symmetry; apply Nat.eqb_neq; lia). replace (Nat.eqb (level a) (level (n_loc e))) with false by (symmetry; apply Nat.eqb_neq; lia).
    replace (Nat.ltb (level (n_loc e)) (level a)) with false in * by (symmetry; apply Nat.ltb_ge; lia). replace (Nat.ltb (level a) (level (n_loc e))) with true by (symmetry; apply Nat.ltb_lt; lia). cbn [fst snd]. split; [|split; [|split; [contradiction|reflexivity]]].
    + intros Hn Hw. destruct (place_finer a e e' x Hm Ha Hb He SS Ho Hw) as (RG & P1 & P2).
      rewrite (written (R (n_loc e) (V (n_loc e))) nl nu (load_coarser Bz e') (set_finer Bz e) (fun d => - ox e d * cells_in Bz d - bitf e d * (cells_in Bz d / 2))); [|exact RG|exact Hw|exact Hn].
      eexists (n_loc e), _. split; [exact Hb|]. right. exists m. split; [|split; [exact Hc|split; [exact P1|split; [exact P2|reflexivity]]]]. apply (np_ext g a (off e)); [intros d Hd; rewrite <- ox_off; symmetry; apply WS; [exact Hw|lia]|exact N].
    + intros H. apply unwritten. intros [H1 H2]. apply H. split; [exact H1|exact H2].
  - pose proof S as (L & Li & m & N & Hc). replace (Nat.eqb (level (n_loc e)) (level a)) with false in * by (symmetry; apply Nat.eqb_neq; lia). replace (Nat.eqb (level a) (level (n_loc e))) with false by (symmetry; apply Nat.eqb_neq; lia).
    replace (Nat.ltb (level (n_loc e)) (level a)) with true in * by (symmetry; apply Nat.ltb_lt; lia). replace (Nat.ltb (level a) (level (n_loc e))) with false by (symmetry; apply Nat.ltb_ge; lia). cbn [fst snd]. split; [contradiction|]. split; [reflexivity|]. split.
    + intros Hn Hw. destruct (place_coarser a e e' x Hm Ha Hb He SS He' El Ho Hw) as (RG & P1 & P2).
      rewrite (written (V (n_loc e)) nl nu (load_finer Bz e') (set_coarser Bz a e) (fun d => ox e' d * cells_in Bz d + bitf e' d * (cells_in Bz d / 2))); [|exact RG|exact Hw|exact Hn].
      eexists (n_loc e), _, m. split; [exact Hb|]. destruct (CS Hw) as (_ & _ & Q). split; [|split; [exact Hc|split; [exact P1|split; [exact P2|reflexivity]]]]. apply (np_ext g a (off e)); [intros d Hd; rewrite <- ox_off; symmetry; apply Q; lia|exact N].
    + intros H. apply unwritten. intros [H1 H2]. apply H. split; [exact H1|exact H2].
Qed.
(** All entries, in any order. *)
Lemma set_all : forall a es st, In a (blocks t) -> (forall e, In e es -> E a e) -> exists st', SetBoundaries g ml t Bz nl nu V R a es st = Some st' /\ forall n x,
  (nl <= n <= nu -> (exists e, In e es /\ wm a e x) -> good_main a n x (value (fst st') n x)) /\ (~ (nl <= n <= nu /\ exists e, In e es /\ wm a e x) -> value (fst st') n x = value (fst st) n x) /\
  (nl <= n <= nu -> (exists e, In e es /\ wc a e x) -> good_coarse a n x (value (snd st') n x)) /\ (~ (nl <= n <= nu /\ exists e, In e es /\ wc a e x) -> value (snd st') n x = value (snd st) n x).
Proof using Vg NP NS W Bt ML FT.
  intros a es. induction es as [|e es IH]; intros st Ha Hes.
  - exists st. split; [reflexivity|]. intros n x. repeat apply conj; try reflexivity; intros _ (e & [] & _).
  - destruct (set1 a e Ha (Hes e (or_introl eq_refl))) as (msg & Em & P). cbn [SetBoundaries]. rewrite Em. destruct (IH (Set1 Bz nl nu a e msg st) Ha (fun e0 H => Hes e0 (or_intror H))) as (st' & E' & Q). exists st'. split; [exact E'|].
    intros n x. destruct (P st n x) as (P1 & P2 & P3 & P4). destruct (Q n x) as (Q1 & Q2 & Q3 & Q4). cbv zeta in *.
    assert (D1 : (exists e0, In e0 es /\ wm a e0 x) \/ ~ (exists e0, In e0 es /\ wm a e0 x)).
    { clear. induction es as [|e0 l IH]; [right; intros (e & [] & _)|]. destruct IH as [(e1 & H1 & H2)|IH]; [left; exists e1; split; [right; exact H1|exact H2]|].
      assert (D : wm a e0 x \/ ~ wm a e0 x) by (unfold wm; destruct (Nat.eqb _ _); [apply inbox_dec|destruct (Nat.ltb _ _); [right; auto|apply inbox_dec]]). destruct D as [D|D]; [left; exists e0; split; [left; reflexivity|exact D]|].
      right. intros (e1 & [->|H1] & H2); [contradiction|]. apply IH. exists e1. split; assumption. }
    assert (D2 : (exists e0, In e0 es /\ wc a e0 x) \/ ~ (exists e0, In e0 es /\ wc a e0 x)).
    { clear. induction es as [|e0 l IH]; [right; intros (e & [] & _)|]. destruct IH as [(e1 & H1 & H2)|IH]; [left; exists e1; split; [right; exact H1|exact H2]|].
      assert (D : wc a e0 x \/ ~ wc a e0 x) by (unfold wc; destruct (Nat.eqb _ _); [right; auto|destruct (Nat.ltb _ _); [apply inbox_dec|right; auto]]). destruct D as [D|D]; [left; exists e0; split; [left; reflexivity|exact D]|].
      right. intros (e1 & [->|H1] & H2); [contradiction|]. apply IH. exists e1. split; assumption. }
    split; [|split; [|split]].
    + intros Hn (e0 & He0 & Hw). destruct D1 as [D|D]; [apply Q1; assumption|]. rewrite Q2 by (intros [_ X]; contradiction). destruct He0 as [->|He0]; [apply P1; assumption|]. contradiction D. exists e0. split; assumption.
    + intros H. rewrite Q2, P2; [reflexivity| |]; intros [X1 X2]; apply H; (split; [exact X1|]); [exists e; split; [left; reflexivity|exact X2]|destruct X2 as (e0 & Y1 & Y2); exists e0; split; [right; exact Y1|exact Y2]].
    + intros Hn (e0 & He0 & Hw). destruct D2 as [D|D]; [apply Q3; assumption|]. rewrite Q4 by (intros [_ X]; contradiction). destruct He0 as [->|He0]; [apply P3; assumption|]. contradiction D. exists e0. split; assumption.
    + intros H. rewrite Q4, P4; [reflexivity| |]; intros [X1 X2]; apply H; (split; [exact X1|]); [exists e; split; [left; reflexivity|exact X2]|destruct X2 as (e0 & Y1 & Y2); exists e0; split; [right; exact Y1|exact Y2]].
Qed.
End N.
