(** Every ghost cell that lies in another block is written, and what is written is determined by its place. *)
From Coq Require Import List Arith NArith ZArith Bool Lia Permutation.
From Verif Require Import Loc LB_Spec Tags_Model Tags_Spec Tags_Proofs AMR_Model AMR_Spec AMR_Proofs AMR_Proofs2 Tree_Model Tree_Spec Tree_Proofs1 Tree_Proofs2 Tree_Proofs3 Tree_Proofs4 Tree_Proofs5 Tree_Proofs6 Tree_Proofs7 Tree_Proofs8 Tree_Restart Tree_Proofs9 Tree_Proofs10 Nbr_Model Nbr_Spec Nbr_Proofs Nbr_Proofs2 Nbr_Proofs3 Buf_Model Gho_Model Gho_Spec Gho_Proofs Gho_Proofs2 Gho_Proofs3.
Import ListNotations.
Local Open Scope Z_scope.

Lemma digits : forall q q' h r r', 0 <= r < h -> 0 <= r' < h -> q * h + r = q' * h + r' -> q = q' /\ r = r'.
Proof. intros q q' h r r' H H' E. assert (q = q') by nia. subst. lia. Qed.
Definition sdir (B : bsz) (dim : nat) (h : bool) (x : cell) : dirt := (side B dim h x 0, side B dim h x 1, side B dim h x 2).
Lemma od_sdir : forall B dim h x d, (d < 3)%nat -> od (sdir B dim h x) d = side B dim h x d.
Proof. intros B dim h x [|[|[|d]]] Hd; [reflexivity|reflexivity|reflexivity|lia]. Qed.

Section N.
Variable g : grid.
Hypothesis Vg : valid_grid g.
Hypothesis NP : no_pole g.
Hypothesis NS : no_shear g.
Variable t : tree.
Hypothesis W : wf g t.
Hypothesis Bt : B g t.
Variable ml : bool.
Hypothesis ML : declared g ml (blocks t).
Local Notation dim := (gdim g).
Local Notation E := (E g t ml).
Variable Bz : bsz.
Hypothesis FT : fitting g Bz ml.
Local Notation D13 := (dim13 g Vg).

Lemma side_range : forall h x d, side Bz dim h x d = -1 \/ side Bz dim h x d = 0 \/ side Bz dim h x d = 1.
Proof using. intros h x d. unfold side. destruct (Z.ltb _ _); [auto|]. destruct (Z.leb _ _); auto. Qed.
Lemma side_inactive : forall h w x d, near Bz dim h w x -> (dim <= d)%nat -> (d < 3)%nat -> side Bz dim h x d = 0.
Proof using. intros h w x d N Hi Hd. specialize (N d Hd). cbv zeta in N. replace (Nat.ltb d dim) with false in N by (symmetry; apply Nat.ltb_ge, Hi). unfold side. destruct (Z.ltb_spec (x d) (first Bz dim d)); [lia|]. destruct (Z.leb_spec (first Bz dim d + size Bz dim h d) (x d)); lia. Qed.
Lemma side_own : forall h x, (forall d, (d < 3)%nat -> side Bz dim h x d = 0) <-> own Bz dim h x.
Proof using.
  intros h x. split; intros H d Hd; specialize (H d Hd); unfold side in *; destruct (Z.ltb_spec (x d) (first Bz dim d)), (Z.leb_spec (first Bz dim d + size Bz dim h d) (x d)); try discriminate H; lia.
Qed.
Lemma sdir_ok : forall h w x, near Bz dim h w x -> ~ own Bz dim h x -> okdir dim (sdir Bz dim h x).
Proof using Vg.
  intros h w x N O. pose proof D13. unfold okdir, sdir. pose proof (side_range h x 0%nat). pose proof (side_range h x 1%nat). pose proof (side_range h x 2%nat). repeat apply conj; try lia.
  - intros Hd. apply (side_inactive h w x 1 N); lia.
  - intros Hd. apply (side_inactive h w x 2 N); lia.
  - destruct (Z.eq_dec (side Bz dim h x 0) 0) as [E0|]; [|left; assumption]. destruct (Z.eq_dec (side Bz dim h x 1) 0) as [E1|]; [|right; left; assumption]. destruct (Z.eq_dec (side Bz dim h x 2) 0) as [E2|]; [|right; right; assumption].
    contradiction O. apply side_own. intros [|[|[|d]]] Hd; try assumption. lia.
Qed.
(** Within one block-size of the block: the offset in units of blocks. *)
Lemma side_digit : forall (h : bool) w x d, near Bz dim h w x -> (d < dim)%nat -> w <= size Bz dim h d -> 0 <= x d - first Bz dim d - side Bz dim h x d * size Bz dim h d < size Bz dim h d.
Proof using Vg.
  intros h w x d N Hd Hw. pose proof D13. specialize (N d ltac:(lia)). cbv zeta in N. replace (Nat.ltb d dim) with true in N by (symmetry; apply Nat.ltb_lt, Hd). unfold side.
  destruct (Z.ltb_spec (x d) (first Bz dim d)); [lia|]. destruct (Z.leb_spec (first Bz dim d + size Bz dim h d) (x d)); lia.
Qed.
(** The place of an own cell within the domain. *)
Lemma place_range : forall b (hb : bool) y lev d, In b (blocks t) -> (hb = true -> ml = true) -> level b = (if hb then S lev else lev) -> (groot g <= lev)%nat -> own Bz dim hb y -> (d < 3)%nat ->
  0 <= coord d b * size Bz dim hb d + (y d - first Bz dim d) < gnrb g d * 2 ^ Z.of_nat (lev - groot g) * cells_in Bz d \/ ((dim <= d)%nat /\ coord d b = 0 /\ y d = 0 /\ size Bz dim hb d = 1 /\ first Bz dim d = 0).
Proof using Vg W FT.
  intros b hb y lev d Hb Hm L Hr Ho Hd. destruct (in_dom g t W b Hb) as [Db Rb]. specialize (Ho d Hd). destruct (Nat.lt_ge_cases d dim) as [Ha|Hi].
  - left. pose proof (dom_inr g b d Rb Db Hd) as Hx. unfold inr in Hx. rewrite L in Hx. destruct (active_facts g Bz ml D13 FT d Ha) as (_ & _ & _ & _ & _ & _ & E3 & E4 & N1 & N2). rewrite E3, E4 in *. destruct hb.
    + rewrite (nmax_S g d lev Hr Ha) in Hx. destruct (multi_facts g Bz ml D13 FT (Hm eq_refl) d Ha) as (h & k & G1 & G2 & _). rewrite G2, G1 in *. unfold nmax in Hx. replace (Nat.ltb d dim) with true in Hx by (symmetry; apply Nat.ltb_lt, Ha). nia.
    + unfold nmax in Hx. replace (Nat.ltb d dim) with true in Hx by (symmetry; apply Nat.ltb_lt, Ha). nia.
  - right. destruct (inactive_facts g Bz ml D13 FT d Hi Hd) as (_ & _ & _ & _ & _ & _ & E3 & E4 & _). rewrite E3, E4 in *. destruct (Db d Hd) as (_ & _ & C0). rewrite (C0 Hi). repeat split; try assumption; lia.
Qed.
(** Two own cells at the place of the same cell are at the same place of the domain. *)
Lemma place_eq : forall a ha x lev b hb y b0 hb0 y0, In b (blocks t) -> In b0 (blocks t) -> (hb = true -> ml = true) -> (hb0 = true -> ml = true) -> level b = (if hb then S lev else lev) -> level b0 = (if hb0 then S lev else lev) -> (groot g <= lev)%nat ->
  own Bz dim hb y -> own Bz dim hb0 y0 -> same_place g Bz lev a ha x b hb y -> same_place g Bz lev a ha x b0 hb0 y0 ->
  forall d, (d < 3)%nat -> coord d b * size Bz dim hb d + (y d - first Bz dim d) = coord d b0 * size Bz dim hb0 d + (y0 d - first Bz dim d).
Proof using Vg W FT.
  intros a ha x lev b hb y b0 hb0 y0 Hb Hb0 Hm Hm0 L L0 Hr O O0 P P0 d Hd. destruct (P d Hd) as (s & S1 & S2). destruct (P0 d Hd) as (s0 & S10 & S20).
  pose proof (place_range b hb y lev d Hb Hm L Hr O Hd) as R. pose proof (place_range b0 hb0 y0 lev d Hb0 Hm0 L0 Hr O0 Hd) as R0.
  destruct R as [R|(Ri & Rc & Ry & Rs & Rf)]; [|destruct R0 as [R0|(_ & Rc0 & Ry0 & Rs0 & Rf0)]].
  - destruct R0 as [R0|(Ri & Rc & Ry & Rs & Rf)].
    + set (w := gnrb g d * 2 ^ Z.of_nat (lev - groot g) * cells_in Bz d) in *. unfold period_shift in *. destruct S1 as [->|(_ & _ & [->| ->])], S10 as [->|(_ & _ & [->| ->])]; lia.
    + destruct (inactive_facts g Bz ml D13 FT d Ri Hd) as (_ & _ & _ & _ & _ & _ & E3 & E4 & E5). destruct (in_dom g t W b Hb) as [Db _]. destruct (Db d Hd) as (_ & _ & C0). specialize (O d Hd). rewrite E3, E4 in *. rewrite (C0 Ri), Rc. lia.
  - destruct (inactive_facts g Bz ml D13 FT d Ri Hd) as (_ & _ & _ & _ & _ & _ & E3 & E4 & E5). destruct (in_dom g t W b0 Hb0) as [Db _]. destruct (Db d Hd) as (_ & _ & C0). specialize (O0 d Hd). rewrite E3, E4 in *. rewrite (C0 Ri), Rc. lia.
  - rewrite Rc, Ry, Rc0, Ry0. lia.
Qed.
Lemma size_pos : forall (h : bool) d, (d < 3)%nat -> (h = true -> ml = true) -> 1 <= size Bz dim h d.
Proof using Vg FT.
  intros h d Hd Hm. destruct (Nat.lt_ge_cases d dim) as [Ha|Hi].
  - destruct (active_facts g Bz ml D13 FT d Ha) as (_ & _ & _ & _ & _ & _ & _ & -> & N1 & N2). destruct h; [|lia]. destruct (multi_facts g Bz ml D13 FT (Hm eq_refl) d Ha) as (h & k & G1 & G2 & _). lia.
  - destruct (inactive_facts g Bz ml D13 FT d Hi Hd) as (_ & _ & _ & _ & _ & _ & _ & -> & _). lia.
Qed.
Lemma place_det : forall a ha x lev b hb y b0 y0, In b (blocks t) -> In b0 (blocks t) -> (hb = true -> ml = true) -> level b = (if hb then S lev else lev) -> level b0 = (if hb then S lev else lev) -> (groot g <= lev)%nat ->
  own Bz dim hb y -> own Bz dim hb y0 -> same_place g Bz lev a ha x b hb y -> same_place g Bz lev a ha x b0 hb y0 -> b = b0 /\ forall d, (d < 3)%nat -> y d = y0 d.
Proof using Vg W FT.
  intros a ha x lev b hb y b0 y0 Hb Hb0 Hm L L0 Hr O O0 P P0. pose proof (place_eq a ha x lev b hb y b0 hb y0 Hb Hb0 Hm Hm L L0 Hr O O0 P P0) as Q.
  assert (Q2 : forall d, (d < 3)%nat -> coord d b = coord d b0 /\ y d - first Bz dim d = y0 d - first Bz dim d). { intros d Hd. specialize (O d Hd). specialize (O0 d Hd). apply (digits _ _ (size Bz dim hb d)); [lia|lia|apply Q, Hd]. }
  split; [apply coord_eq; [congruence|]; intros d Hd; apply Q2, Hd|]. intros d Hd. destruct (Q2 d Hd). lia.
Qed.
(** A block and one of a finer level do not share a place. *)
Lemma place_excl : forall a ha x lev b y b0 y0, In b (blocks t) -> In b0 (blocks t) -> ml = true -> level b = lev -> level b0 = S lev -> (groot g <= lev)%nat ->
  own Bz dim false y -> own Bz dim true y0 -> same_place g Bz lev a ha x b false y -> same_place g Bz lev a ha x b0 true y0 -> False.
Proof using Vg W FT.
  intros a ha x lev b y b0 y0 Hb Hb0 Hm L L0 Hr O O0 P P0. pose proof (place_eq a ha x lev b false y b0 true y0 Hb Hb0 ltac:(discriminate) (fun _ => Hm) L L0 Hr O O0 P P0) as Q.
  assert (Ea : anc 1 b0 = b).
  { apply coord_eq; [cbn [anc level]; lia|]. intros d Hd. rewrite coord_anc1. specialize (Q d Hd). specialize (O d Hd). specialize (O0 d Hd). pose proof (myf_div g (coord d b0)) as Hc. pose proof (myf_01 (coord d b0)) as H01. set (q := coord d b0 / 2) in *. set (r := myf (coord d b0)) in *. clearbody q r.
    destruct (Nat.lt_ge_cases d dim) as [Ha|Hi].
    - destruct (active_facts g Bz ml D13 FT d Ha) as (_ & _ & _ & _ & _ & _ & E3 & E4 & N1 & N2). rewrite E3, !E4 in *. destruct (multi_facts g Bz ml D13 FT Hm d Ha) as (h & k & G1 & G2 & _). rewrite G2, G1 in *.
      symmetry. apply (digits (coord d b) q (2 * h) (y d - ng Bz) (r * h + (y0 d - ng Bz))); [lia|nia|]. rewrite Hc in Q. rewrite Q. ring.
    - destruct (in_dom g t W b Hb) as [Db _]. destruct (in_dom g t W b0 Hb0) as [Db0 _]. destruct (Db d Hd) as (_ & _ & ->); [|exact Hi]. destruct (Db0 d Hd) as (_ & _ & C0). rewrite (C0 Hi) in Hc. lia. }
  apply (in_blocks g t b W) in Hb as [Cb (zb & Kb)]. apply (in_blocks g t b0 W) in Hb0 as [Cb0 (z0 & K0)]. assert (K t (anc 1 b0) = KNode) by (apply K_anc; [lia|lia|congruence]). rewrite Ea in *. congruence.
Qed.

(** Coverage. *)
Lemma cov_same : forall a x b y, In a (blocks t) -> In b (blocks t) -> near Bz dim false (ng Bz) x -> ~ own Bz dim false x -> level b = level a -> own Bz dim false y -> same_place g Bz (level a) a false x b false y ->
  exists e, E a e /\ wm Bz a e x.
Proof using Vg NP NS W Bt ML FT.
  intros a x b y Ha Hb N NO L O P. destruct (in_dom g t W b Hb) as [Db Rb]. pose proof (sdir_ok false _ x N NO) as Ok.
  assert (NPs : neighbour_position g a (od (sdir Bz dim false x)) b).
  { split; [exact L|]. split; [exact Db|]. intros d Hd. pose proof D13. destruct (P d ltac:(lia)) as (s & S1 & S2). destruct (active_facts g Bz ml D13 FT d Hd) as (_ & _ & _ & _ & _ & _ & E3 & E4 & N1 & N2).
    pose proof (side_digit false (ng Bz) x d N Hd ltac:(rewrite E4; lia)) as Sd. specialize (O d ltac:(lia)). rewrite E3, !E4 in *. rewrite (od_sdir Bz dim false x d) by lia. set (o := side Bz dim false x d) in *. clearbody o.
    set (w := gnrb g d * 2 ^ Z.of_nat (level a - groot g)) in *. unfold period_shift in *.
    assert (exists s', s = s' * cells_in Bz d /\ (s' = 0 \/ (gbc g d false = BPeriodic /\ gbc g d true = BPeriodic /\ (s' = w \/ s' = - w)))) as (s' & Es & S1').
    { destruct S1 as [->|(B1 & B2 & [->| ->])]; [exists 0; split; [reflexivity|left; reflexivity]|exists w; split; [reflexivity|right; auto]|exists (- w); split; [ring|right; auto]]. }
    exists s'. split; [exact S1'|].
    apply (digits (coord d b) (coord d a + o + s') (cells_in Bz d) (y d - ng Bz) (x d - ng Bz - o * cells_in Bz d)); [lia|lia|]. rewrite S2, Es. ring. }
  destruct (proj1 (cover_dir g Vg t W ml ML a _ b Ha Ok NPs) Hb) as (e & He & El & Eo). exists e. split; [exact He|]. unfold wm. rewrite El, L, Nat.eqb_refl. intros d Hd.
  destruct (entry_dirs g Vg NP t W Bt ml ML a e Ha He) as [O1 O2]. apply (set_same_side g Bz ml D13 FT e d x Hd (O1 d) (fun H => O2 d H Hd)). split; [|apply N, Hd]. rewrite ox_off, Eo. symmetry. apply od_sdir, Hd.
Qed.
Lemma cov_finer : forall a x b y, ml = true -> In a (blocks t) -> In b (blocks t) -> near Bz dim false (ng Bz) x -> ~ own Bz dim false x -> level b = S (level a) -> own Bz dim true y -> same_place g Bz (level a) a false x b true y ->
  exists e, E a e /\ wm Bz a e x.
Proof using Vg NP NS W Bt ML FT.
  intros a x b y Hm Ha Hb N NO L O P. destruct (in_dom g t W b Hb) as [Db Rb]. destruct (in_dom g t W a Ha) as [Da Ra]. pose proof (sdir_ok false _ x N NO) as Ok.
  assert (Dm : in_domain g (anc 1 b)) by (apply (dom_anc g); [exact Db|lia]).
  assert (KEY : forall d, (d < dim)%nat -> exists s, period_shift g d (gnrb g d * 2 ^ Z.of_nat (level a - groot g)) s /\ coord d b / 2 = coord d a + side Bz dim false x d + s /\
     x d - ng Bz - side Bz dim false x d * cells_in Bz d = myf (coord d b) * (cells_in Bz d / 2) + (y d - ng Bz) /\ 0 <= y d - ng Bz < cells_in Bz d / 2).
  { intros d Hd. pose proof D13. destruct (P d ltac:(lia)) as (s & S1 & S2). destruct (active_facts g Bz ml D13 FT d Hd) as (_ & _ & _ & _ & _ & _ & E3 & E4 & N1 & N2).
    pose proof (side_digit false (ng Bz) x d N Hd ltac:(rewrite E4; lia)) as Sd. specialize (O d ltac:(lia)). rewrite E3, !E4 in *. set (o := side Bz dim false x d) in *. clearbody o.
    destruct (multi_facts g Bz ml D13 FT Hm d Hd) as (h & k & G1 & G2 & _). rewrite G2 in *. rewrite G1 in *.
    pose proof (myf_div g (coord d b)) as Hc. pose proof (myf_01 (coord d b)) as H01. set (q := coord d b / 2) in *. set (r := myf (coord d b)) in *. clearbody q r.
    set (w := gnrb g d * 2 ^ Z.of_nat (level a - groot g)) in *. unfold period_shift in *.
    assert (exists s', s = s' * (2 * h) /\ (s' = 0 \/ (gbc g d false = BPeriodic /\ gbc g d true = BPeriodic /\ (s' = w \/ s' = - w)))) as (s' & Es & S1').
    { destruct S1 as [->|(B1 & B2 & [->| ->])]; [exists 0; split; [reflexivity|left; reflexivity]|exists w; split; [reflexivity|right; auto]|exists (- w); split; [ring|right; auto]]. }
    exists s'. split; [exact S1'|].
    destruct (digits q (coord d a + o + s') (2 * h) (r * h + (y d - ng Bz)) (x d - ng Bz - o * (2 * h))) as [Q1 Q2]; [destruct H01 as [-> | ->]; lia|lia|rewrite Hc, Es in S2; lia|]. lia. }
  assert (NPs : neighbour_position g a (od (sdir Bz dim false x)) (anc 1 b)).
  { split; [cbn [anc level]; lia|]. split; [exact Dm|]. intros d Hd. pose proof D13. destruct (KEY d Hd) as (s & S1 & S2 & _). exists s. split; [exact S1|]. rewrite coord_anc1, od_sdir by lia. exact S2. }
  destruct (dom_child_of g b Db ltac:(lia)) as (j & Hj & Ej). assert (Hch : In b (children dim (anc 1 b))) by (rewrite Ej at 1; apply in_map, in_seq; lia).
  assert (RS : forall d, (d < dim)%nat -> (side Bz dim false x d = -1 -> myf (coord d b) = 1) /\ (side Bz dim false x d = 1 -> myf (coord d b) = 0) /\ (side Bz dim false x d = 0 -> (myf (coord d b) = 1 <-> ng Bz + cells_in Bz d / 2 <= x d))).
  { intros d Hd. pose proof D13. destruct (KEY d Hd) as (s & _ & _ & K1 & K2). destruct (multi_facts g Bz ml D13 FT Hm d Hd) as (h & k & G1 & G2 & G3 & _ & K3 & K4). rewrite G2 in *. rewrite G1 in *. pose proof (N d ltac:(lia)) as Nd. cbv zeta in Nd. replace (Nat.ltb d dim) with true in Nd by (symmetry; apply Nat.ltb_lt, Hd).
    destruct (active_facts g Bz ml D13 FT d Hd) as (_ & _ & _ & _ & _ & _ & E3 & E4 & _). rewrite E3, E4, G1 in Nd. pose proof (myf_01 (coord d b)) as H01. set (r := myf (coord d b)) in *. set (o := side Bz dim false x d) in *. clearbody r o.
    split; [|split]; intros Eo; rewrite Eo in *; destruct H01 as [-> | ->]; try reflexivity; try lia. }
  assert (FC : forall d, (d < 3)%nat -> (od (sdir Bz dim false x) d = -1 -> Z.odd (coord d b) = true) /\ (od (sdir Bz dim false x) d = 1 -> Z.odd (coord d b) = false)).
  { intros d Hd. rewrite od_sdir by exact Hd. destruct (Nat.lt_ge_cases d dim) as [Hd'|Hi]; [|rewrite (side_inactive false _ x d N Hi Hd); split; discriminate]. destruct (RS d Hd') as (R1 & R2 & _). unfold myf in *. split; intros H; [specialize (R1 H)|specialize (R2 H)]; destruct (Z.odd (coord d b)); reflexivity || discriminate. }
  destruct (proj1 (proj2 (cover_dir g Vg t W ml ML a _ (anc 1 b) Ha Ok NPs)) b Hb Hch FC) as (e & He & El & Eo). exists e. split; [exact He|]. unfold wm. rewrite El, L. replace (Nat.eqb (S (level a)) (level a)) with false by (symmetry; apply Nat.eqb_neq; lia). replace (Nat.ltb (S (level a)) (level a)) with false by (symmetry; apply Nat.ltb_ge; lia). intros d Hd.
  destruct (entry_dirs g Vg NP t W Bt ml ML a e Ha He) as [O1 O2].
  assert (FN : finer_nb g a e). { destruct (kinds g Vg NP NS t W Bt ml ML a e Ha He) as [[Q _]|[[_ Q]|[_ (Q & _)]]]; [rewrite El in Q; lia|exact Q|rewrite El in Q; lia]. } destruct FN as (_ & F01 & m & _ & Hcm & Hbit).
  assert (Es : ox e d = side Bz dim false x d) by (rewrite ox_off, Eo; apply od_sdir, Hd).
  apply (set_finer_side g Bz ml D13 FT e d x Hm Hd (O1 d) (fun H => O2 d H Hd) (F01 d)). split; [split; [symmetry; exact Es|apply N, Hd]|]. intros Hdd E0.
  assert (Em : m = anc 1 b). { rewrite El in Hcm. apply in_map_iff in Hcm as (j' & <- & _). symmetry. apply anc_child. }
  specialize (Hbit d Hd). rewrite El, Em, coord_anc1 in Hbit. pose proof (myf_div g (coord d b)) as Hc. unfold bitf in Hbit. rewrite E0 in Hbit. cbn [Z.eqb] in Hbit. assert (Ef : fsel e d = myf (coord d b)) by lia. rewrite Ef.
  destruct (active_facts g Bz ml D13 FT d Hdd) as (_ & _ & _ & _ & _ & _ & E3 & E4 & _). rewrite E3, E4. apply RS; [exact Hdd|]. rewrite <- Es. exact E0.
Qed.
Lemma cov_coarser : forall a x b y, ml = true -> In a (blocks t) -> In b (blocks t) -> near Bz dim true (cng Bz) x -> level a = S (level b) -> own Bz dim false y -> same_place g Bz (level b) a true x b false y ->
  exists e, E a e /\ wc Bz a e x.
Proof using Vg NP NS W Bt ML FT.
  intros a x b y Hm Ha Hb N L O P. pose proof D13 as D. destruct (in_dom g t W b Hb) as [Db Rb]. destruct (in_dom g t W a Ha) as [Da Ra].
  set (o' := fun d => outward a (side Bz dim true x) d).
  assert (Or : forall d, o' d = -1 \/ o' d = 0 \/ o' d = 1). { intros d. unfold o', outward. destruct (Z.eqb _ _); [apply side_range|auto]. }
  assert (Oi : forall d, (dim <= d)%nat -> (d < 3)%nat -> o' d = 0). { intros d Hi Hd. unfold o', outward. rewrite (side_inactive true _ x d N Hi Hd). destruct (Z.eqb _ _); reflexivity. }
  assert (KEY : forall d, (d < dim)%nat -> exists s, period_shift g d (gnrb g d * 2 ^ Z.of_nat (level a - groot g)) s /\ (coord d a + o' d + s) / 2 = coord d b).
  { intros d Hd. destruct (P d ltac:(lia)) as (s & S1 & S2). destruct (active_facts g Bz ml D13 FT d Hd) as (_ & _ & _ & _ & _ & _ & E3 & E4 & N1 & N2).
    destruct (multi_facts g Bz ml D13 FT Hm d Hd) as (h & k & G1 & G2 & G3 & G4 & G5 & G6). pose proof (side_digit true (cng Bz) x d N Hd ltac:(rewrite E4, G2, G4; lia)) as Sd. specialize (O d ltac:(lia)). rewrite E3, !E4 in *. rewrite G2 in *. rewrite G1 in *.
    set (w := gnrb g d * 2 ^ Z.of_nat (level b - groot g)) in *. assert (Ew : gnrb g d * 2 ^ Z.of_nat (level a - groot g) = 2 * w). { rewrite L. replace (S (level b) - groot g)%nat with (S (level b - groot g)) by lia. rewrite pow2_S. unfold w. ring. }
    rewrite Ew. clearbody w.
    assert (exists v, s = v * (2 * h) /\ (v = 0 \/ (gbc g d false = BPeriodic /\ gbc g d true = BPeriodic /\ (v = w \/ v = - w)))) as (v & Es & Sv).
    { destruct S1 as [->|(B1 & B2 & [->| ->])]; [exists 0; split; [reflexivity|left; reflexivity]|exists w; split; [reflexivity|right; auto]|exists (- w); split; [ring|right; auto]]. }
    exists (2 * v). split. { destruct Sv as [->|(B1 & B2 & [->| ->])]; [left; reflexivity|right; auto|right]. split; [exact B1|]. split; [exact B2|]. right. ring. }
    assert (Hq : (coord d a + side Bz dim true x d + 2 * v) / 2 = coord d b).
    { set (o := side Bz dim true x d) in *. set (c := coord d a + o + 2 * v) in *. pose proof (myf_div g c) as Hc. pose proof (myf_01 c) as H01. set (q := c / 2) in *. set (r := myf c) in *. clearbody q r.
      destruct (digits (coord d b) q (2 * h) (y d - ng Bz) (r * h + (x d - ng Bz - o * h))) as [Q _]; [lia|destruct H01 as [-> | ->]; lia| |symmetry; exact Q]. rewrite S2, Es. transitivity (c * h + (x d - ng Bz - o * h)); [unfold c; ring|rewrite Hc; ring]. }
    unfold o', outward. destruct (Z.eqb_spec (side Bz dim true x d) (myo (coord d a))) as [E0|E0]; [exact Hq|]. rewrite <- Hq. replace (coord d a + 0 + 2 * v) with (coord d a + v * 2) by ring. replace (coord d a + side Bz dim true x d + 2 * v) with (coord d a + side Bz dim true x d + v * 2) by ring. rewrite !Z.div_add by lia. f_equal.
    pose proof (side_range true x d) as Hs. unfold myo in E0. pose proof (myf_div g (coord d a)) as Hc. pose proof (myf_01 (coord d a)) as H01. set (q := coord d a / 2) in *. set (r := myf (coord d a)) in *. clearbody q r.
    apply (Z.div_unique _ 2 q (r + side Bz dim true x d)); [|lia]. lia. }
  assert (FS : exists s : nat -> Z, forall d, (d < dim)%nat -> period_shift g d (gnrb g d * 2 ^ Z.of_nat (level a - groot g)) (s d) /\ (coord d a + o' d + s d) / 2 = coord d b).
  { destruct (Nat.lt_ge_cases 0 dim) as [H0|]; [|lia]. destruct (KEY 0%nat H0) as (s0 & T0).
    destruct (Nat.lt_ge_cases 1 dim) as [H1|H1]; [destruct (KEY 1%nat H1) as (s1 & T1); destruct (Nat.lt_ge_cases 2 dim) as [H2|H2]; [destruct (KEY 2%nat H2) as (s2 & T2)|]|].
    - exists (fun d => match d with 0%nat => s0 | 1%nat => s1 | _ => s2 end). intros [|[|[|d]]] Hd; try assumption. lia.
    - exists (fun d => match d with 0%nat => s0 | _ => s1 end). intros [|[|[|d]]] Hd; try assumption; lia.
    - exists (fun d => s0). intros [|[|[|d]]] Hd; try assumption; lia. }
  destruct FS as (s & FS). set (c d := if Nat.ltb d dim then coord d a + o' d + s d else 0). set (m := mkLoc (level a) (c 0%nat) (c 1%nat) (c 2%nat)).
  assert (Cm : forall d, (d < 3)%nat -> coord d m = c d) by (intros [|[|[|d]]] Hd; [reflexivity|reflexivity|reflexivity|lia]).
  assert (Am : anc 1 m = b).
  { apply coord_eq; [cbn [anc level m]; lia|]. intros d Hd. rewrite coord_anc1, Cm by exact Hd. unfold c. destruct (Nat.ltb_spec d dim) as [Hd'|Hd']; [apply FS, Hd'|]. destruct (Db d Hd) as (_ & _ & C0). rewrite (C0 Hd'). reflexivity. }
  assert (Dm : in_domain g m).
  { apply (inr_dom g m); [exact Ra|]. intros d Hd. rewrite Cm by exact Hd. change (level m) with (level a). unfold c, inr. destruct (Nat.ltb_spec d dim) as [Hd'|Hd'].
    - rewrite L, (nmax_S g d (level b) Rb Hd'). pose proof (dom_inr g b d Rb Db Hd) as Hx. unfold inr in Hx. destruct (FS d Hd') as [_ Q]. pose proof (Z.div_mod (coord d a + o' d + s d) 2 ltac:(lia)). pose proof (Z.mod_pos_bound (coord d a + o' d + s d) 2 ltac:(lia)). lia.
    - unfold nmax. destruct (Nat.ltb_spec d dim); lia. }
  assert (NB : neighbour_position g a o' m).
  { split; [reflexivity|]. split; [exact Dm|]. intros d Hd. exists (s d). split; [apply FS, Hd|]. rewrite Cm by lia. unfold c. replace (Nat.ltb d dim) with true by (symmetry; apply Nat.ltb_lt, Hd). reflexivity. }
  pose proof Hb as Hb'. apply (in_blocks g t b W) in Hb' as [Cb (zb & Kb)]. pose proof Ha as Ha'. apply (in_blocks g t a W) in Ha' as [Ca (za & Ka)].
  assert (NZ : ~ (forall d, (d < 3)%nat -> o' d = 0)).
  { intros Z0. assert (Ema : m = a). { apply coord_eq; [reflexivity|]. intros d Hd. rewrite Cm by exact Hd. unfold c. destruct (Nat.ltb_spec d dim) as [Hd'|Hd']; [|destruct (Da d Hd) as (_ & _ & C0); rewrite (C0 Hd'); reflexivity].
      rewrite (Z0 d Hd). pose proof (dom_inr g a d Ra Da Hd) as Hx. pose proof (dom_inr g m d Ra Dm Hd) as Hy. rewrite Cm in Hy by exact Hd. change (level m) with (level a) in Hy. unfold inr, c, nmax in Hx, Hy. destruct (Nat.ltb_spec d dim); [|lia]. rewrite (Z0 d Hd) in Hy. destruct (FS d Hd') as [S1 _]. unfold period_shift in S1. destruct S1 as [->|(_ & _ & [E0|E0])]; [ring| |]; rewrite E0 in *; lia. }
    rewrite Ema in Am. assert (K t (anc 1 a) = KNode) by (apply K_anc; [lia|lia|congruence]). rewrite Am in *. congruence. }
  set (o := (o' 0%nat, o' 1%nat, o' 2%nat) : dirt). assert (Eod : forall d, (d < 3)%nat -> od o d = o' d) by (intros [|[|[|d]]] Hd; [reflexivity|reflexivity|reflexivity|lia]).
  assert (Ok : okdir dim o).
  { unfold okdir, o. pose proof (Or 0%nat). pose proof (Or 1%nat). pose proof (Or 2%nat). repeat apply conj; try lia; try (intros Hd; apply Oi; lia).
    destruct (Z.eq_dec (o' 0%nat) 0) as [E0|]; [|left; assumption]. destruct (Z.eq_dec (o' 1%nat) 0) as [E1|]; [|right; left; assumption]. destruct (Z.eq_dec (o' 2%nat) 0) as [E2|]; [|right; right; assumption].
    contradiction NZ. intros [|[|[|d]]] Hd; try assumption. lia. }
  assert (NBo : nb g a (od o) m). { apply (spec_pos g Vg t W a o m Ha Ok). apply (np_ext g a o'); [intros d Hd; symmetry; apply Eod; lia|exact NB]. }
  assert (Km : K t m = KNull). { destruct (K t m) eqn:Em; [reflexivity| |]; exfalso; (assert (K t (anc 1 m) = KNode) by (apply K_anc; [cbn [level m]; lia|lia|congruence])); rewrite Am in *; congruence. }
  destruct (slot_ex0 g Vg ml o Ok) as (k0 & Ek0).
  set (e := mkn b zb o k0 (slot dim ml (opp3 o) (sub1 o (myf (lx1 a)) (myf (lx2 a)) (myf (lx3 a))) (sub2 o (myf (lx1 a)) (myf (lx2 a)) (myf (lx3 a)))) 0 0).
  assert (He : E a e).
  { exists o, m. split; [apply (dirs_iff dim o D); exact Ok|]. split; [exact NBo|]. right. right. split; [exact Km|]. split; [|exists zb, k0; rewrite Am; repeat split; assumption].
    intros d Hd Hn. rewrite Eod in * by exact Hd. unfold o', outward in *. destruct (Z.eqb_spec (side Bz dim true x d) (myo (coord d a))) as [E0|E0]; [symmetry; exact E0|contradiction Hn; reflexivity]. }
  exists e. split; [exact He|]. unfold wc. replace (n_loc e) with b by (symmetry; apply mkn_fields). rewrite L. replace (Nat.eqb (level b) (S (level b))) with false by (symmetry; apply Nat.eqb_neq; lia). replace (Nat.ltb (level b) (S (level b))) with true by (symmetry; apply Nat.ltb_lt; lia). intros d Hd.
  destruct (entry_dirs g Vg NP t W Bt ml ML a e Ha He) as [O1 O2]. assert (Eo : ox e d = o' d) by (rewrite ox_off; unfold e; rewrite off_mkn; apply Eod, Hd).
  apply (set_coarser_side g Bz ml D13 FT a e d x Hm Hd (O1 d) (fun H => O2 d H Hd)).
  - intros Hn. rewrite even_lx, Eo. unfold o', outward. rewrite Eo in Hn. unfold o', outward in Hn. destruct (Z.eqb_spec (side Bz dim true x d) (myo (coord d a))) as [E0|E0]; [exact E0|contradiction Hn; reflexivity].
  - split; [|apply N, Hd]. cbv zeta. rewrite even_lx, Eo. reflexivity.
Qed.
End N.
