(** The exchange as a whole. *)
From Coq Require Import List Arith NArith ZArith Bool Lia Permutation.
From Verif Require Import Loc LB_Spec Tags_Model Tags_Spec Tags_Proofs AMR_Model AMR_Spec AMR_Proofs AMR_Proofs2 Tree_Model Tree_Spec Tree_Proofs1 Tree_Proofs2 Tree_Proofs3 Tree_Proofs4 Tree_Proofs5 Tree_Proofs6 Tree_Proofs7 Tree_Proofs8 Tree_Restart Tree_Proofs9 Tree_Proofs10 Nbr_Model Nbr_Spec Nbr_Proofs Nbr_Proofs2 Nbr_Proofs3 Buf_Model Gho_Model Gho_Spec Gho_Proofs Gho_Proofs2 Gho_Proofs3 Gho_Proofs4.
Import ListNotations.
Local Open Scope Z_scope.

Section N.
Variable g : grid.
Hypothesis Vg : valid_grid g.
Hypothesis NP : no_pole g.
Hypothesis NS : no_shear g.
Variable t : tree.
Hypothesis W : wf g t.
Hypothesis Bt : B g t.
Variable ml : bool.
Hypothesis ML : declared g ml (blocks t).
Local Notation dim := (gdim g).
Local Notation E := (E g t ml).
Variable Bz : bsz.
Hypothesis FT : fitting g Bz ml.
Local Notation D13 := (dim13 g Vg).

Lemma finer_ml : forall b lev, In b (blocks t) -> level b = S lev -> (groot g <= lev)%nat -> ml = true.
Proof using W ML. intros b lev Hb L Hr. destruct (bool_dec ml true) as [E0|E0]; [exact E0|]. apply not_true_is_false in E0. pose proof (ML E0 b Hb). lia. Qed.
Lemma wm_where : forall a e x, In a (blocks t) -> E a e -> wm Bz a e x -> near Bz dim false (ng Bz) x /\ ~ own Bz dim false x.
Proof using Vg NP NS W Bt ML FT.
  intros a e x Ha He Hw. split.
  - intros d Hd. destruct (entry_dirs g Vg NP t W Bt ml ML a e Ha He) as [O1 O2]. unfold wm in Hw.
    destruct (kinds g Vg NP NS t W Bt ml ML a e Ha He) as [[L _]|[[Hm (L & F01 & _)]|[Hm (L & _)]]].
    + rewrite L, Nat.eqb_refl in Hw. apply (proj1 (set_same_side g Bz ml D13 FT e d x Hd (O1 d) (fun H => O2 d H Hd)) (Hw d Hd)).
    + replace (Nat.eqb (level (n_loc e)) (level a)) with false in Hw by (symmetry; apply Nat.eqb_neq; lia). replace (Nat.ltb (level (n_loc e)) (level a)) with false in Hw by (symmetry; apply Nat.ltb_ge; lia).
      apply (proj1 (set_finer_side g Bz ml D13 FT e d x Hm Hd (O1 d) (fun H => O2 d H Hd) (F01 d)) (Hw d Hd)).
    + exfalso. replace (Nat.eqb (level (n_loc e)) (level a)) with false in Hw by (symmetry; apply Nat.eqb_neq; lia). replace (Nat.ltb (level (n_loc e)) (level a)) with true in Hw by (symmetry; apply Nat.ltb_lt; lia). exact Hw.
  - intros O. pose proof (wm_side g Vg NP NS t W Bt ml ML Bz FT a e x Ha He Hw) as S. destruct (entry_facts g Vg t W ml ML a e Ha He) as (_ & _ & _ & (_ & _ & _ & _ & _ & NZ) & _ & _).
    pose proof (proj2 (side_own g Bz false x) O) as Z0. pose proof (S 0%nat ltac:(lia)) as S0. pose proof (S 1%nat ltac:(lia)) as S1. pose proof (S 2%nat ltac:(lia)) as S2. rewrite Z0 in S0, S1, S2 by lia. cbn [ox] in *. lia.
Qed.
Lemma wc_where : forall a e x, In a (blocks t) -> E a e -> wc Bz a e x -> near Bz dim true (cng Bz) x.
Proof using Vg NP NS W Bt ML FT.
  intros a e x Ha He Hw d Hd. destruct (wc_side g Vg NP NS t W Bt ml ML Bz FT a e x Ha He Hw) as (Hm & (L & Li & _) & _). destruct (entry_dirs g Vg NP t W Bt ml ML a e Ha He) as [O1 O2]. unfold wc in Hw.
  replace (Nat.eqb (level (n_loc e)) (level a)) with false in Hw by (symmetry; apply Nat.eqb_neq; lia). replace (Nat.ltb (level (n_loc e)) (level a)) with true in Hw by (symmetry; apply Nat.ltb_lt; lia).
  apply (proj1 (set_coarser_side g Bz ml D13 FT a e d x Hm Hd (O1 d) (fun H => O2 d H Hd) ltac:(intros Hn; rewrite even_lx; symmetry; rewrite ox_off in *; apply Li; assumption)) (Hw d Hd)).
Qed.

Context {A : Type}.
Variables (nl nu : Z) (V : loc -> arr4 (A := A)) (R : loc -> arr4 (A := A) -> arr4 (A := A)).
Lemma value_ext : forall (v : arr4 (A := A)) n x y, (forall d, (d < 3)%nat -> x d = y d) -> value v n x = value v n y.
Proof using. intros v n x y H. unfold value. rewrite (H 0%nat), (H 1%nat), (H 2%nat) by lia. reflexivity. Qed.

Lemma exchange : forall a es st, In a (blocks t) -> (forall e, In e es <-> E a e) -> exists st', SetBoundaries g ml t Bz nl nu V R a es st = Some st' /\
  (forall n, nl <= n <= nu -> filled g Bz (blocks t) V R a n (fst st') (snd st') /\ kept g Bz (blocks t) a n (fst st) (fst st') (snd st) (snd st')) /\
  (forall n x, ~ nl <= n <= nu -> value (fst st') n x = value (fst st) n x /\ value (snd st') n x = value (snd st) n x).
Proof using Vg NP NS W Bt ML FT.
  intros a es st Ha Hes. destruct (set_all g Vg NP NS t W Bt ml ML Bz FT nl nu V R a es st Ha (fun e H => proj1 (Hes e) H)) as (st' & E' & P). exists st'. split; [exact E'|]. destruct (in_dom g t W a Ha) as [Da Ra]. split.
  - intros n Hn. split; [split; [|split]|split].
    + intros x b y N NO Hb L O SP. destruct (cov_same g Vg NP NS t W Bt ml ML Bz FT a x b y Ha Hb N NO L O SP) as (e & He & Hw). destruct (P n x) as (P1 & _). destruct (P1 Hn) as (b0 & y0 & Hb0 & G); [exists e; split; [apply Hes, He|exact Hw]|].
      destruct G as [(Nb & O0 & SP0 & ->)|(m & Nm & Hc & O0 & SP0 & _)].
      * assert (L0 : level b0 = level a) by apply Nb. destruct (place_det g Vg t W ml Bz FT a false x (level a) b false y b0 y0 Hb Hb0 ltac:(discriminate) L L0 Ra O O0 SP SP0) as [-> Ey]. symmetry. apply value_ext, Ey.
      * exfalso. assert (L0 : level b0 = S (level a)). { apply in_map_iff in Hc as (j & <- & _). cbn [level child]. f_equal. apply Nm. }
        apply (place_excl g Vg t W ml Bz FT a false x (level a) b y b0 y0 Hb Hb0 (finer_ml b0 (level a) Hb0 L0 Ra) L L0 Ra O O0 SP SP0).
    + intros x b y N NO Hb L O SP. pose proof (finer_ml b (level a) Hb L Ra) as Hm. destruct (cov_finer g Vg NP NS t W Bt ml ML Bz FT a x b y Hm Ha Hb N NO L O SP) as (e & He & Hw). destruct (P n x) as (P1 & _). destruct (P1 Hn) as (b0 & y0 & Hb0 & G); [exists e; split; [apply Hes, He|exact Hw]|].
      destruct G as [(Nb & O0 & SP0 & _)|(m & Nm & Hc & O0 & SP0 & ->)].
      * exfalso. assert (L0 : level b0 = level a) by apply Nb. apply (place_excl g Vg t W ml Bz FT a false x (level a) b0 y0 b y Hb0 Hb Hm L0 L Ra O0 O SP0 SP).
      * assert (L0 : level b0 = S (level a)). { apply in_map_iff in Hc as (j & <- & _). cbn [level child]. f_equal. apply Nm. }
        destruct (place_det g Vg t W ml Bz FT a false x (level a) b true y b0 y0 Hb Hb0 (fun _ => Hm) L L0 Ra O O0 SP SP0) as [-> Ey]. symmetry. apply value_ext, Ey.
    + intros x b y N Hb L O SP. destruct (in_dom g t W b Hb) as [Db Rb]. pose proof (finer_ml a (level b) Ha L Rb) as Hm. destruct (cov_coarser g Vg NP NS t W Bt ml ML Bz FT a x b y Hm Ha Hb N L O SP) as (e & He & Hw). destruct (P n x) as (_ & _ & P3 & _). destruct (P3 Hn) as (b0 & y0 & m & Hb0 & Nm & Hc & O0 & SP0 & ->); [exists e; split; [apply Hes, He|exact Hw]|].
      assert (L0 : level b0 = level b). { apply in_map_iff in Hc as (j & Ec & _). destruct Nm as (Lm & _). rewrite <- Ec in Lm. cbn [level child] in Lm. lia. }
      rewrite L0 in SP0. destruct (place_det g Vg t W ml Bz FT a true x (level b) b false y b0 y0 Hb Hb0 ltac:(discriminate) eq_refl L0 Rb O O0 SP SP0) as [-> Ey]. symmetry. apply value_ext, Ey.
    + intros x Hx. destruct (P n x) as (P1 & P2 & _). apply P2. intros [_ (e & He & Hw)]. destruct (wm_where a e x Ha (proj1 (Hes e) He) Hw) as [N NO]. destruct Hx as [O|[NN|Em]]; [contradiction|contradiction|].
      destruct (P1 Hn) as (b & y & Hb & G); [exists e; split; assumption|]. destruct (Em b y Hb) as [E1 E2]. destruct G as [(Nb & O0 & SP0 & _)|(m & Nm & Hc & O0 & SP0 & _)]; [apply E1; [apply Nb|exact O0|exact SP0]|].
      apply E2; [|exact O0|exact SP0]. apply in_map_iff in Hc as (j & <- & _). cbn [level child]. f_equal. apply Nm.
    + intros x Hx. destruct (P n x) as (_ & _ & P3 & P4). apply P4. intros [_ (e & He & Hw)]. pose proof (wc_where a e x Ha (proj1 (Hes e) He) Hw) as N. destruct Hx as [NN|Em]; [contradiction|].
      destruct (P3 Hn) as (b & y & m & Hb & Nm & Hc & O0 & SP0 & _); [exists e; split; assumption|]. apply (Em b y Hb); [|exact O0|exact SP0]. apply in_map_iff in Hc as (j & Ec & _). destruct Nm as (Lm & _). rewrite <- Ec in Lm. cbn [level child] in Lm. lia.
  - intros n x Hn. destruct (P n x) as (_ & P2 & _ & P4). split; [apply P2|apply P4]; intros [X _]; contradiction.
Qed.

(** Every ghost cell inside the domain lies in a block of the same, the next finer or the next coarser level. *)
Lemma choice3 : forall (P : nat -> Z -> Prop), (forall d, (d < 3)%nat -> exists s, P d s) -> exists s : nat -> Z, forall d, (d < 3)%nat -> P d (s d).
Proof using.
  intros P H. destruct (H 0%nat ltac:(lia)) as (s0 & H0). destruct (H 1%nat ltac:(lia)) as (s1 & H1). destruct (H 2%nat ltac:(lia)) as (s2 & H2).
  exists (fun d => match d with 0%nat => s0 | 1%nat => s1 | _ => s2 end). intros [|[|[|d]]] Hd; try assumption. lia.
Qed.
Lemma complete : forall a x, In a (blocks t) -> near Bz dim false (ng Bz) x -> ~ own Bz dim false x -> inside g Bz a x -> exists b y, In b (blocks t) /\
  ((level b = level a /\ own Bz dim false y /\ same_place g Bz (level a) a false x b false y) \/
   (level b = S (level a) /\ own Bz dim true y /\ same_place g Bz (level a) a false x b true y) \/
   (level a = S (level b) /\ near Bz dim true (coarse_ghosts Bz) (coarse_cell g Bz x) /\ own Bz dim false y /\ same_place g Bz (level b) a true (coarse_cell g Bz x) b false y)).
Proof using Vg NP NS W Bt ML FT.
  intros a x Ha N NO In_. pose proof D13 as D. destruct (in_dom g t W a Ha) as [Da Ra]. pose proof (sdir_ok g Vg Bz false _ x N NO) as Ok. set (o := side Bz dim false x).
  destruct (choice3 (fun d s => if Nat.ltb d dim then period_shift g d (gnrb g d * 2 ^ Z.of_nat (level a - groot g)) s /\ 0 <= coord d a + o d + s < gnrb g d * 2 ^ Z.of_nat (level a - groot g) else s = 0)) as (s & Hs).
  { intros d Hd. destruct (Nat.ltb_spec d dim) as [Hdd|Hdd]; [|exists 0; reflexivity]. destruct (In_ d Hdd) as (s & S1 & S2). destruct (active_facts g Bz ml D13 FT d Hdd) as (_ & _ & _ & _ & _ & _ & E3 & E4 & N1 & N2).
    pose proof (side_digit g Vg Bz false (ng Bz) x d N Hdd ltac:(rewrite E4; lia)) as Sd. rewrite E3, E4 in Sd. fold o in Sd. set (w := gnrb g d * 2 ^ Z.of_nat (level a - groot g)) in *. clearbody w. unfold period_shift in *.
    assert (exists s', s = s' * cells_in Bz d /\ (s' = 0 \/ (gbc g d false = BPeriodic /\ gbc g d true = BPeriodic /\ (s' = w \/ s' = - w)))) as (s' & Es & S1').
    { destruct S1 as [->|(B1 & B2 & [->| ->])]; [exists 0; split; [reflexivity|left; reflexivity]|exists w; split; [reflexivity|right; auto]|exists (- w); split; [ring|right; auto]]. }
    exists s'. split; [exact S1'|]. clear S1 S1'. set (c := cells_in Bz d) in *. assert (0 < c) by lia. clearbody c o. rewrite Es in S2. nia. }
  set (c d := if Nat.ltb d dim then coord d a + o d + s d else 0). set (m := mkLoc (level a) (c 0%nat) (c 1%nat) (c 2%nat)).
  assert (Cm : forall d, (d < 3)%nat -> coord d m = c d) by (intros [|[|[|d]]] Hd; [reflexivity|reflexivity|reflexivity|lia]).
  assert (Dm : in_domain g m).
  { apply (inr_dom g m); [exact Ra|]. intros d Hd. rewrite Cm by exact Hd. change (level m) with (level a). unfold c, inr, nmax. specialize (Hs d Hd). destruct (Nat.ltb_spec d dim) as [Hdd|Hdd]; [apply Hs|lia]. }
  assert (NB : neighbour_position g a (od (sdir Bz dim false x)) m).
  { split; [reflexivity|]. split; [exact Dm|]. intros d Hd. exists (s d). pose proof (Hs d ltac:(lia)) as H. rewrite Cm, od_sdir by lia. unfold c. replace (Nat.ltb d dim) with true in * by (symmetry; apply Nat.ltb_lt, Hd). split; [apply H|reflexivity]. }
  pose proof Ha as Ha'. apply (in_blocks g t a W) in Ha' as [Ca (za & Ka)]. pose proof (proj2 (spec_pos g Vg t W a _ m Ha Ok) NB) as Hnb. pose proof (dom_canon g Vg m Dm) as Cam.
  assert (Oi : forall d, (dim <= d)%nat -> (d < 3)%nat -> o d = 0 /\ x d = 0 /\ coord d a = 0). { intros d Hi Hd. split; [apply (side_inactive g Bz false _ x d N Hi Hd)|]. destruct (inactive_facts g Bz ml D13 FT d Hi Hd) as (_ & _ & _ & _ & _ & _ & E3 & E4 & _). pose proof (N d Hd) as Nd. cbv zeta in Nd. rewrite E3, E4 in Nd. replace (Nat.ltb d dim) with false in Nd by (symmetry; apply Nat.ltb_ge, Hi). destruct (Da d Hd) as (_ & _ & C0). rewrite (C0 Hi). lia. }
  set (z d := x d - ng Bz - o d * cells_in Bz d).
  assert (Zr : forall d, (d < dim)%nat -> 0 <= z d < cells_in Bz d). { intros d Hd. destruct (active_facts g Bz ml D13 FT d Hd) as (_ & _ & _ & _ & _ & _ & E3 & E4 & N1 & N2). pose proof (side_digit g Vg Bz false (ng Bz) x d N Hd ltac:(rewrite E4; lia)) as Sd. rewrite E3, E4 in Sd. exact Sd. }
  destruct (K t m) as [|zm|] eqn:Km.
  - (* in a coarser block *)
    assert (Hr : (groot g < level a)%nat). { destruct (Nat.lt_ge_cases (groot g) (level a)); [assumption|]. contradiction (wf_root g t W m Dm ltac:(cbn [level m]; assumption)). }
    assert (Hm : ml = true) by (apply (finer_ml a (level a - 1)); [exact Ha|lia|lia]).
    assert (Kb : exists zb, K t (anc 1 m) = KLeaf zb).
    { assert (Hn : K t (anc 1 m) <> KNull) by (apply (B_parent g Vg NP t a (od (sdir Bz dim false x)) m W Bt Ca); [congruence|exact Hr|exact Hnb]). destruct (K t (anc 1 m)) as [|zb|] eqn:Kb; [contradiction|exists zb; reflexivity|]. exfalso.
      destruct (dom_child_of g m Dm ltac:(cbn [level m]; lia)) as (j & Hj & Ej). apply (wf_child g t W (anc 1 m) j) in Kb; [rewrite <- Ej in Kb; contradiction|apply (dom_canon g Vg), (dom_anc g); [exact Dm|cbn [level m]; lia]|cbn [anc level m]; lia|exact Hj]. }
    destruct Kb as (zb & Kb). set (b := anc 1 m) in *. assert (Db : in_domain g b) by (apply (dom_anc g); [exact Dm|cbn [level m]; lia]).
    assert (Hb : In b (blocks t)) by (apply (in_blocks g t b W); split; [apply (dom_canon g Vg), Db|exists zb; exact Kb]).
    exists b, (fun d => if Nat.ltb d dim then ng Bz + myf (c d) * (cells_in Bz d / 2) + z d / 2 else 0). split; [exact Hb|]. right. right. split; [unfold b; cbn [anc level m]; lia|]. split; [|split].
    + intros d Hd. unfold coarse_cell, coarse_ghosts. destruct (Nat.ltb_spec d dim) as [Hdd|Hdd].
      * destruct (active_facts g Bz ml D13 FT d Hdd) as (_ & _ & _ & _ & _ & _ & E3 & E4 & N1 & N2). destruct (multi_facts g Bz ml D13 FT Hm d Hdd) as (h & k & G1 & G2 & G3 & G4 & G5 & G6). pose proof (N d Hd) as Nd. cbv zeta in Nd. rewrite E3, E4 in *. replace (Nat.ltb d dim) with true in Nd by (symmetry; apply Nat.ltb_lt, Hdd). unfold cng in G4. rewrite G4, G2. rewrite G1 in Nd. cbv zeta.
        pose proof (Z.div_mod (x d - ng Bz) 2 ltac:(lia)). pose proof (Z.mod_pos_bound (x d - ng Bz) 2 ltac:(lia)). lia.
      * destruct (inactive_facts g Bz ml D13 FT d Hdd Hd) as (_ & _ & _ & _ & _ & _ & E3 & E4 & _). rewrite E3, E4. destruct (Oi d Hdd Hd) as (_ & -> & _). cbv zeta. lia.
    + intros d Hd. destruct (Nat.ltb_spec d dim) as [Hdd|Hdd].
      * destruct (active_facts g Bz ml D13 FT d Hdd) as (_ & _ & _ & _ & _ & _ & E3 & E4 & N1 & N2). destruct (multi_facts g Bz ml D13 FT Hm d Hdd) as (h & k & G1 & G2 & G3 & G4 & G5 & G6). rewrite E3, E4, G2. pose proof (Zr d Hdd) as Hz. rewrite G1 in *. pose proof (myf_01 (c d)) as H01.
        pose proof (Z.div_mod (z d) 2 ltac:(lia)). pose proof (Z.mod_pos_bound (z d) 2 ltac:(lia)). destruct H01 as [-> | ->]; lia.
      * destruct (inactive_facts g Bz ml D13 FT d Hdd Hd) as (_ & _ & _ & _ & _ & _ & E3 & E4 & _). rewrite E3, E4. lia.
    + intros d Hd. unfold coarse_cell. specialize (Hs d Hd). destruct (Nat.ltb_spec d dim) as [Hdd|Hdd].
      * destruct (active_facts g Bz ml D13 FT d Hdd) as (_ & _ & _ & _ & _ & _ & E3 & E4 & N1 & N2). destruct (multi_facts g Bz ml D13 FT Hm d Hdd) as (h & k & G1 & G2 & G3 & G4 & G5 & G6). exists (s d * h). split.
        { unfold b. cbn [anc level m]. replace (gnrb g d * 2 ^ Z.of_nat (level a - 1 - groot g) * cells_in Bz d) with (gnrb g d * 2 ^ Z.of_nat (level a - groot g) * h); [apply shift_scale, Hs|]. rewrite G1. replace (level a - groot g)%nat with (S (level a - 1 - groot g)) by lia. rewrite pow2_S. ring. }
        rewrite E3, !E4, G2. unfold b. rewrite coord_anc1, Cm by exact Hd. pose proof (myf_div g (c d)) as Hc. set (q := c d / 2) in *. set (r := myf (c d)) in *. rewrite G1. assert (Ex : (x d - ng Bz) / 2 = o d * h + z d / 2). { replace (x d - ng Bz) with (z d + (o d * h) * 2) by (unfold z; rewrite G1; ring). rewrite Z.div_add by lia. ring. } rewrite Ex.
        assert (Ec : c d = coord d a + o d + s d) by (unfold c; replace (Nat.ltb d dim) with true by (symmetry; apply Nat.ltb_lt, Hdd); reflexivity). transitivity (c d * h + z d / 2); [rewrite Hc; ring|rewrite Ec; ring].
      * exists 0. split; [left; reflexivity|]. destruct (inactive_facts g Bz ml D13 FT d Hdd Hd) as (_ & _ & _ & _ & _ & _ & E3 & E4 & _). rewrite E3, !E4. destruct (Oi d Hdd Hd) as (_ & -> & ->). destruct (Db d Hd) as (_ & _ & C0). rewrite (C0 Hdd). reflexivity.
  - (* a block of the same level *)
    assert (Hb : In m (blocks t)) by (apply (in_blocks g t m W); split; [exact Cam|exists zm; exact Km]).
    exists m, (fun d => if Nat.ltb d dim then ng Bz + z d else 0). split; [exact Hb|]. left. split; [reflexivity|]. split.
    + intros d Hd. destruct (Nat.ltb_spec d dim) as [Hdd|Hdd].
      * destruct (active_facts g Bz ml D13 FT d Hdd) as (_ & _ & _ & _ & _ & _ & E3 & E4 & _). rewrite E3, E4. specialize (Zr d Hdd). lia.
      * destruct (inactive_facts g Bz ml D13 FT d Hdd Hd) as (_ & _ & _ & _ & _ & _ & E3 & E4 & _). rewrite E3, E4. lia.
    + intros d Hd. specialize (Hs d Hd). destruct (Nat.ltb_spec d dim) as [Hdd|Hdd].
      * destruct (active_facts g Bz ml D13 FT d Hdd) as (_ & _ & _ & _ & _ & _ & E3 & E4 & _). exists (s d * cells_in Bz d). split; [apply shift_scale, Hs|]. rewrite E3, E4, Cm by exact Hd. unfold c, z. replace (Nat.ltb d dim) with true by (symmetry; apply Nat.ltb_lt, Hdd). ring.
      * exists 0. split; [left; reflexivity|]. destruct (inactive_facts g Bz ml D13 FT d Hdd Hd) as (_ & _ & _ & _ & _ & _ & E3 & E4 & _). rewrite E3, E4. destruct (Oi d Hdd Hd) as (_ & -> & ->). destruct (Dm d Hd) as (_ & _ & C0). rewrite (C0 Hdd). reflexivity.
  - (* a block of the next finer level *)
    set (f d := if Nat.ltb d dim then if Z.leb (cells_in Bz d / 2) (z d) then 1 else 0 else 0). assert (F01 : forall d, f d = 0 \/ f d = 1) by (intros d; unfold f; destruct (Nat.ltb d dim); [destruct (Z.leb _ _); auto|auto]).
    set (b := mkLoc (S (level a)) (2 * c 0%nat + f 0%nat) (2 * c 1%nat + f 1%nat) (2 * c 2%nat + f 2%nat)). assert (Cb : forall d, (d < 3)%nat -> coord d b = 2 * c d + f d) by (intros [|[|[|d]]] Hd; [reflexivity|reflexivity|reflexivity|lia]).
    assert (Ab : anc 1 b = m). { apply coord_eq; [cbn [anc level b m]; lia|]. intros d Hd. rewrite coord_anc1, Cb, Cm by exact Hd. symmetry. apply (Z.div_unique _ 2 _ (f d)); [destruct (F01 d); lia|ring]. }
    assert (Db : in_domain g b). { apply (inr_dom g b); [cbn [level b]; lia|]. intros d Hd. rewrite Cb by exact Hd. change (level b) with (S (level a)). unfold inr. specialize (Hs d Hd). destruct (Nat.lt_ge_cases d dim) as [Hdd|Hdd].
      - rewrite (nmax_S g d (level a) Ra Hdd). unfold nmax. unfold c. destruct (Nat.ltb_spec d dim); [|lia]. destruct (F01 d); lia.
      - unfold nmax, c, f. destruct (Nat.ltb_spec d dim); lia. }
    destruct (dom_child_of g b Db ltac:(cbn [level b]; lia)) as (j & Hj & Ej). rewrite Ab in Ej.
    assert (Hn : K t b <> KNull). { rewrite Ej. apply (wf_child g t W m j Cam Km); [exact Ra|exact Hj]. }
    pose proof (dom_canon g Vg b Db) as Cab.
    assert (Hm : ml = true).
    { destruct (leaf_below g t (sub t (path m)) m W Cam eq_refl) as (y & zy & Cy & _ & Ky & Ly); [apply K_nonnull_sub; congruence|]. apply (ml_true g t W ml ML y zy Cy Ky). specialize (Ly Km). cbn [level m] in Ly. lia. }
    assert (FO : forall d, (d < 3)%nat -> o d <> 0 -> myo (coord d b) = - o d).
    { intros d Hd Hne. destruct (Nat.lt_ge_cases d dim) as [Hdd|Hdd]; [|destruct (Oi d Hdd Hd) as (E0 & _); contradiction].
      destruct (active_facts g Bz ml D13 FT d Hdd) as (_ & _ & _ & _ & _ & _ & E3 & E4 & N1 & N2). destruct (multi_facts g Bz ml D13 FT Hm d Hdd) as (h & k & G1 & G2 & G3 & G4 & G5 & G6). pose proof (N d Hd) as Nd. cbv zeta in Nd. rewrite E3, E4, G1 in Nd. replace (Nat.ltb d dim) with true in Nd by (symmetry; apply Nat.ltb_lt, Hdd).
      rewrite Cb by exact Hd. unfold myo. rewrite (myf_child g (c d) (f d) (F01 d)). unfold f. replace (Nat.ltb d dim) with true by (symmetry; apply Nat.ltb_lt, Hdd). rewrite G2. unfold z. rewrite G1. pose proof (side_range g Bz false x d) as So. fold o in So. destruct So as [So|[So|So]]; [|contradiction|]; rewrite So; match goal with |- context [Z.leb ?u ?v] => destruct (Z.leb_spec u v) end; unfold o, side in So; rewrite E3, E4, G1 in So; destruct (Z.ltb_spec (x d) (ng Bz)), (Z.leb_spec (ng Bz + 2 * h) (x d)); lia. }
    destruct (sub_range g Vg ml (sdir Bz dim false x) Ok Hm b Db) as [S1 S2]. cbn [coord] in S1, S2.
    set (p1 := sub1 (sdir Bz dim false x) (myf (lx1 b)) (myf (lx2 b)) (myf (lx3 b))) in *. set (p2 := sub2 (sdir Bz dim false x) (myf (lx1 b)) (myf (lx2 b)) (myf (lx3 b))) in *.
    assert (Ec : b = getleaf m (sdir Bz dim false x) false p1 p2).
    { rewrite <- Ab at 1. apply (getleaf_self g b _ Ok Db ltac:(cbn [level b]; lia)). intros d Hd Hnz. rewrite od_sdir in * by exact Hd. apply FO; assumption. }
    destruct (finer_leaf g Vg NP t W Bt ml ML a za (sdir Bz dim false x) m p1 p2 Ok Ca Ka Hnb Km S1 S2) as (_ & (zc & Kc) & _). rewrite <- Ec in Kc.
    assert (Hb : In b (blocks t)) by (apply (in_blocks g t b W); split; [exact Cab|exists zc; exact Kc]).
    exists b, (fun d => if Nat.ltb d dim then ng Bz + z d - f d * (cells_in Bz d / 2) else 0). split; [exact Hb|]. right. left. split; [reflexivity|]. split.
    + intros d Hd. destruct (Nat.ltb_spec d dim) as [Hdd|Hdd].
      * destruct (active_facts g Bz ml D13 FT d Hdd) as (_ & _ & _ & _ & _ & _ & E3 & E4 & _). destruct (multi_facts g Bz ml D13 FT Hm d Hdd) as (h & k & G1 & G2 & _). rewrite E3, E4. specialize (Zr d Hdd). unfold f. replace (Nat.ltb d dim) with true by (symmetry; apply Nat.ltb_lt, Hdd). rewrite !G2. rewrite G1 in Zr. destruct (Z.leb_spec h (z d)); lia.
      * destruct (inactive_facts g Bz ml D13 FT d Hdd Hd) as (_ & _ & _ & _ & _ & _ & E3 & E4 & _). rewrite E3, E4. lia.
    + intros d Hd. specialize (Hs d Hd). destruct (Nat.ltb_spec d dim) as [Hdd|Hdd].
      * destruct (active_facts g Bz ml D13 FT d Hdd) as (_ & _ & _ & _ & _ & _ & E3 & E4 & _). destruct (multi_facts g Bz ml D13 FT Hm d Hdd) as (h & k & G1 & G2 & _). exists (s d * cells_in Bz d). split; [apply shift_scale, Hs|]. rewrite E3, !E4, Cb, G2 by exact Hd. unfold c, z. replace (Nat.ltb d dim) with true by (symmetry; apply Nat.ltb_lt, Hdd). rewrite G1. ring.
      * exists 0. split; [left; reflexivity|]. destruct (inactive_facts g Bz ml D13 FT d Hdd Hd) as (_ & _ & _ & _ & _ & _ & E3 & E4 & _). rewrite E3, !E4. destruct (Oi d Hdd Hd) as (_ & -> & ->). destruct (Db d Hd) as (_ & _ & C0). rewrite (C0 Hdd). reflexivity.
Qed.
End N.
