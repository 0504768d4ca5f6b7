(** Places of the cells of the coarse buffer. *)
From Coq Require Import List Arith NArith ZArith Bool Lia Permutation.
From Verif Require Import Loc LB_Spec Tags_Model Tags_Spec Tags_Proofs AMR_Model AMR_Spec AMR_Proofs AMR_Proofs2 Tree_Model Tree_Spec Tree_Proofs1 Tree_Proofs2 Tree_Proofs3 Tree_Proofs4 Tree_Proofs5 Tree_Proofs6 Tree_Proofs7 Tree_Proofs8 Tree_Restart Tree_Proofs9 Tree_Proofs10 Nbr_Model Nbr_Spec Nbr_Proofs Nbr_Proofs2 Nbr_Proofs3 Buf_Model Gho_Model Gho_Spec Gho_Proofs Gho_Proofs2 Gho_Proofs3 Gho_Proofs4 Gho_Proofs5 Pro_Model Pro_Spec.
Import ListNotations.
Local Open Scope Z_scope.

Section N.
Variable g : grid.
Hypothesis Vg : valid_grid g.
Hypothesis NP : no_pole g.
Hypothesis NS : no_shear g.
Hypothesis PL : plain g.
Variable t : tree.
Hypothesis W : wf g t.
Hypothesis Bt : B g t.
Variable ml : bool.
Hypothesis ML : declared g ml (blocks t).
Local Notation dim := (gdim g).
Local Notation E := (E g t ml).
Variable Bz : bsz.
Hypothesis FT : fitting g Bz ml.
Local Notation D13 := (dim13 g Vg).
Variable a : loc.
Hypothesis Ha : In a (blocks t).
Hypothesis Hm : ml = true.
Local Notation bs := (blocks t).

(** Domain width in blocks of the level of [a]. *)
Local Notation w d := (gnrb g d * 2 ^ Z.of_nat (level a - groot g)).
Lemma w_pos : forall d, (d < 3)%nat -> 1 <= w d.
Proof using Vg. intros d Hd. destruct Vg as (_ & V & _). specialize (V d Hd). pose proof (Z.pow_pos_nonneg 2 (Z.of_nat (level a - groot g)) ltac:(lia) ltac:(lia)). nia. Qed.
Lemma w_even : (groot g < level a)%nat -> forall d, exists q, w d = 2 * q /\ q = gnrb g d * 2 ^ Z.of_nat (level a - 1 - groot g).
Proof using. intros H d. exists (gnrb g d * 2 ^ Z.of_nat (level a - 1 - groot g)). split; [|reflexivity]. replace (level a - groot g)%nat with (S (level a - 1 - groot g)) by lia. rewrite pow2_S. ring. Qed.
Lemma coord_range : forall d, (d < dim)%nat -> 0 <= coord d a < w d.
Proof using Vg W Ha.
  intros d Hd. pose proof D13. destruct (in_dom g t W a Ha) as [Da Ra]. pose proof (dom_inr g a d Ra Da ltac:(lia)) as I. unfold inr, nmax in I. replace (Nat.ltb d dim) with true in I by (symmetry; apply Nat.ltb_lt, Hd). exact I.
Qed.

(** A shift of a whole number of blocks. *)
Lemma shift_div : forall d c s, (d < 3)%nat -> 0 < c -> period_shift g d (w d * c) s -> exists v, s = v * c /\ period_shift g d (w d) v.
Proof using. intros d c s Hd Hc [->|(P1 & P2 & [->| ->])]; [exists 0; split; [reflexivity|left; reflexivity]|exists (w d); split; [reflexivity|right; auto]|exists (- w d); split; [ring|right; auto]]. Qed.

(** Blocks next to [a] in the direction of cell s of the coarse buffer. *)
Lemma coarser_pos : forall s b y, near Bz dim true (cng Bz) s -> in_coarser g Bz bs a s b y -> exists q, neighbour_position g a (side Bz dim true s) q /\ anc 1 q = b /\ (1 <= level q)%nat.
Proof using Vg W Ha Hm FT.
  intros s b y N (Hb & L & O & P). pose proof D13 as D. destruct (in_dom g t W b Hb) as [Db Rb]. destruct (in_dom g t W a Ha) as [Da Ra].
  destruct (choice3 (fun d v => if Nat.ltb d dim then period_shift g d (w d) v /\ (coord d a + side Bz dim true s d + v) / 2 = coord d b else v = 0)) as (v & Hv).
  { intros d Hd. destruct (Nat.ltb_spec d dim) as [Hdd|Hdd]; [|exists 0; reflexivity]. destruct (P d Hd) as (s0 & S1 & S2). destruct (active_facts g Bz ml D13 FT d Hdd) as (_ & _ & _ & _ & _ & _ & E3 & E4 & N1 & N2).
    destruct (multi_facts g Bz ml D13 FT Hm d Hdd) as (h & k & G1 & G2 & G3 & G4 & G5 & G6). pose proof (side_digit g Vg Bz true (cng Bz) s d N Hdd ltac:(rewrite E4, G2, G4; lia)) as Sd. specialize (O d ltac:(lia)). rewrite E3, !E4 in *. rewrite G2 in *. rewrite G1 in *.
    replace (gnrb g d * 2 ^ Z.of_nat (level b - groot g) * (2 * h)) with (w d * h) in S1. 2:{ rewrite L. replace (S (level b) - groot g)%nat with (S (level b - groot g)) by lia. rewrite pow2_S. ring. }
    destruct (shift_div d h s0 Hd ltac:(lia) S1) as (v & Es & Sv). exists v. split; [exact Sv|].
    set (o := side Bz dim true s d) in *. set (c := coord d a + o + v) in *. pose proof (myf_div g c) as Hc. pose proof (myf_01 c) as H01. set (q := c / 2) in *. set (r := myf c) in *. clearbody q r.
    destruct (digits (coord d b) q (2 * h) (y d - ng Bz) (r * h + (s d - ng Bz - o * h))) as [Q _]; [lia|destruct H01 as [-> | ->]; lia| |symmetry; exact Q]. rewrite S2, Es. transitivity (c * h + (s d - ng Bz - o * h)); [unfold c; ring|rewrite Hc; ring]. }
  set (c d := if Nat.ltb d dim then coord d a + side Bz dim true s d + v d else 0). set (q := mkLoc (level a) (c 0%nat) (c 1%nat) (c 2%nat)).
  assert (Cq : forall d, (d < 3)%nat -> coord d q = c d) by (intros [|[|[|d]]] Hd; [reflexivity|reflexivity|reflexivity|lia]). exists q. split.
  - split; [reflexivity|]. split.
    + apply (inr_dom g q); [exact Ra|]. intros d Hd. rewrite Cq by exact Hd. change (level q) with (level a). unfold inr, nmax. specialize (Hv d Hd). pose proof (dom_inr g b d Rb Db Hd) as I. unfold inr, nmax in I. unfold c. destruct (Nat.ltb_spec d dim) as [Hdd|Hdd]; [|lia].
      destruct Hv as [_ Hv]. destruct (w_even ltac:(lia) d) as (x & -> & ->). replace (level a - 1)%nat with (level b) by lia. set (cc := coord d a + side Bz dim true s d + v d) in *. pose proof (Z.div_mod cc 2 ltac:(lia)). pose proof (Z.mod_pos_bound cc 2 ltac:(lia)). lia.
    + intros d Hd. exists (v d). pose proof (Hv d ltac:(lia)) as H. rewrite Cq by lia. unfold c. replace (Nat.ltb d dim) with true in * by (symmetry; apply Nat.ltb_lt, Hd). split; [apply H|reflexivity].
  - split; [|change (level q) with (level a); lia]. apply coord_eq; [cbn [anc level]; change (level q) with (level a); lia|]. intros d Hd. rewrite coord_anc1, Cq by exact Hd. unfold c. specialize (Hv d Hd). destruct (Nat.ltb_spec d dim) as [Hdd|Hdd]; [apply Hv|]. destruct (Db d Hd) as (_ & _ & ->); [reflexivity|exact Hdd].
Qed.
(** A block of the same level in the direction of s. *)
Lemma level_place : forall s b, (groot g < level a)%nat -> near Bz dim true (cng Bz) s -> In b bs -> neighbour_position g a (side Bz dim true s) b -> in_level g Bz bs a s.
Proof using Vg W Ha Hm FT.
  intros s b Hr N Hb (L & Db & NB). pose proof D13 as D. exists b, (fun d => s d - side Bz dim true s d * size Bz dim true d). split; [exact Hb|]. split; [exact L|]. destruct (in_dom g t W a Ha) as [Da Ra]. split.
  - intros d Hd. destruct (Nat.lt_ge_cases d dim) as [Hdd|Hdd].
    + destruct (active_facts g Bz ml D13 FT d Hdd) as (_ & _ & _ & _ & _ & _ & E3 & E4 & N1 & N2). destruct (multi_facts g Bz ml D13 FT Hm d Hdd) as (h & k & G1 & G2 & G3 & G4 & G5 & G6).
      pose proof (side_digit g Vg Bz true (cng Bz) s d N Hdd ltac:(rewrite E4, G2, G4; lia)) as Sd. lia.
    + rewrite (side_inactive g Bz true _ s d N Hdd Hd). specialize (N d Hd). replace (Nat.ltb d dim) with false in N by (symmetry; apply Nat.ltb_ge, Hdd). cbv zeta in N. lia.
  - intros d Hd. destruct (Nat.lt_ge_cases d dim) as [Hdd|Hdd].
    + destruct (NB d Hdd) as (v & S1 & S2). destruct (active_facts g Bz ml D13 FT d Hdd) as (_ & _ & _ & _ & _ & _ & E3 & E4 & N1 & N2). destruct (multi_facts g Bz ml D13 FT Hm d Hdd) as (h & k & G1 & G2 & G3 & G4 & G5 & G6).
      exists (v * h). rewrite !E4, G2. split; [|rewrite S2, E3; ring]. destruct (w_even Hr d) as (q & Ew & Eq). rewrite <- Eq, G1. rewrite Ew in S1. replace (q * (2 * h)) with (2 * q * h) by ring. apply shift_scale, S1.
    + exists 0. split; [left; reflexivity|]. rewrite (side_inactive g Bz true _ s d N Hdd Hd). destruct (Da d Hd) as (_ & _ & ->); [|exact Hdd]. destruct (Db d Hd) as (_ & _ & ->); [|exact Hdd]. ring.
Qed.
Lemma self_level : forall s, (groot g < level a)%nat -> own Bz dim true s -> in_level g Bz bs a s.
Proof using Ha.
  intros s Hr O. exists a, s. split; [exact Ha|]. split; [reflexivity|]. split; [exact O|]. intros d Hd. exists 0. split; [left; reflexivity|ring].
Qed.
Lemma level_excl : forall s b y, in_coarser g Bz bs a s b y -> in_level g Bz bs a s -> False.
Proof using Vg W Hm FT.
  intros s b y (Hb & L & O & P) (b0 & y0 & Hb0 & L0 & O0 & P0). destruct (in_dom g t W b Hb) as [_ Rb]. replace (level a - 1)%nat with (level b) in P0 by lia.
  apply (place_excl g Vg t W ml Bz FT a true s (level b) b y b0 y0 Hb Hb0 Hm eq_refl ltac:(lia) Rb O O0 P P0).
Qed.
Lemma in_coarser_ext : forall s s' b y, (forall d, (d < 3)%nat -> s d = s' d) -> in_coarser g Bz bs a s b y -> in_coarser g Bz bs a s' b y.
Proof using. intros s s' b y H (H1 & H2 & H3 & H4). split; [exact H1|]. split; [exact H2|]. split; [exact H3|]. intros d Hd. rewrite <- (H d Hd). apply H4, Hd. Qed.

(** Nothing lies beyond a physical boundary. *)
Lemma wall_coarser : forall s b y d (hi : bool), in_coarser g Bz bs a s b y -> at_wall g a d hi -> side Bz dim true s d = (if hi then 1 else -1) -> False.
Proof using Vg W Ha Hm FT.
  intros s b y d hi (Hb & L & O & P) (Hd & Hbc & Hc) Sd. pose proof D13. destruct (P d ltac:(lia)) as (v & S1 & S2). destruct (in_dom g t W b Hb) as [Db Rb].
  destruct (active_facts g Bz ml D13 FT d Hd) as (_ & _ & _ & _ & _ & _ & E3 & E4 & N1 & N2). destruct (multi_facts g Bz ml D13 FT Hm d Hd) as (h & k & G1 & G2 & G3 & G4 & G5 & G6).
  assert (v = 0) as ->. { destruct S1 as [->|(B1 & B2 & _)]; [reflexivity|]. destruct hi; congruence. }
  pose proof (dom_inr g b d Rb Db ltac:(lia)) as I. unfold inr, nmax in I. replace (Nat.ltb d dim) with true in I by (symmetry; apply Nat.ltb_lt, Hd). specialize (O d ltac:(lia)).
  destruct (w_even ltac:(lia) d) as (q & Ew & Eq). replace (level a - 1)%nat with (level b) in Eq by lia. rewrite <- Eq in I. rewrite Ew in Hc. clear Ew Eq. unfold side in Sd. rewrite E3, !E4, ?G2 in *. rewrite G1 in *.
  destruct hi; rewrite Hc in S2; destruct (Z.ltb_spec (s d) (ng Bz)), (Z.leb_spec (ng Bz + h) (s d)); try discriminate Sd; nia.
Qed.
Lemma wall_parity : forall d hi, (groot g < level a)%nat -> at_wall g a d hi -> Z.even (coord d a) = negb hi.
Proof using.
  intros d hi Hr (_ & _ & ->). destruct (w_even Hr d) as (q & -> & _). destruct hi; cbn [negb]; [|reflexivity]. replace (2 * q - 1) with (1 + 2 * (q - 1)) by ring. rewrite Z.even_add_mul_2. reflexivity.
Qed.
Lemma applies_iff : forall d hi, (d < dim)%nat -> (applies g a d hi = true <-> at_wall g a d hi).
Proof using Vg.
  intros d hi Hd. pose proof D13. unfold applies, at_wall. assert (X : (match d with 0%nat => lx1 a | 1%nat => lx2 a | _ => lx3 a end) = coord d a) by (destruct d as [|[|[|d]]]; [reflexivity|reflexivity|reflexivity|lia]).
  unfold at_face, fmax. rewrite X. rewrite andb_true_iff, orb_true_iff, !andb_true_iff, !Z.eqb_eq. destruct hi.
  - destruct (gbc g d true); split; intros Q; (destruct Q as (Q1 & Q2) || destruct Q as (Q1 & Q2 & Q3)); try discriminate Q2; try (destruct Q2 as [Q2 _]; discriminate Q2); try (repeat split; [exact Hd|lia]); split; [lia|reflexivity].
  - destruct (gbc g d false); split; intros Q; (destruct Q as (Q1 & Q2) || destruct Q as (Q1 & Q2 & Q3)); try discriminate Q2; try (destruct Q2 as [Q2 _]; discriminate Q2); try (repeat split; [exact Hd|lia]); split; [lia|reflexivity].
Qed.
Lemma wall_dec : forall d hi, (d < dim)%nat -> at_wall g a d hi \/ ~ at_wall g a d hi.
Proof using Vg. intros d hi Hd. destruct (applies g a d hi) eqn:Ea; [left|right; intros X]; apply applies_iff in Ea || (apply applies_iff in X; [|exact Hd]); [exact Ea|exact Hd|congruence]. Qed.
(** Away from walls there is a place. *)
Lemma no_wall : forall d (o : Z), (d < dim)%nat -> (o = 1 -> ~ at_wall g a d true) -> (o = -1 -> ~ at_wall g a d false) -> (o = -1 \/ o = 0 \/ o = 1) -> exists v, period_shift g d (w d) v /\ 0 <= coord d a + o + v < w d.
Proof using Vg W Ha PL.
  intros d o Hd N1 N2 Ho. pose proof D13. pose proof (coord_range d Hd) as C. pose proof (w_pos d ltac:(lia)) as Wp. pose proof Vg as (_ & _ & _ & VP). specialize (VP d Hd).
  destruct (PL d true Hd) as [P1|P1], (PL d false Hd) as [P2|P2]; try (exfalso; destruct VP as [V1 V2]; rewrite P1, P2 in *; (discriminate (V1 eq_refl) || discriminate (V2 eq_refl))).
  - destruct (Z.eq_dec (coord d a + o) (w d)) as [E1|E1]; [exists (- w d); split; [right; auto|lia]|]. destruct (Z.eq_dec (coord d a + o) (-1)) as [E2|E2]; [exists (w d); split; [right; auto|lia]|]. exists 0. split; [left; reflexivity|lia].
  - exists 0. split; [left; reflexivity|]. destruct Ho as [->|[->| ->]]; [|lia|].
    + destruct (Z.eq_dec (coord d a) 0) as [E1|E1]; [|lia]. exfalso. apply N2; [reflexivity|]. split; [exact Hd|]. split; [exact P2|exact E1].
    + destruct (Z.eq_dec (coord d a) (w d - 1)) as [E1|E1]; [|lia]. exfalso. apply N1; [reflexivity|]. split; [exact Hd|]. split; [exact P1|exact E1].
Qed.
End N.
