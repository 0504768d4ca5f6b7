(** Messages carry the electromotive forces of the same edges. *)
From Coq Require Import List Arith NArith ZArith Bool Lia Permutation Reals Lra.
From Verif Require Fv_Spec Fv_Proofs2.
From Verif Require Import Loc LB_Spec Tags_Model Tags_Spec Tags_Proofs AMR_Model AMR_Spec AMR_Proofs AMR_Proofs2 Tree_Model Tree_Spec Tree_Proofs1 Tree_Proofs2 Tree_Proofs3 Tree_Proofs4 Tree_Proofs5 Tree_Proofs6 Tree_Proofs7 Tree_Proofs8 Tree_Restart Tree_Proofs9 Tree_Proofs10 Nbr_Model Nbr_Spec Nbr_Proofs Nbr_Proofs2 Nbr_Proofs3 Buf_Model Gho_Model Gho_Spec Gho_Proofs Gho_Proofs2 Con_Model Con_Spec Con_Proofs Emf_Model Emf_Spec Emf_Proofs Emf_Proofs2 Emf_Proofs3.
Import ListNotations.
Local Open Scope Z_scope.

Definition mv (h : nat -> Z -> Z) (p : fpos) : fpos := (h 2%nat (index p 2), h 1%nat (index p 1), h 0%nat (index p 0)).
Lemma via_at : forall h c p, via h (at_pos c p) = at_pos c (mv h p).
Proof. intros h c [[k j] i]. reflexivity. Qed.
Lemma index_mv : forall h p d, (d < 3)%nat -> index (mv h p) d = h d (index p d).
Proof. intros h p d Hd. destruct d as [|[|[|d]]]; try reflexivity. lia. Qed.
Lemma fpos_ext : forall p q : fpos, (forall d, (d < 3)%nat -> index p d = index q d) -> p = q.
Proof. intros [[k j] i] [[k' j'] i'] H. pose proof (H 0%nat ltac:(lia)). pose proof (H 1%nat ltac:(lia)). pose proof (H 2%nat ltac:(lia)). cbn in *. congruence. Qed.
Definition nx (c : nat) (p : fpos) : fpos := mv (fun d z => if Nat.eqb d c then z + 1 else z) p.
Lemma next_at : forall c p, (c < 3)%nat -> next c (at_pos c p) = at_pos c (nx c p).
Proof. intros c [[k j] i] Hc. destruct c as [|[|[|c]]]; try reflexivity. lia. Qed.
Lemma index_nx : forall c p d, (d < 3)%nat -> index (nx c p) d = if Nat.eqb d c then index p d + 1 else index p d.
Proof. intros c p d Hd. unfold nx. rewrite index_mv by exact Hd. reflexivity. Qed.
Lemma nonzeros_0 : forall o, nonzeros o = 0%nat -> o = (0, 0, 0).
Proof. intros [[x y] z] H. unfold nonzeros in H. cbn [dd] in H. destruct (Z.eqb_spec x 0), (Z.eqb_spec y 0), (Z.eqb_spec z 0); cbn in H; try discriminate H. subst. reflexivity. Qed.
Lemma dtype_nonzeros : forall o, (nonzeros o = 1%nat -> dtype o = face) /\ (nonzeros o = 2%nat -> dtype o = edge).
Proof. intros [[x y] z]. unfold nonzeros, dtype, nz. cbn [dd]. destruct (Z.eqb x 0), (Z.eqb y 0), (Z.eqb z 0); cbn; split; intros H; (reflexivity || discriminate H). Qed.
Lemma nonzeros_le : forall o c, (c < 3)%nat -> dd o c = 0 -> (nonzeros o <= 2)%nat.
Proof. intros [[x y] z] c Hc H. unfold nonzeros. cbn [dd]. destruct c as [|[|[|c]]]; cbn [dd] in H; [| | |lia]; rewrite H; cbn [Z.eqb]; destruct (Z.eqb x 0), (Z.eqb y 0), (Z.eqb z 0); lia. Qed.
Lemma two_others : forall o c, nonzeros o = 2%nat -> (c < 3)%nat -> dd o c = 0 -> forall d, (d < 3)%nat -> d <> c -> dd o d <> 0.
Proof. intros o c. intros H1 H2 H3 d. apply (edge_others c H2 o H1 H3). Qed.

Section P.
Variable g : grid.
Hypothesis Vg : valid_grid g.
Hypothesis NP : no_pole g.
Hypothesis NS : no_shear g.
Variable t : tree.
Hypothesis W : wf g t.
Hypothesis Bt : B g t.
Variable ml : bool.
Hypothesis ML : declared g ml (blocks t).
Variable Bz : bsz.
Hypothesis FT : fitting g Bz ml.
Local Notation dim := (gdim g).
Local Notation E := (E g t ml).
Local Notation D13 := (dim13 g Vg).
Local Notation bs := (blocks t).
Local Notation first := (first Bz dim).
Local Notation nn := (cells_in Bz).
Local Notation edge_of := (edge_of g Bz).

Lemma pos_in : forall c q d, edge_of c q -> (d < dim)%nat -> first d <= index q d < first d + nn d + (if Nat.eqb d c then 0 else 1).
Proof using Vg. intros c q d H Hd. pose proof D13. specialize (H d ltac:(lia)). unfold size in H. rewrite (proj2 (Nat.ltb_lt _ _) Hd) in H. cbn [andb] in H. destruct (Nat.eqb d c); cbn [negb] in H; lia. Qed.
Lemma pos_out : forall c q d, edge_of c q -> (dim <= d)%nat -> (d < 3)%nat -> index q d = 0.
Proof using . intros c q d H Hd H3. specialize (H d H3). unfold size, Gho_Spec.first in H. rewrite (proj2 (Nat.ltb_ge _ _) Hd) in H. cbn [andb] in H. lia. Qed.
Lemma mk_edge : forall c q, (forall d, (d < dim)%nat -> first d <= index q d < first d + nn d + (if Nat.eqb d c then 0 else 1)) -> (forall d, (dim <= d)%nat -> (d < 3)%nat -> index q d = 0) -> edge_of c q.
Proof using . intros c q H1 H2 d Hd. unfold size. destruct (Nat.ltb_spec d dim) as [L|L]; [specialize (H1 d L); destruct (Nat.eqb d c); cbn [andb negb]; lia|]. rewrite (H2 d L Hd). unfold Gho_Spec.first. rewrite (proj2 (Nat.ltb_ge _ _) L). cbn [andb]. lia. Qed.
Lemma nn2 : forall d, (d < dim)%nat -> 2 <= nn d.
Proof using Vg FT. intros d Hd. pose proof D13. destruct (rng_facts g Vg ml Bz FT d ltac:(lia)) as [(A0 & A1 & A2 & A3 & A4 & A5 & _)|(A0 & _)]; lia. Qed.
Lemma block_range : forall b d, In b bs -> (d < dim)%nat -> 0 <= coord d b < gnrb g d * 2 ^ Z.of_nat (level b - groot g).
Proof using Vg W. intros b d Hb Hd. pose proof D13. apply (in_blocks g t b W) in Hb as [Cb (zb & Kb)]. destruct (leaf_level g t b zb W Cb Kb) as [Db Rb]. pose proof (dom_inr g b d Rb Db ltac:(lia)) as X. unfold inr, nmax in X. rewrite (proj2 (Nat.ltb_lt _ _) Hd) in X. exact X. Qed.
Lemma block_out : forall b d, In b bs -> (dim <= d)%nat -> (d < 3)%nat -> coord d b = 0.
Proof using W. intros b d Hb Hd H3. apply (in_blocks g t b W) in Hb as [Cb (zb & Kb)]. destruct (leaf_level g t b zb W Cb Kb) as [Db _]. apply (Db d H3), Hd. Qed.
Lemma block_root : forall b, In b bs -> (groot g <= level b)%nat.
Proof using W. intros b Hb. apply (in_blocks g t b W) in Hb as [Cb (zb & Kb)]. apply (leaf_level g t b zb W Cb Kb). Qed.
Lemma dom_of : forall x, (groot g <= level x)%nat -> (forall d, (d < dim)%nat -> 0 <= coord d x < gnrb g d * 2 ^ Z.of_nat (level x - groot g)) -> (forall d, (dim <= d)%nat -> (d < 3)%nat -> coord d x = 0) -> in_domain g x.
Proof using .
  intros x Hr H1 H2 d Hd. destruct (Nat.lt_ge_cases d dim) as [L|L].
  - destruct (H1 d L) as [X1 X2]. split; [exact X1|]. split; [|lia]. intros _. replace (Z.of_nat (level x)) with (Z.of_nat (level x - groot g) + Z.of_nat (groot g)) by lia. rewrite Z.pow_add_r by lia. rewrite Z.mul_assoc. apply Z.mul_lt_mono_pos_r; [apply Z.pow_pos_nonneg; lia|exact X2].
  - rewrite (H2 d L Hd). split; [lia|]. split; [lia|reflexivity].
Qed.

Variable a : loc.
Hypothesis Ha : In a bs.
Variables (c : nat) (p : fpos).
Hypothesis Hc : (c < 3)%nat.
Hypothesis Hp : edge_of c p.
Local Notation o := (sg g Bz c p).
Local Notation lev := (Z.of_nat (level a)).
Local Notation nl := (nblevel g t a).
Local Notation PN d := (gnrb g d * 2 ^ Z.of_nat (level a - groot g)).

Lemma fits_odir : forall x, fits g Bz x c p -> odir g x.
Proof using Hc. intros x H. apply fits_around in H. apply (around_odir g o x (odir_sg g Bz c p) H). Qed.
Lemma fits_facts : forall x d, fits g Bz x c p -> (d < dim)%nat -> dd x d = 0 \/ (d <> c /\ dd x d = -1 /\ index p d = first d) \/ (d <> c /\ dd x d = 1 /\ index p d = first d + nn d).
Proof using Vg FT Hc Hp.
  intros x d H Hd. pose proof D13 as V. assert (H3 : (d < 3)%nat) by lia. destruct (H d H3) as [Z0|Z0]; [left; exact Z0|]. destruct (Nat.eq_dec d c) as [->|N]; [left; apply (fits_along g Bz x c p Hc H)|].
  destruct (dir_facts g Bz ml V FT c p d Hp H3) as [(A0 & A1 & A2 & A3 & A4 & A5 & A6 & A7 & A8)|(A0 & _)]; [|lia]. destruct (A8 (proj2 (Nat.eqb_neq _ _) N)) as [[Y1 Y2]|[[Y1 Y2]|[Y1 Y2]]]; rewrite Y2 in Z0; tauto.
Qed.
Lemma mk_fits : forall x, odir g x -> (forall d, (d < dim)%nat -> dd x d = 0 \/ (d <> c /\ dd x d = -1 /\ index p d = first d) \/ (d <> c /\ dd x d = 1 /\ index p d = first d + nn d)) -> fits g Bz x c p.
Proof using Vg FT Hc Hp.
  intros x [O1 O2] H d H3. pose proof D13 as V. destruct (Nat.lt_ge_cases d dim) as [L|L]; [|left; apply O2; assumption]. destruct (H d L) as [Z0|[(N & Z0 & Y)|(N & Z0 & Y)]]; [left; exact Z0| |]; right;
    (destruct (dir_facts g Bz ml V FT c p d Hp H3) as [(A0 & A1 & A2 & A3 & A4 & A5 & A6 & A7 & A8)|(A0 & _)]; [|lia]; destruct (A8 (proj2 (Nat.eqb_neq _ _) N)) as [[Y1 Y2]|[[Y1 Y2]|[Y1 Y2]]]; lia).
Qed.

(** ** Same level *)
Definition same_pos (e : nblock) : fpos := mv (sh Bz (entry_dir e)) p.
Lemma same_sound : forall e, E a e -> level (n_loc e) = level a -> fits g Bz (entry_dir e) c p -> copy g Bz bs c a p (n_loc e, same_pos e).
Proof using Vg NP NS W Bt ML FT Ha Hc Hp.
  intros e He Hl Hf. destruct (entry_block g Vg NP t W Bt ml ML a e Ha He) as [Hb _]. destruct (same_level_of g Vg NP NS t W Bt ml ML a Ha e He Hl) as [_ (_ & (_ & _ & M3))]. pose proof D13 as V. split; [exact Hb|]. split; [exact Hl|]. cbn [fst snd]. split.
  - apply mk_edge; intros d Hd; [|intros H3]; unfold same_pos; rewrite index_mv by lia; unfold sh.
    + pose proof (pos_in c p d Hp Hd) as X. destruct (fits_facts _ d Hf Hd) as [->|[(N & -> & Y)|(N & -> & Y)]]; [lia| |]; (destruct (Nat.eqb_spec d c); [contradiction|]; pose proof (nn2 d Hd); lia).
    + rewrite (proj2 (fits_odir _ Hf) d Hd H3), (pos_out c p d Hp Hd H3). lia.
  - intros d Hd. destruct (M3 d Hd) as (s & P & Q). exists (s * nn d). split.
    + unfold domain_cells. destruct P as [->|(P1 & P2 & [->| ->])]; [left; lia|right|right]; (split; [exact P1|]; split; [exact P2|]; lia).
    + unfold place, same_pos. rewrite index_mv by lia. unfold sh. change (off e d) with (dd (entry_dir e) d) in Q. rewrite Q. lia.
Qed.
Lemma dir_of : forall f : nat -> Z, exists x : dirt, forall d, (d < 3)%nat -> dd x d = f d.
Proof using . clear Hp Hc. intros f. exists (f 0%nat, f 1%nat, f 2%nat). intros d Hd. destruct d as [|[|[|d]]]; try reflexivity. lia. Qed.
Lemma odir_of : forall x, (forall d, (d < 3)%nat -> -1 <= dd x d <= 1) -> (forall d, (dim <= d)%nat -> (d < 3)%nat -> dd x d = 0) -> odir g x.
Proof using . clear Hp Hc. intros x H1 H2. split; [|exact H2]. intros d. pose proof (H1 0%nat ltac:(lia)). pose proof (H1 1%nat ltac:(lia)). pose proof (H1 2%nat ltac:(lia)). destruct x as [[u v] w]. cbn [dd] in *. destruct d as [|[|d]]; assumption. Qed.
Lemma same_complete : forall x, copy g Bz bs c a p x -> x = (a, p) \/ exists e, E a e /\ level (n_loc e) = level a /\ fits g Bz (entry_dir e) c p /\ x = (n_loc e, same_pos e).
Proof using Vg NP NS W Bt ML FT Ha Hc Hp.
  intros [b q] (Hb & Hl & Hq & HS). cbn [fst snd] in *. pose proof D13 as V.
  assert (H1 : forall d, exists k, (d < dim)%nat -> (exists s, period_shift g d (PN d) s /\ coord d b = coord d a + k + s) /\ index q d = index p d - k * nn d /\ (k = 0 \/ (d <> c /\ k = -1 /\ index p d = first d) \/ (d <> c /\ k = 1 /\ index p d = first d + nn d))).
  { intros d. destruct (Nat.lt_ge_cases d dim) as [L|L]; [|exists 0; lia]. destruct (HS d L) as (s & P & Q). pose proof (nn2 d L) as N2. unfold place in Q.
    assert (Hs : exists s0, s = s0 * nn d /\ period_shift g d (PN d) s0). { unfold domain_cells in P. destruct P as [->|(P1 & P2 & [->| ->])]; [exists 0; split; [lia|left; reflexivity]|exists (PN d); split; [lia|right]|exists (- PN d); split; [lia|right]]; (split; [exact P1|]; split; [exact P2|]; lia). }
    destruct Hs as (s0 & -> & P0). exists (coord d b - coord d a - s0). intros _. pose proof (pos_in c p d Hp L) as X1. pose proof (pos_in c q d Hq L) as X2. set (k := coord d b - coord d a - s0) in *. assert (Ek : k * nn d = index p d - index q d) by (unfold k; lia).
    split; [exists s0; split; [exact P0|unfold k; lia]|]. split; [lia|]. clearbody k. destruct (Nat.eqb_spec d c) as [Edc|N]; [left; nia|]. assert (Y : k = 0 \/ k = -1 \/ k = 1) by nia. destruct Y as [->|[->| ->]]; [left; reflexivity|right; left|right; right]; (split; [exact N|]; split; [reflexivity|]; lia). }
  assert (H2 : exists f : nat -> Z, forall d, (d < dim)%nat -> (exists s, period_shift g d (PN d) s /\ coord d b = coord d a + f d + s) /\ index q d = index p d - f d * nn d /\ (f d = 0 \/ (d <> c /\ f d = -1 /\ index p d = first d) \/ (d <> c /\ f d = 1 /\ index p d = first d + nn d))).
  { destruct (H1 0%nat) as (k0 & K0). destruct (H1 1%nat) as (k1 & K1). destruct (H1 2%nat) as (k2 & K2). exists (fun d => match d with 0%nat => k0 | 1%nat => k1 | _ => k2 end). intros d Hd. assert (d = 0 \/ d = 1 \/ d = 2)%nat as [->|[->| ->]] by lia; [apply K0|apply K1|apply K2]; exact Hd. }
  destruct H2 as (f & Hf). destruct (dir_of (fun d => if Nat.ltb d dim then f d else 0)) as (x & Hx).
  assert (Hx1 : forall d, (d < dim)%nat -> dd x d = f d) by (intros d Hd; rewrite Hx by lia; rewrite (proj2 (Nat.ltb_lt _ _) Hd); reflexivity). assert (Hx2 : forall d, (dim <= d)%nat -> (d < 3)%nat -> dd x d = 0) by (intros d Hd H3; rewrite Hx by lia; rewrite (proj2 (Nat.ltb_ge _ _) Hd); reflexivity).
  assert (Ox : odir g x). { apply odir_of; [|exact Hx2]. intros d Hd. destruct (Nat.lt_ge_cases d dim) as [L|L]; [rewrite Hx1 by exact L; destruct (Hf d L) as (_ & _ & Y); lia|rewrite Hx2 by assumption; lia]. }
  assert (Fx : fits g Bz x c p) by (apply mk_fits; [exact Ox|]; intros d Hd; rewrite Hx1 by exact Hd; apply (Hf d Hd)).
  assert (Eq : q = mv (sh Bz x) p). { apply fpos_ext. intros d Hd. rewrite index_mv by exact Hd. unfold sh. destruct (Nat.lt_ge_cases d dim) as [L|L]; [rewrite Hx1 by exact L; apply (Hf d L)|rewrite (Hx2 d L Hd), (pos_out c p d Hp L Hd), (pos_out c q d Hq L Hd); lia]. }
  destruct (odir_cases g Vg x Ox) as [Z0|Ok].
  - left. assert (Fz : forall d, (d < dim)%nat -> f d = 0) by (intros d Hd; rewrite <- Hx1 by exact Hd; rewrite Z0; destruct d as [|[|d]]; reflexivity). f_equal.
    + apply loc_ext2; [exact Hl|]. intros d Hd. destruct (Nat.lt_ge_cases d dim) as [L|L]; [|rewrite (block_out a d Ha L Hd), (block_out b d Hb L Hd); reflexivity]. destruct (Hf d L) as ((s & P & Q) & _ & _). rewrite (Fz d L) in Q. pose proof (block_range a d Ha L). pose proof (block_range b d Hb L) as Y. rewrite Hl in Y. unfold period_shift in P. lia.
    + rewrite Eq. apply fpos_ext. intros d Hd. rewrite index_mv by exact Hd. unfold sh. rewrite Z0. replace (dd (0, 0, 0) d) with 0 by (destruct d as [|[|d]]; reflexivity). lia.
  - right. assert (Hm : neighbour_position g a (od x) b). { split; [exact Hl|]. split; [apply (in_blocks g t b W) in Hb as [Cb (zb & Kb)]; apply (leaf_level g t b zb W Cb Kb)|]. intros d Hd. destruct (Hf d Hd) as ((s & P & Q) & _ & _). exists s. split; [exact P|]. rewrite od_dd, Hx1 by exact Hd. exact Q. }
    destruct (same_entry g Vg NP NS t W Bt ml ML a Ha x Ok) as (e & He & Ed & (Se & Sp)); [apply (nblevel_eq g Vg NP NS t W Bt a Ha x Ok); exists b; split; assumption|].
    assert (Eb : n_loc e = b). { apply (nbpos_det g Vg t W a Ha x (n_loc e) b Ok); [|exact Hm]. destruct Sp as (S1 & S2 & S3). split; [exact S1|]. split; [exact S2|]. intros d Hd. rewrite od_dd, <- Ed. apply S3, Hd. }
    exists e. split; [exact He|]. split; [exact Se|]. rewrite Ed. split; [exact Fx|]. unfold same_pos. rewrite Ed, Eb, Eq. reflexivity.
Qed.

(** ** Finer blocks *)
Definition ue (e : nblock) (d : nat) : Z := 2 * dd (entry_dir e) d + bitf e d.
Definition fine_pos (e : nblock) : fpos := mv (hf Bz e) p.
Lemma bitf_dd : forall e d, bitf e d = if Z.eqb (dd (entry_dir e) d) 0 then fsel e d else if Z.eqb (dd (entry_dir e) d) (-1) then 1 else 0.
Proof using . reflexivity. Qed.
Lemma even_half : forall d, ml = true -> (d < dim)%nat -> nn d = 2 * (nn d / 2).
Proof using Vg FT. clear Hp Hc. intros d Hm Hd. pose proof D13. destruct (rng_facts g Vg ml Bz FT d ltac:(lia)) as [(A0 & A1 & A2 & A3 & A4 & A5 & A6)|(A0 & _)]; [apply A6, Hm|lia]. Qed.
Lemma fine_index : forall e d, ml = true -> (d < dim)%nat -> fits g Bz (entry_dir e) c p -> index (fine_pos e) d - first d = 2 * (index p d - first d) - ue e d * nn d.
Proof using Vg FT Hc Hp.
  intros e d Hm Hd Hf. pose proof D13 as V. unfold fine_pos. rewrite index_mv by lia. unfold hf, ue. rewrite bitf_dd. destruct (rng_facts g Vg ml Bz FT d ltac:(lia)) as [(A0 & A1 & A2 & A3 & A4 & A5 & A6)|(A0 & _)]; [|lia]. rewrite A1, A2, A4. specialize (A6 Hm).
  destruct (fits_facts _ d Hf Hd) as [X|[(N & X & Y)|(N & X & Y)]]; rewrite X; cbn [Z.eqb].
  - set (m := nn d / 2) in *. clearbody m. rewrite A6. ring.
  - unfold fixed. rewrite dd_opp, X. cbn [Z.opp Z.ltb Z.compare]. rewrite A3, Y. change (Pos.eqb 1 1) with true. lia.
  - unfold fixed. rewrite dd_opp, X. cbn [Z.opp Z.ltb Z.compare]. rewrite A2, Y. lia.
Qed.
Lemma fine_out : forall e d, fits g Bz (entry_dir e) c p -> (dim <= d)%nat -> (d < 3)%nat -> index (fine_pos e) d = 0.
Proof using Vg FT Hc Hp.
  intros e d Hf Hd H3. unfold fine_pos. rewrite index_mv by exact H3. unfold hf. rewrite (proj2 (fits_odir _ Hf) d Hd H3). cbn [Z.eqb]. destruct (rng_facts g Vg ml Bz FT d H3) as [(A0 & _)|(A0 & A1 & _)]; [lia|]. rewrite A1. apply (pos_out c p d Hp Hd H3).
Qed.
(** The edge is in the half that the finer block covers. *)
Definition covers (e : nblock) : Prop := forall d, (d < dim)%nat -> dd (entry_dir e) d = 0 ->
  if Z.eqb (fsel e d) 0 then index p d - first d < nn d / 2 + (if Nat.eqb d c then 0 else 1) else nn d / 2 <= index p d - first d.
Lemma finpos_iff : forall e, odir g (entry_dir e) -> (finpos Bz e c p = true <-> fits g Bz (entry_dir e) c p /\ covers e).
Proof using Vg FT Hc Hp.
  intros e Od. pose proof (in_fine g Bz ml D13 FT e c p Hc Hp Od) as X. unfold finpos. destruct (in_dec epos_dec _ _) as [Hi|Hi]; split; intros H; [apply X, Hi|reflexivity|discriminate H|contradiction Hi; apply X, H].
Qed.
Definition eps (c' : nat) (d : nat) : Z := if Nat.eqb d c' then 1 else 0.
Lemma fine_edge : forall e, E a e -> level (n_loc e) = S (level a) -> fits g Bz (entry_dir e) c p -> covers e -> edge_of c (fine_pos e) /\ ((c < dim)%nat -> edge_of c (nx c (fine_pos e))).
Proof using Vg NP NS W Bt ML FT Ha Hc Hp.
  intros e He Hl Hf Hcov. destruct (finer_level_of g Vg NP NS t W Bt ml ML a Ha e He Hl) as (_ & (_ & F01 & _) & Hm). pose proof D13 as V.
  assert (X : forall d, (d < dim)%nat -> 0 <= index (fine_pos e) d - first d <= nn d /\ (d = c -> index (fine_pos e) d - first d <= nn d - 2)).
  { intros d Hd. rewrite (fine_index e d Hm Hd Hf). pose proof (pos_in c p d Hp Hd) as P1. pose proof (nn2 d Hd). pose proof (even_half d Hm Hd) as Ev. unfold ue. rewrite bitf_dd. destruct (fits_facts _ d Hf Hd) as [Y|[(N & Y & Y')|(N & Y & Y')]].
    - specialize (Hcov d Hd Y). rewrite Y. cbn [Z.eqb]. destruct (F01 d) as [Z1|Z1]; rewrite Z1 in *; cbn [Z.eqb] in Hcov; set (m := nn d / 2) in *; clearbody m; destruct (Nat.eqb_spec d c); lia.
    - rewrite Y. cbn [Z.eqb]. change (Pos.eqb 1 1) with true. cbn iota. lia.
    - rewrite Y. cbn [Z.eqb]. lia. }
  split; [|intros Hcd]; apply mk_edge.
  - intros d Hd. destruct (X d Hd) as [X1 X2]. destruct (Nat.eqb_spec d c); lia.
  - intros d Hd H3. apply (fine_out e d Hf Hd H3).
  - intros d Hd. rewrite index_nx by lia. destruct (X d Hd) as [X1 X2]. destruct (Nat.eqb_spec d c); lia.
  - intros d Hd H3. rewrite index_nx by lia. destruct (Nat.eqb_spec d c); [lia|]. apply (fine_out e d Hf Hd H3).
Qed.
Lemma fine_place : forall e, E a e -> level (n_loc e) = S (level a) -> fits g Bz (entry_dir e) c p -> forall d, (d < dim)%nat -> exists s, period_shift g d (domain_cells g Bz (level (n_loc e)) d) s /\ place g Bz (n_loc e) (fine_pos e) d = 2 * place g Bz a p d + s.
Proof using Vg NP NS W Bt ML FT Ha Hc Hp.
  intros e He Hl Hf d Hd. destruct (finer_level_of g Vg NP NS t W Bt ml ML a Ha e He Hl) as (_ & (_ & F01 & m & (M1 & M2 & M3) & _ & Cm) & Hm). pose proof D13 as V. pose proof (block_root a Ha) as Ra. destruct (M3 d Hd) as (s & P & Q). exists (2 * s * nn d). split.
  - unfold domain_cells. rewrite Hl. replace (Z.of_nat (S (level a) - groot g)) with (Z.of_nat (level a - groot g) + 1) by lia. rewrite Z.pow_add_r by lia. change (2 ^ 1) with 2. destruct P as [->|(P1 & P2 & [->| ->])]; [left; lia|right|right]; (split; [exact P1|]; split; [exact P2|]; lia).
  - unfold place. rewrite (fine_index e d Hm Hd Hf), (Cm d ltac:(lia)), Q. unfold ue. change (off e d) with (dd (entry_dir e) d). ring.
Qed.
Definition pieces (e : nblock) : list (loc * fpos) := (n_loc e, fine_pos e) :: if Nat.ltb c dim then [(n_loc e, nx c (fine_pos e))] else [].
Lemma fine_sound : forall e, E a e -> level (n_loc e) = S (level a) -> fits g Bz (entry_dir e) c p -> covers e -> forall x, In x (pieces e) -> part g Bz bs c a p x.
Proof using Vg NP NS W Bt ML FT Ha Hc Hp.
  intros e He Hl Hf Hcov x Hx. destruct (entry_block g Vg NP t W Bt ml ML a e Ha He) as [Hb _]. destruct (fine_edge e He Hl Hf Hcov) as [E1 E2]. pose proof D13 as V. pose proof (fine_place e He Hl Hf) as FP.
  unfold pieces in Hx. destruct Hx as [<-|Hx].
  - split; [exact Hb|]. split; [exact Hl|]. cbn [fst snd]. split; [exact E1|]. intros d Hd. destruct (FP d Hd) as (s & P & Q). exists s. split; [exact P|]. destruct (Nat.eqb d c); lia.
  - destruct (Nat.ltb_spec c dim) as [Lc|Lc]; [|contradiction Hx]. destruct Hx as [<-|[]]. split; [exact Hb|]. split; [exact Hl|]. cbn [fst snd]. split; [apply E2, Lc|]. intros d Hd. destruct (FP d Hd) as (s & P & Q). exists s. split; [exact P|]. unfold place in *. rewrite index_nx by lia. destruct (Nat.eqb d c); lia.
Qed.
Lemma fine_complete : forall x, part g Bz bs c a p x -> exists e, E a e /\ level (n_loc e) = S (level a) /\ fits g Bz (entry_dir e) c p /\ covers e /\ In x (pieces e).
Proof using Vg NP NS W Bt ML FT Ha Hc Hp.
  intros [b q] (Hb & Hl & Hq & HS). cbn [fst snd] in *. pose proof D13 as V. pose proof (block_root a Ha) as Ra.
  assert (Hm : ml = true). { destruct (Bool.bool_dec ml true) as [X|X]; [exact X|]. exfalso. apply not_true_is_false in X. pose proof (ML X b Hb). lia. }
  assert (H1 : forall d, exists k h r, (d < dim)%nat -> (exists s, period_shift g d (PN d) s /\ coord d b = 2 * (coord d a + k + s) + h) /\ index q d - first d = 2 * (index p d - first d) - (2 * k + h) * nn d + r /\ (h = 0 \/ h = 1) /\
       ((k = 0 /\ (if Z.eqb h 0 then index p d - first d < nn d / 2 + (if Nat.eqb d c then 0 else 1) else nn d / 2 <= index p d - first d)) \/ (d <> c /\ k = -1 /\ h = 1 /\ index p d = first d) \/ (d <> c /\ k = 1 /\ h = 0 /\ index p d = first d + nn d)) /\ (r = 0 \/ (d = c /\ r = 1))).
  { intros d. destruct (Nat.lt_ge_cases d dim) as [L|L]; [|exists 0, 0, 0; lia]. destruct (HS d L) as (s & P & Q). pose proof (nn2 d L) as N2. pose proof (even_half d Hm L) as Ev.
    assert (Hs : exists s0, s = 2 * s0 * nn d /\ period_shift g d (PN d) s0). { unfold domain_cells in P. rewrite Hl in P. replace (Z.of_nat (S (level a) - groot g)) with (Z.of_nat (level a - groot g) + 1) in P by lia. rewrite Z.pow_add_r in P by lia. change (2 ^ 1) with 2 in P. destruct P as [->|(P1 & P2 & [->| ->])]; [exists 0; split; [lia|left; reflexivity]|exists (PN d); split; [lia|right]|exists (- PN d); split; [lia|right]]; (split; [exact P1|]; split; [exact P2|]; lia). }
    destruct Hs as (s0 & -> & P0). unfold place in Q. pose proof (pos_in c p d Hp L) as X1. pose proof (pos_in c q d Hq L) as X2. set (p' := index p d - first d) in *. set (q' := index q d - first d) in *.
    set (r := coord d b * nn d + q' - 2 * (coord d a * nn d + p') - 2 * s0 * nn d). set (u := coord d b - 2 * coord d a - 2 * s0). assert (Eu : u * nn d + q' = 2 * p' + r) by (unfold u, r; ring).
    assert (Hr : r = 0 \/ (d = c /\ r = 1)) by (unfold r; destruct (Nat.eqb_spec d c); lia). assert (Bp : 0 <= p' <= nn d /\ (d = c -> p' < nn d)) by (unfold p'; destruct (Nat.eqb_spec d c); lia). assert (Bq : 0 <= q' <= nn d /\ (d = c -> q' < nn d)) by (unfold q'; destruct (Nat.eqb_spec d c); lia).
    assert (Eb : coord d b = 2 * (coord d a + s0) + u) by (unfold u; ring). clearbody u r. assert (Hi : index p d = first d + p') by (unfold p'; lia). clearbody p' q'. clear X1 X2 Q. set (m := nn d / 2) in *. clearbody m.
    assert (Hu : u = -1 \/ u = 0 \/ u = 1 \/ u = 2) by (destruct Hr as [->|[_ ->]]; nia).
    destruct Hu as [->|[->|[->| ->]]].
    - exists (-1), 1, r. intros _. split; [exists s0; split; [exact P0|lia]|]. split; [lia|]. split; [right; reflexivity|]. split; [|exact Hr]. right. left. destruct Hr as [Z0|[Z0 Z1]]; [|lia]. destruct (Nat.eq_dec d c); [lia|]. repeat (split; [assumption || reflexivity|]). lia.
    - exists 0, 0, r. intros _. split; [exists s0; split; [exact P0|lia]|]. split; [lia|]. split; [left; reflexivity|]. split; [|exact Hr]. left. split; [reflexivity|]. cbn [Z.eqb]. destruct (Nat.eqb_spec d c); lia.
    - exists 0, 1, r. intros _. split; [exists s0; split; [exact P0|lia]|]. split; [lia|]. split; [right; reflexivity|]. split; [|exact Hr]. left. split; [reflexivity|]. cbn [Z.eqb]. lia.
    - exists 1, 0, r. intros _. split; [exists s0; split; [exact P0|lia]|]. split; [lia|]. split; [left; reflexivity|]. split; [|exact Hr]. right. right. destruct Hr as [Z0|[Z0 Z1]]; [|lia]. destruct (Nat.eq_dec d c); [lia|]. repeat (split; [assumption || reflexivity|]). lia. }
  assert (H2 : exists f h r : nat -> Z, forall d, (d < dim)%nat -> (exists s, period_shift g d (PN d) s /\ coord d b = 2 * (coord d a + f d + s) + h d) /\ index q d - first d = 2 * (index p d - first d) - (2 * f d + h d) * nn d + r d /\ (h d = 0 \/ h d = 1) /\
       ((f d = 0 /\ (if Z.eqb (h d) 0 then index p d - first d < nn d / 2 + (if Nat.eqb d c then 0 else 1) else nn d / 2 <= index p d - first d)) \/ (d <> c /\ f d = -1 /\ h d = 1 /\ index p d = first d) \/ (d <> c /\ f d = 1 /\ h d = 0 /\ index p d = first d + nn d)) /\ (r d = 0 \/ (d = c /\ r d = 1))).
  { destruct (H1 0%nat) as (k0 & h0 & r0 & K0). destruct (H1 1%nat) as (k1 & h1 & r1 & K1). destruct (H1 2%nat) as (k2 & h2 & r2 & K2). exists (fun d => match d with 0%nat => k0 | 1%nat => k1 | _ => k2 end), (fun d => match d with 0%nat => h0 | 1%nat => h1 | _ => h2 end), (fun d => match d with 0%nat => r0 | 1%nat => r1 | _ => r2 end). intros d Hd. assert (d = 0 \/ d = 1 \/ d = 2)%nat as [->|[->| ->]] by lia; [apply K0|apply K1|apply K2]; exact Hd. }
  clear H1. destruct H2 as (f & h & r & Hf). destruct (dir_of (fun d => if Nat.ltb d dim then f d else 0)) as (x & Hx).
  assert (Hx1 : forall d, (d < dim)%nat -> dd x d = f d) by (intros d Hd; rewrite Hx by lia; rewrite (proj2 (Nat.ltb_lt _ _) Hd); reflexivity). assert (Hx2 : forall d, (dim <= d)%nat -> (d < 3)%nat -> dd x d = 0) by (intros d Hd H3; rewrite Hx by lia; rewrite (proj2 (Nat.ltb_ge _ _) Hd); reflexivity).
  assert (Ox : odir g x). { apply odir_of; [|exact Hx2]. intros d Hd. destruct (Nat.lt_ge_cases d dim) as [L|L]; [rewrite Hx1 by exact L; destruct (Hf d L) as (_ & _ & _ & Y & _); lia|rewrite Hx2 by assumption; lia]. }
  assert (Fx : fits g Bz x c p) by (apply mk_fits; [exact Ox|]; intros d Hd; rewrite Hx1 by exact Hd; destruct (Hf d Hd) as (_ & _ & _ & [(Y & _)|[(Y1 & Y2 & _ & Y3)|(Y1 & Y2 & _ & Y3)]] & _); tauto).
  (* the position across *)
  pose proof (in_blocks g t b W) as IB. pose proof (proj1 IB Hb) as [Cb (zb & Kb)]. clear IB.
  assert (Kp : K t (anc 1 b) = KNode) by (apply K_parent; [lia|congruence]).
  assert (Lp : level (anc 1 b) = level a) by (cbn [anc level]; lia).
  assert (Cp : forall d, (d < 3)%nat -> coord d (anc 1 b) = coord d b / 2). { intros d Hd. destruct b as [lb b1 b2 b3]. destruct d as [|[|[|d]]]; try lia; cbn [anc coord lx1 lx2 lx3 Loc.lx1 Loc.lx2 Loc.lx3]; rewrite ?Z.shiftr_div_pow2 by lia; reflexivity. }
  assert (Ch : forall d, (d < dim)%nat -> exists s, period_shift g d (PN d) s /\ coord d (anc 1 b) = coord d a + f d + s). { intros d Hd. destruct (Hf d Hd) as ((s & P & Q) & _ & Hh & _). exists s. split; [exact P|]. rewrite Cp by lia. rewrite Q. rewrite Z.mul_comm, Z.div_add_l by lia. destruct Hh as [->| ->]; [change (0 / 2) with 0|change (1 / 2) with 0]; lia. }
  assert (Dp : in_domain g (anc 1 b)). { apply dom_of; [lia| |].
    - intros d Hd. rewrite Cp, Lp by lia. pose proof (block_range b d Hb Hd) as Y. rewrite Hl in Y. replace (Z.of_nat (S (level a) - groot g)) with (Z.of_nat (level a - groot g) + 1) in Y by lia. rewrite Z.pow_add_r in Y by lia. change (2 ^ 1) with 2 in Y. split; [apply Z.div_pos; lia|apply Z.div_lt_upper_bound; lia].
    - intros d Hd H3. rewrite Cp by exact H3. rewrite (block_out b d Hb Hd H3). reflexivity. }
  assert (Hnb : neighbour_position g a (od x) (anc 1 b)). { split; [exact Lp|]. split; [exact Dp|]. intros d Hd. destruct (Ch d Hd) as (s & P & Q). exists s. split; [exact P|]. rewrite od_dd, Hx1 by exact Hd. exact Q. }
  destruct (odir_cases g Vg x Ox) as [Z0|Ok].
  - exfalso. assert (Ea : anc 1 b = a). { apply loc_ext2; [exact Lp|]. intros d Hd. destruct (Nat.lt_ge_cases d dim) as [L|L]; [|rewrite Cp by exact Hd; rewrite (block_out a d Ha L Hd), (block_out b d Hb L Hd); reflexivity].
      destruct (Ch d L) as (s & P & Q). assert (Fz : f d = 0) by (rewrite <- Hx1 by exact L; rewrite Z0; destruct d as [|[|d]]; reflexivity). pose proof (block_range a d Ha L) as Y1. pose proof (dom_inr g (anc 1 b) d ltac:(lia) Dp Hd) as Y2. unfold inr, nmax in Y2. rewrite (proj2 (Nat.ltb_lt _ _) L), Lp in Y2. unfold period_shift in P. lia. }
    rewrite Ea in Kp. apply (in_blocks g t a W) in Ha as [_ (za & Ka)]. congruence.
  - assert (Hfin : nl x = lev + 1) by (apply (nblevel_fine g Vg NP NS t W Bt a Ha x Ok); exists (anc 1 b); split; assumption).
    destruct (finer_entry g Vg NP NS t W Bt ml ML a Ha x (fun d => if Nat.ltb d dim then h d else 0) Ok Hfin) as (e & He & Ed & Le & Hs).
    { intros d. destruct (Nat.ltb_spec d dim) as [L|L]; [apply (Hf d L)|left; reflexivity]. }
    { intros d Hd _. rewrite (proj2 (Nat.ltb_ge _ _) Hd). reflexivity. }
    assert (Hs' : forall d, (d < dim)%nat -> bitf e d = h d). { intros d Hd. rewrite bitf_dd, Ed, (Hx1 d Hd). destruct (Hf d Hd) as (_ & _ & _ & Y & _). destruct Y as [(Y & _)|[(_ & Y & Y' & _)|(_ & Y & Y' & _)]]; rewrite Y; [|rewrite Y'; reflexivity|rewrite Y'; reflexivity]. cbn [Z.eqb]. rewrite (Hs d ltac:(lia)) by (rewrite Hx1 by exact Hd; exact Y). rewrite (proj2 (Nat.ltb_lt _ _) Hd). reflexivity. }
    destruct (finer_level_of g Vg NP NS t W Bt ml ML a Ha e He Le) as (_ & (_ & F01 & m & M & _ & Cm) & _).
    assert (Em : m = anc 1 b). { apply (nbpos_det g Vg t W a Ha x m (anc 1 b) Ok); [|exact Hnb]. destruct M as (S1 & S2 & S3). split; [exact S1|]. split; [exact S2|]. intros d Hd. rewrite od_dd, <- Ed. apply S3, Hd. }
    assert (Eb : n_loc e = b). { apply loc_ext2; [congruence|]. intros d Hd. destruct (Nat.lt_ge_cases d dim) as [L|L].
      - rewrite (Cm d Hd), Em, (Hs' d L). destruct (Hf d L) as ((s & P & Q) & _ & Hh & _). rewrite Cp by exact Hd. rewrite Q. rewrite (Z.mul_comm 2 (coord d a + f d + s)), Z.div_add_l by lia. destruct Hh as [->| ->]; [change (0 / 2) with 0|change (1 / 2) with 0]; lia.
      - destruct (entry_block g Vg NP t W Bt ml ML a e Ha He) as [Hb' _]. rewrite (block_out b d Hb L Hd), (block_out (n_loc e) d Hb' L Hd). reflexivity. }
    exists e. split; [exact He|]. split; [exact Le|]. rewrite Ed. split; [exact Fx|]. split.
    + intros d Hd Zd. rewrite Ed in Zd. pose proof (Hs' d Hd) as Y. rewrite bitf_dd, Ed, Zd in Y. cbn [Z.eqb] in Y. rewrite Y. destruct (Hf d Hd) as (_ & _ & _ & Q & _). rewrite (Hx1 d Hd) in Zd. destruct Q as [(_ & Q)|[(_ & Q & _)|(_ & Q & _)]]; [exact Q|lia|lia].
    + assert (Fe : fits g Bz (entry_dir e) c p) by (rewrite Ed; exact Fx).
      assert (Hq' : forall d, (d < dim)%nat -> index q d = index (fine_pos e) d + r d). { intros d Hd. pose proof (fine_index e d Hm Hd Fe) as Y. unfold ue in Y. rewrite Ed, (Hx1 d Hd), (Hs' d Hd) in Y. destruct (Hf d Hd) as (_ & Q & _). lia. }
      assert (Hq0 : forall d, (dim <= d)%nat -> (d < 3)%nat -> index q d = index (fine_pos e) d) by (intros d Hd H3; rewrite (fine_out e d Fe Hd H3), (pos_out c q d Hq Hd H3); reflexivity).
      unfold pieces. rewrite Eb. destruct (Nat.ltb_spec c dim) as [Lc|Lc].
      * destruct (Hf c Lc) as (_ & _ & _ & _ & Rc). assert (Rd : forall d, (d < dim)%nat -> d <> c -> r d = 0) by (intros d Hd N; destruct (Hf d Hd) as (_ & _ & _ & _ & [Y|[Y _]]); [exact Y|contradiction]).
        destruct Rc as [Rc|[_ Rc]]; [left|right; left]; f_equal; apply fpos_ext; intros d Hd; rewrite ?index_nx by exact Hd; destruct (Nat.lt_ge_cases d dim) as [L|L].
        -- rewrite (Hq' d L). destruct (Nat.eq_dec d c) as [->|N]; [lia|rewrite (Rd d L N); lia].
        -- rewrite (Hq0 d L Hd). reflexivity.
        -- rewrite (Hq' d L). destruct (Nat.eqb_spec d c) as [->|N]; [lia|rewrite (Rd d L N); lia].
        -- rewrite (Hq0 d L Hd). destruct (Nat.eqb_spec d c); [lia|reflexivity].
      * left. f_equal. apply fpos_ext. intros d Hd. destruct (Nat.lt_ge_cases d dim) as [L|L]; [|rewrite (Hq0 d L Hd); reflexivity]. rewrite (Hq' d L). destruct (Hf d L) as (_ & _ & _ & _ & [Y|[Y _]]); [lia|lia].
Qed.
End P.
