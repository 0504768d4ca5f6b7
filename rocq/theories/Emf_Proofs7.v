(** After the correction all blocks hold the same electromotive force on an edge they share. *)
From Coq Require Import List Arith NArith ZArith Bool Lia Permutation Reals Lra.
From Verif Require Fv_Spec Fv_Proofs2.
From Verif Require Import Loc LB_Spec Tags_Model Tags_Spec Tags_Proofs AMR_Model AMR_Spec AMR_Proofs AMR_Proofs2 Tree_Model Tree_Spec Tree_Proofs1 Tree_Proofs2 Tree_Proofs3 Tree_Proofs4 Tree_Proofs5 Tree_Proofs6 Tree_Proofs7 Tree_Proofs8 Tree_Restart Tree_Proofs9 Tree_Proofs10 Nbr_Model Nbr_Spec Nbr_Proofs Nbr_Proofs2 Nbr_Proofs3 Buf_Model Gho_Model Gho_Spec Gho_Proofs Gho_Proofs2 Con_Model Con_Spec Con_Proofs Emf_Model Emf_Spec Emf_Proofs Emf_Proofs2 Emf_Proofs3 Emf_Proofs4 Emf_Proofs5 Emf_Proofs6.
Import ListNotations.
Local Open Scope Z_scope.

Lemma shift_neg : forall g d P s, period_shift g d P s -> period_shift g d P (- s).
Proof. intros g d P s [->|(A & A' & [->| ->])]; [left; reflexivity|right|right]; (split; [exact A|]; split; [exact A'|lia]). Qed.
Lemma shift_add : forall g d P s s', period_shift g d P s -> period_shift g d P s' -> - (2 * P) < s + s' < 2 * P -> period_shift g d P (s + s').
Proof. intros g d P s s' [->|(A & A' & [->| ->])] [->|(A1 & A1' & [->| ->])] H; try (left; lia); try lia; right; (split; [assumption|]; split; [assumption|lia]). Qed.
Lemma shift_scale : forall g d P s k, period_shift g d P s -> period_shift g d (k * P) (k * s).
Proof. intros g d P s k [->|(A & A' & [->| ->])]; [left; lia|right|right]; (split; [exact A|]; split; [exact A'|lia]). Qed.
Lemma lists_perm : forall X (P Q : X -> Prop) l l', lists_all l P -> lists_all l' Q -> (forall x, P x <-> Q x) -> Permutation l l'.
Proof. intros X P Q l l' [N H] [N' H'] PQ. apply NoDup_Permutation; [exact N|exact N'|]. intros x. rewrite H, H'. apply PQ. Qed.
Lemma sum_pos : forall X (f : X -> R) l, l <> [] -> (forall x, In x l -> (0 < f x)%R) -> (0 < Fv_Spec.sum (map f l))%R.
Proof.
  intros X f l N H. assert (Z0 : forall l, (forall x, In x l -> (0 < f x)%R) -> (0 <= Fv_Spec.sum (map f l))%R). { clear. intros l. induction l as [|x l IH]; intros H; [cbn; lra|]. cbn [map]. rewrite sum_cons'. pose proof (H x (or_introl eq_refl)). specialize (IH (fun y Hy => H y (or_intror Hy))). lra. }
  destruct l as [|x l]; [contradiction N; reflexivity|]. cbn [map]. rewrite sum_cons'. pose proof (H x (or_introl eq_refl)). pose proof (Z0 l (fun y Hy => H y (or_intror Hy))). lra.
Qed.

Section P.
Variable g : grid.
Hypothesis Vg : valid_grid g.
Hypothesis NP : no_pole g.
Hypothesis NS : no_shear g.
Variable t : tree.
Hypothesis W : wf g t.
Hypothesis Bt : B g t.
Variable ml : bool.
Hypothesis ML : declared g ml (blocks t).
Variable Bz : bsz.
Hypothesis FT : fitting g Bz ml.
Local Notation dim := (gdim g).
Local Notation E := (E g t ml).
Local Notation D13 := (dim13 g Vg).
Local Notation bs := (blocks t).
Local Notation first := (first Bz dim).
Local Notation nn := (cells_in Bz).
Local Notation edge_of := (edge_of g Bz).
Local Notation dc := (domain_cells g Bz).
Local Notation place := (place g Bz).
Local Notation copy := (copy g Bz bs).
Local Notation part := (part g Bz bs).

Lemma place_rng : forall b c q d, In b bs -> edge_of c q -> (d < dim)%nat ->
  0 < dc (level b) d /\ 0 <= place b q d <= dc (level b) d /\ coord d b * nn d <= place b q d <= (coord d b + 1) * nn d /\ (d = c -> place b q d <= dc (level b) d - 1 /\ place b q d <= (coord d b + 1) * nn d - 1).
Proof using Vg W FT.
  intros b c q d Hb Hq Hd. pose proof (block_range g Vg t W b d Hb Hd) as X. pose proof (pos_in g Vg Bz c q d Hq Hd) as Y. pose proof (nn2 g Vg ml Bz FT d Hd) as N. unfold Con_Spec.place, domain_cells. set (G := gnrb g d * 2 ^ Z.of_nat (level b - groot g)) in *. clearbody G. destruct (Nat.eqb_spec d c) as [Ed|Ed]; (split; [nia|]; split; [nia|]; split; [nia|]); intros ?; [nia|contradiction].
Qed.
Lemma dc_succ : forall b d, In b bs -> dc (S (level b)) d = 2 * dc (level b) d.
Proof using Vg W.
  intros b d Hb. pose proof (block_root g t W b Hb) as R. unfold domain_cells. replace (Z.of_nat (S (level b) - groot g)) with (Z.of_nat (level b - groot g) + 1) by lia. rewrite Z.pow_add_r by lia. change (2 ^ 1) with 2. lia.
Qed.
Lemma copy_sym : forall a c p x, In a bs -> edge_of c p -> copy c a p x -> copy c (fst x) (snd x) (a, p).
Proof using .
  intros a c p [b q] Ha Hp (H1 & H2 & H3 & H4). cbn [fst snd] in *. split; [exact Ha|]. split; [cbn [fst]; congruence|]. split; [exact Hp|]. intros d Hd. destruct (H4 d Hd) as (s & S1 & S2). exists (- s). rewrite H2. split; [apply shift_neg, S1|]. cbn [fst snd]. lia.
Qed.
Lemma copy_trans : forall a c p x y, In a bs -> edge_of c p -> copy c a p x -> copy c (fst x) (snd x) y -> copy c a p y.
Proof using Vg W FT.
  intros a c p [b q] [b' q'] Ha Hp (H1 & H2 & H3 & H4) (K1 & K2 & K3 & K4). cbn [fst snd] in *. split; [exact K1|]. split; [cbn [fst]; congruence|]. split; [exact K3|]. intros d Hd. destruct (H4 d Hd) as (s & S1 & S2). destruct (K4 d Hd) as (s' & S1' & S2'). cbn [fst snd] in *. exists (s + s'). split; [|lia]. rewrite H2 in S1'. destruct (place_rng a c p d Ha Hp Hd) as (R0 & R1 & _). destruct (place_rng b' c q' d K1 K3 Hd) as (_ & R2 & _). rewrite K2, H2 in R2. apply shift_add; [assumption|assumption|lia].
Qed.
Lemma part_copy : forall a c p x y, In a bs -> edge_of c p -> copy c a p x -> part c a p y -> part c (fst x) (snd x) y.
Proof using Vg W FT.
  intros a c p [b q] [b' q'] Ha Hp (H1 & H2 & H3 & H4) (K1 & K2 & K3 & K4). cbn [fst snd] in *. split; [exact K1|]. split; [cbn [fst]; congruence|]. split; [exact K3|]. intros d Hd. destruct (H4 d Hd) as (s & S1 & S2). destruct (K4 d Hd) as (s' & S1' & S2'). cbn [fst snd] in *. exists (s' + 2 * - s). destruct (place_rng b c q d H1 H3 Hd) as (R0 & R1 & _ & R3). destruct (place_rng b' c q' d K1 K3 Hd) as (_ & R2 & _ & R4). rewrite H2 in *. rewrite K2 in *. rewrite (dc_succ a d Ha) in *.
  split; [|destruct (Nat.eqb d c); lia]. apply shift_add; [exact S1'|apply shift_scale, shift_neg, S1|]. destruct (Nat.eqb_spec d c) as [Ed|Ed]; [specialize (R3 Ed); specialize (R4 Ed)|]; lia.
Qed.
Lemma copy_part : forall a c p y z, In a bs -> edge_of c p -> part c a p y -> copy c (fst y) (snd y) z -> part c a p z.
Proof using Vg W FT.
  intros a c p [b q] [b' q'] Ha Hp (H1 & H2 & H3 & H4) (K1 & K2 & K3 & K4). cbn [fst snd] in *. split; [exact K1|]. split; [cbn [fst]; congruence|]. split; [exact K3|]. intros d Hd. destruct (H4 d Hd) as (s & S1 & S2). destruct (K4 d Hd) as (s' & S1' & S2'). cbn [fst snd] in *. exists (s + s'). destruct (place_rng a c p d Ha Hp Hd) as (R0 & R1 & _ & R3). destruct (place_rng b' c q' d K1 K3 Hd) as (_ & R2 & _ & R4). rewrite K2 in *. rewrite H2 in *. rewrite (dc_succ a d Ha) in *.
  split; [|destruct (Nat.eqb d c); lia]. apply shift_add; [exact S1|exact S1'|]. destruct (Nat.eqb_spec d c) as [Ed|Ed]; [specialize (R3 Ed); specialize (R4 Ed)|]; lia.
Qed.
(** No block is finer than those one level finer. *)
Lemma part_part : forall a c p y z, In a bs -> edge_of c p -> part c a p y -> part c (fst y) (snd y) z -> False.
Proof using Vg NP W FT Bt.
  intros a c p [b q] [b' q'] Ha Hp (H1 & H2 & H3 & H4) (K1 & K2 & K3 & K4). cbn [fst snd] in *. pose proof (block_root g t W a Ha) as Ra.
  assert (T : touch g a b').
  { intros d Hd. destruct (H4 d Hd) as (s & S1 & S2). destruct (K4 d Hd) as (s' & S1' & S2'). cbn [fst snd] in *. destruct (place_rng a c p d Ha Hp Hd) as (R0 & R1 & R1' & R3). destruct (place_rng b' c q' d K1 K3 Hd) as (_ & R2 & R2' & R4). pose proof (dc_succ a d Ha) as D1. pose proof (dc_succ b d H1) as D2. rewrite K2 in *. rewrite H2 in *. rewrite D2 in *. rewrite D1 in *.
    assert (S3 : period_shift g d (2 * (2 * dc (level a) d)) (2 * s + s')). { apply shift_add; [apply shift_scale, S1|exact S1'|]. destruct (Nat.eqb_spec d c) as [Ed|Ed]; [specialize (R3 Ed); specialize (R4 Ed)|]; lia. }
    set (Q := gnrb g d * 2 ^ Z.of_nat (level a - groot g)) in *. assert (DQ : dc (level a) d = Q * nn d) by reflexivity. pose proof (nn2 g Vg ml Bz FT d Hd) as N.
    assert (X : exists k, (k = 0 \/ (gbc g d false = BPeriodic /\ gbc g d true = BPeriodic /\ (k = 4 * Q \/ k = - (4 * Q)))) /\ 2 * s + s' = k * nn d). { destruct S3 as [S3|(A & A' & [S3|S3])]; [exists 0|exists (4 * Q)|exists (- (4 * Q))]; (split; [tauto|rewrite S3, ?DQ; ring]). }
    destruct X as (k & K0 & Ek). exists (- k * 2 ^ Z.of_nat (level a)). replace (Z.of_nat (S (S (level a)))) with (Z.of_nat (level a) + 2) by lia. rewrite Z.pow_add_r by lia. change (2 ^ 2) with 4. set (A := 2 ^ Z.of_nat (level a)). assert (HA : 0 < A) by (apply Z.pow_pos_nonneg; lia). split.
    - replace (Z.of_nat (level a + S (S (level a)) - groot g)) with (Z.of_nat (level a - groot g) + (Z.of_nat (level a) + 2)) by lia. rewrite !Z.pow_add_r by lia. change (2 ^ 2) with 4. fold A. destruct K0 as [->|(B1 & B2 & [->| ->])]; [left; lia|right|right]; (split; [exact B1|]; split; [exact B2|]); unfold Q; [right|left]; ring.
    - assert (I : 4 * coord d a <= coord d b' + 1 - k /\ coord d b' - k <= 4 * (coord d a + 1)). { destruct (Nat.eqb_spec d c) as [Ed|Ed]; [specialize (R3 Ed); specialize (R4 Ed)|]; split; apply (Z.mul_le_mono_pos_r _ _ (nn d)); try lia; nia. }
      clearbody A. destruct I as [I1 I2]. pose proof (Z.mul_le_mono_nonneg_r _ _ A ltac:(lia) I1). pose proof (Z.mul_le_mono_nonneg_r _ _ A ltac:(lia) I2). split; lia. }
  apply (in_blocks g t a W) in Ha as Ha'. destruct Ha' as [Ca (za & Ka)]. apply (in_blocks g t b' W) in K1 as Kb. destruct Kb as [Cb (zb & Kb)]. apply (touch_coarse g Vg NP t a b' za W Bt Ca Cb Ka); [rewrite Kb; discriminate|exact Ra|lia|exact T].
Qed.

Variables L F F' : loc -> emf.
Hypothesis LO : lengths_ok g Bz bs L.
Hypothesis ME : mean_emf g Bz bs L F F'.
Lemma copies_equal : forall a c p x, In a bs -> (c < 3)%nat -> edge_of c p -> copy c a p x -> at_edge (F' (fst x)) c (snd x) = at_edge (F' a) c p.
Proof using Vg W FT LO ME.
  intros a c p x Ha Hc Hp Hx. pose proof (copy_sym a c p x Ha Hp Hx) as Hy. destruct x as [b q]. cbn [fst snd] in *. pose proof Hx as (Hb & Hl & Hq & _). cbn [fst snd] in *.
  assert (PQ : forall y, part c b q y <-> part c a p y) by (intros y; split; intros H; [apply (part_copy b c q (a, p) y Hb Hq Hy H)|apply (part_copy a c p (b, q) y Ha Hp Hx H)]).
  assert (CQ : forall y, copy c b q y <-> copy c a p y) by (intros y; split; intros H; [apply (copy_trans a c p (b, q) y Ha Hp Hx H)|apply (copy_trans b c q (a, p) y Hb Hq Hy H)]).
  destruct (ME a c p Ha Hc Hp) as [(l & L1 & N1 & V1)|(Z1 & l & L1 & N1 & V1)], (ME b c q Hb Hc Hq) as [(l' & L2 & N2 & V2)|(Z2 & l' & L2 & N2 & V2)].
  - pose proof (lists_perm _ _ _ _ _ L2 L1 PQ) as Pm. rewrite (sum_permutation _ _ (Permutation_map _ Pm)) in V2. rewrite (sum_permutation _ _ (Permutation_map (fun x => at_edge (L (fst x)) c (snd x) * at_edge (F (fst x)) c (snd x))%R Pm)) in V2. rewrite <- V1 in V2.
    assert (Sp : (0 < Fv_Spec.sum (map (fun x => at_edge (L (fst x)) c (snd x)) l))%R). { apply sum_pos; [exact N1|]. intros y Hy'. apply (proj2 L1) in Hy' as (Y1 & _ & Y3 & _). apply (proj1 LO); assumption. }
    apply (Rmult_eq_reg_r _ _ _ V2). lra.
  - exfalso. destruct l as [|y l]; [contradiction N1; reflexivity|]. apply (Z2 y), PQ, (proj2 L1). left. reflexivity.
  - exfalso. destruct l' as [|y l']; [contradiction N2; reflexivity|]. apply (Z1 y), PQ, (proj2 L2). left. reflexivity.
  - pose proof (lists_perm _ _ _ _ _ L2 L1 CQ) as Pm. rewrite (sum_permutation _ _ (Permutation_map _ Pm)), (Permutation_length Pm) in V2. rewrite <- V1 in V2. assert (Sp : (0 < INR (length l))%R) by (apply lt_0_INR; destruct l; [contradiction N1; reflexivity|cbn; lia]). apply (Rmult_eq_reg_r _ _ _ V2). lra.
Qed.

Section C.
Variable a : loc.
Hypothesis Ha : In a bs.
Variables (c : nat) (p : fpos).
Hypothesis Hc : (c < 3)%nat.
Hypothesis Hp : edge_of c p.
Local Notation fines := (fines g t ml Bz a c p).
Local Notation in_fines := (in_fines g Vg NP NS t W Bt ml ML Bz FT a Ha c p Hc Hp).
Local Notation pieces := (pieces g Bz c p).
Local Notation fine_pos := (fine_pos Bz p).
Local Notation parts_all := (pieces_all g Vg NP NS t W Bt ml ML Bz FT a Ha c p Hc Hp).
Local Notation fine_place := (fine_place g Vg NP NS t W Bt ml ML Bz FT a Ha c p Hc Hp).
Local Notation fine_edge := (fine_edge g Vg NP NS t W Bt ml ML Bz FT a Ha c p Hc Hp).
Lemma fine_facts : forall e, In e fines -> In (n_loc e) bs /\ level (n_loc e) = S (level a) /\ edge_of c (fine_pos e) /\ ((c < dim)%nat -> edge_of c (nx c (fine_pos e))) /\ (forall d, (d < dim)%nat -> exists k, -1 <= k <= 1 /\ place (n_loc e) (fine_pos e) d = 2 * place a p d + k * dc (S (level a)) d) /\ part c a p (n_loc e, fine_pos e) /\ ((c < dim)%nat -> part c a p (n_loc e, nx c (fine_pos e))).
Proof using Vg NP NS W Bt ML FT Ha Hc Hp.
  intros e He. pose proof He as Hi. apply in_fines in He as (He & Hl & Hf & Hcv). destruct (entry_block g Vg NP t W Bt ml ML a e Ha He) as [B1 _]. destruct (fine_edge e He Hl Hf Hcv) as [E1 E2]. split; [exact B1|]. split; [exact Hl|]. split; [exact E1|]. split; [exact E2|]. split; [|split].
  - intros d Hd. destruct (fine_place e He Hl Hf d Hd) as (s & P & Q). rewrite Hl in P. destruct P as [->|(_ & _ & [->| ->])]; [exists 0|exists 1|exists (-1)]; lia.
  - apply parts_all. apply in_flat_map. exists e. split; [exact Hi|left; reflexivity].
  - intros Hd. apply parts_all. apply in_flat_map. exists e. split; [exact Hi|]. unfold Emf_Proofs4.pieces. rewrite (proj2 (Nat.ltb_lt _ _) Hd). right. left. reflexivity.
Qed.
Lemma two_wide : forall d, (d < dim)%nat -> 2 * nn d <= dc (S (level a)) d.
Proof using Vg W Ha FT.
  clear Hp Hc. intros d Hd. rewrite (dc_succ a d Ha). pose proof (block_range g Vg t W a d Ha Hd) as X. pose proof (nn2 g Vg ml Bz FT d Hd). unfold domain_cells. nia.
Qed.
Lemma one_entry : forall e e', In e fines -> In e' fines -> n_loc e = n_loc e' -> e = e'.
Proof using Vg NP NS W Bt ML FT Ha Hc Hp.
  intros e e' H H' El. destruct (fine_facts e H) as (B1 & L1 & P1 & Q1 & S1 & _). destruct (fine_facts e' H') as (B2 & L2 & P2 & Q2 & S2 & _). pose proof D13 as V.
  assert (Eq : fine_pos e = fine_pos e').
  { apply fpos_ext. intros d Hd. destruct (Nat.lt_ge_cases d dim) as [Ld|Ld].
    - destruct (S1 d Ld) as (k1 & K1 & E1). destruct (S2 d Ld) as (k2 & K2 & E2). destruct (place_rng _ c _ d B1 P1 Ld) as (R0 & _ & R1 & _). destruct (place_rng _ c _ d B2 P2 Ld) as (_ & _ & R2 & _). pose proof (two_wide d Ld) as T. pose proof (nn2 g Vg ml Bz FT d Ld) as N. rewrite <- El in *. assert (k1 = k2) by nia. subst k2. unfold Con_Spec.place in E1, E2. lia.
    - apply in_fines in H as (_ & _ & F1 & _), H' as (_ & _ & F2 & _). rewrite (fine_out g Vg ml Bz FT c p Hc Hp e d F1 Ld Hd), (fine_out g Vg ml Bz FT c p Hc Hp e' d F2 Ld Hd). reflexivity. }
  apply (piece_inj g Vg NP NS t W Bt ml ML Bz FT a Ha c p Hc Hp e e' (n_loc e, fine_pos e) H H'); unfold Emf_Proofs4.pieces; left; [reflexivity|]. rewrite El, Eq. reflexivity.
Qed.
Lemma even_dc : forall d, exists k, dc (S (level a)) d = 2 * k.
Proof using Vg W Ha. intros d. exists (dc (level a) d). apply (dc_succ a d Ha). Qed.
(** The edges that start where p starts are copies of one another, and those that end where p ends. *)
Lemma even_copies : forall e0, In e0 fines -> lists_all (map (fun e => (n_loc e, fine_pos e)) fines) (copy c (n_loc e0) (fine_pos e0)).
Proof using Vg NP NS W Bt ML FT Ha Hc Hp.
  intros e0 H0. destruct (fine_facts e0 H0) as (B1 & L1 & P1 & Q1 & S1 & T1 & _). split.
  - apply NoDup_map_on; [apply (NoDup_fines g Vg NP NS t W Bt ml ML Bz a Ha c p)|]. intros e1 e2 I1 I2 Eq. apply one_entry; [assumption|assumption|]. apply (f_equal fst) in Eq. exact Eq.
  - intros x. split.
    + intros H. apply in_map_iff in H as (e & <- & He). apply (fine_copies g Vg NP NS t W Bt ml ML Bz FT a Ha c p Hc Hp e0 e H0 He).
    + intros H. pose proof (copy_part a c p _ x Ha Hp T1 H) as Px. apply parts_all in Px. apply in_flat_map in Px as (e & He & Hx). apply in_map_iff. exists e. split; [|exact He]. destruct Hx as [Hx|Hx]; [exact Hx|exfalso]. destruct (Nat.ltb_spec c dim) as [Hd|Hd]; [|contradiction Hx]. destruct Hx as [<-|[]]. destruct H as (_ & _ & _ & H4). destruct (H4 c Hd) as (s & P & Q). cbn [fst snd] in Q. rewrite place_nx, Nat.eqb_refl in Q by exact Hc. destruct (fine_facts e He) as (_ & _ & _ & _ & S2 & _). destruct (S1 c Hd) as (k1 & _ & E1). destruct (S2 c Hd) as (k2 & _ & E2). destruct (even_dc c) as (k & Ek). rewrite L1 in P. rewrite Ek in *. destruct P as [->|(_ & _ & [->| ->])]; lia.
Qed.
Lemma odd_copies : (c < dim)%nat -> forall e0, In e0 fines -> lists_all (map (fun e => (n_loc e, nx c (fine_pos e))) fines) (copy c (n_loc e0) (nx c (fine_pos e0))).
Proof using Vg NP NS W Bt ML FT Ha Hc Hp.
  intros Hd e0 H0. destruct (fine_facts e0 H0) as (B1 & L1 & P1 & Q1 & S1 & _ & T1). specialize (T1 Hd). split.
  - apply NoDup_map_on; [apply (NoDup_fines g Vg NP NS t W Bt ml ML Bz a Ha c p)|]. intros e1 e2 I1 I2 Eq. apply one_entry; [assumption|assumption|]. apply (f_equal fst) in Eq. exact Eq.
  - intros x. split.
    + intros H. apply in_map_iff in H as (e & <- & He). apply (fine_copies g Vg NP NS t W Bt ml ML Bz FT a Ha c p Hc Hp e0 e H0 He). exact Hd.
    + intros H. pose proof (copy_part a c p _ x Ha Hp T1 H) as Px. apply parts_all in Px. apply in_flat_map in Px as (e & He & Hx). apply in_map_iff. exists e. split; [|exact He]. unfold Emf_Proofs4.pieces in Hx. rewrite (proj2 (Nat.ltb_lt _ _) Hd) in Hx. destruct Hx as [<-|[Hx|[]]]; [exfalso|exact Hx]. destruct H as (_ & _ & _ & H4). destruct (H4 c Hd) as (s & P & Q). cbn [fst snd] in Q. rewrite place_nx, Nat.eqb_refl in Q by exact Hc. destruct (fine_facts e He) as (_ & _ & _ & _ & S2 & _). destruct (S1 c Hd) as (k1 & _ & E1). destruct (S2 c Hd) as (k2 & _ & E2). destruct (even_dc c) as (k & Ek). cbn [fst snd] in P. rewrite L1 in P. rewrite Ek in *. destruct P as [->|(_ & _ & [->| ->])]; lia.
Qed.
(** The mean over the copies of a fine edge. *)
Lemma fine_value : forall b q l, In b bs -> edge_of c q -> part c a p (b, q) -> lists_all l (copy c b q) -> (at_edge (F' b) c q * INR (length l) = Fv_Spec.sum (map (fun x => at_edge (F (fst x)) c (snd x)) l))%R.
Proof using Vg NP W Bt FT Ha Hc Hp ME.
  intros b q l Hb Hq Hpt Hl. destruct (ME b c q Hb Hc Hq) as [(l' & L2 & N2 & _)|(_ & l' & L2 & N2 & V2)].
  - exfalso. destruct l' as [|y l']; [contradiction N2; reflexivity|]. apply (part_part a c p (b, q) y Ha Hp Hpt), (proj2 L2). left. reflexivity.
  - pose proof (lists_perm _ _ _ _ _ Hl L2 (fun x => iff_refl _)) as Pm. rewrite (sum_permutation _ _ (Permutation_map _ Pm)), (Permutation_length Pm). exact V2.
Qed.
Lemma coarse_value : forall e0, In e0 fines -> (at_edge (F' a) c p * Fv_Spec.sum (map (fun x => at_edge (L (fst x)) c (snd x)) (pieces e0)) = Fv_Spec.sum (map (fun x => at_edge (L (fst x)) c (snd x) * at_edge (F' (fst x)) c (snd x)) (pieces e0)))%R.
Proof using Vg NP NS W Bt ML FT Ha Hc Hp LO ME.
  intros e0 H0. destruct (fine_facts e0 H0) as (B1 & L1 & P1 & Q1 & S1 & T1 & T2).
  destruct (ME a c p Ha Hc Hp) as [(l & L2 & N2 & V2)|(Z2 & _)]; [|contradiction (Z2 _ T1)].
  pose proof (lists_perm _ _ _ _ _ L2 parts_all (fun x => iff_refl _)) as Pm. rewrite (sum_permutation _ _ (Permutation_map _ Pm)) in V2. rewrite (sum_permutation _ _ (Permutation_map (fun x => at_edge (L (fst x)) c (snd x) * at_edge (F (fst x)) c (snd x))%R Pm)) in V2. clear l L2 N2 Pm.
  pose proof (fine_value _ _ _ B1 P1 T1 (even_copies e0 H0)) as V0. rewrite map_length, map_map in V0. cbn [fst snd] in V0.
  assert (N0 : (0 < INR (length fines))%R) by (apply lt_0_INR; destruct fines; [contradiction H0|cbn; lia]).
  assert (LL : forall e, In e fines -> at_edge (L (n_loc e)) c (fine_pos e) = at_edge (L (n_loc e0)) c (fine_pos e0) /\ ((c < dim)%nat -> at_edge (L (n_loc e)) c (nx c (fine_pos e)) = at_edge (L (n_loc e0)) c (nx c (fine_pos e0)))).
  { intros e He. destruct (fine_copies g Vg NP NS t W Bt ml ML Bz FT a Ha c p Hc Hp e0 e H0 He) as [C1 C2]. split; [|intros Hd]; [apply (proj2 LO _ c _ _ B1 Hc P1 C1)|apply (proj2 LO _ c _ _ B1 Hc (Q1 Hd) (C2 Hd))]. }
  assert (G : forall l, (forall e, In e l -> In e fines) -> Fv_Spec.sum (map (fun x => at_edge (L (fst x)) c (snd x)) (flat_map pieces l)) = (INR (length l) * Fv_Spec.sum (map (fun x => at_edge (L (fst x)) c (snd x)) (pieces e0)))%R /\
     Fv_Spec.sum (map (fun x => at_edge (L (fst x)) c (snd x) * at_edge (F (fst x)) c (snd x))%R (flat_map pieces l)) = (at_edge (L (n_loc e0)) c (fine_pos e0) * Fv_Spec.sum (map (fun e => at_edge (F (n_loc e)) c (fine_pos e)) l) + (if Nat.ltb c dim then at_edge (L (n_loc e0)) c (nx c (fine_pos e0)) * Fv_Spec.sum (map (fun e => at_edge (F (n_loc e)) c (nx c (fine_pos e))) l) else 0))%R).
  { intros l. induction l as [|e l IH]; intros Hl; [destruct (Nat.ltb c dim); cbn; split; lra|]. destruct (IH (fun x Hx => Hl x (or_intror Hx))) as [I1 I2]. destruct (LL e (Hl e (or_introl eq_refl))) as [J1 J2]. cbn [flat_map length]. rewrite !map_app, !sum_app', I1, I2, S_INR. unfold Emf_Proofs4.pieces. destruct (Nat.ltb_spec c dim) as [Hd|Hd]; cbn [map]; rewrite !sum_cons'; cbn [fst snd]; change (Fv_Spec.sum []) with 0%R; rewrite J1, ?(J2 Hd); split; lra. }
  destruct (G fines (fun e He => He)) as [G1 G2]. rewrite G1, G2 in V2. rewrite <- V0 in V2. apply (Rmult_eq_reg_r (INR (length fines))); [|lra]. unfold Emf_Proofs4.pieces in *. destruct (Nat.ltb_spec c dim) as [Hd|Hd]; cbn [map] in *; rewrite !sum_cons' in *; cbn [fst snd] in *; change (Fv_Spec.sum []) with 0%R in *; [|lra].
  pose proof (fine_value _ _ _ B1 (Q1 Hd) (T2 Hd) (odd_copies Hd e0 H0)) as V1. rewrite map_length, map_map in V1. cbn [fst snd] in V1. rewrite <- V1 in V2. lra.
Qed.
Lemma coarse_part : forall b qs, qs <> [] -> lists_all qs (fun q => part c a p (b, q)) -> (at_edge (F' a) c p * Fv_Spec.sum (map (fun q => at_edge (L b) c q) qs) = Fv_Spec.sum (map (fun q => at_edge (L b) c q * at_edge (F' b) c q) qs))%R.
Proof using Vg NP NS W Bt ML FT Ha Hc Hp LO ME.
  intros b qs N [ND H]. destruct qs as [|q0 qs'] eqn:Eq; [contradiction N; reflexivity|]. rewrite <- Eq in *. assert (I0 : In q0 qs) by (rewrite Eq; left; reflexivity). clear N Eq qs'. apply H in I0. apply parts_all in I0. apply in_flat_map in I0 as (e0 & H0 & Hx0).
  assert (Pl : forall e q, In (b, q) (pieces e) -> n_loc e = b). { intros e q Hx. unfold Emf_Proofs4.pieces in Hx. destruct Hx as [Hx|Hx]; [apply (f_equal fst) in Hx; exact Hx|]. destruct (Nat.ltb c dim); [|contradiction Hx]. destruct Hx as [Hx|[]]. apply (f_equal fst) in Hx. exact Hx. }
  assert (Pm : Permutation (map (fun q => (b, q)) qs) (pieces e0)).
  { apply NoDup_Permutation.
    - apply NoDup_map_on; [exact ND|]. intros q q' _ _ E0. apply (f_equal snd) in E0. exact E0.
    - unfold Emf_Proofs4.pieces. destruct (Nat.ltb c dim); [|repeat constructor; cbn; tauto]. constructor; [|repeat constructor; cbn; tauto]. intros [X|[]]. apply (f_equal snd) in X. cbn [snd] in X. assert (Y : index (nx c (fine_pos e0)) c = index (fine_pos e0) c) by (rewrite X; reflexivity). rewrite index_nx, Nat.eqb_refl in Y by exact Hc. lia.
    - intros [b' q]. split.
      + intros X. apply in_map_iff in X as (q' & X & Hq). apply (f_equal fst) in X as X1. apply (f_equal snd) in X as X2. cbn [fst snd] in X1, X2. subst b' q'. apply H in Hq. apply parts_all in Hq. apply in_flat_map in Hq as (e & He & Hx). rewrite (one_entry e0 e H0 He); [exact Hx|]. rewrite (Pl e0 q0 Hx0), (Pl e q Hx). reflexivity.
      + intros X. assert (Eb : b' = b). { pose proof (Pl e0 q0 Hx0) as Y. unfold Emf_Proofs4.pieces in X. destruct X as [X|X]; [apply (f_equal fst) in X; cbn [fst] in X; congruence|]. destruct (Nat.ltb c dim); [|contradiction X]. destruct X as [X|[]]. apply (f_equal fst) in X. cbn [fst] in X. congruence. }
        subst b'. apply in_map_iff. exists q. split; [reflexivity|]. apply H. apply parts_all. apply in_flat_map. exists e0. split; assumption. }
  pose proof (coarse_value e0 H0) as V. rewrite <- (sum_permutation _ _ (Permutation_map (fun x => at_edge (L (fst x)) c (snd x)) Pm)) in V. rewrite <- (sum_permutation _ _ (Permutation_map (fun x => at_edge (L (fst x)) c (snd x) * at_edge (F' (fst x)) c (snd x))%R Pm)) in V. rewrite !map_map in V. cbn [fst snd] in V. exact V.
Qed.
End C.
Theorem mean_single : single_valued g Bz bs L F'.
Proof using Vg NP NS W Bt ML FT LO ME.
  split; [exact copies_equal|]. intros a b c p qs Ha Hc Hp N Hq. apply (coarse_part a Ha c p Hc Hp b qs N Hq).
Qed.
End P.
