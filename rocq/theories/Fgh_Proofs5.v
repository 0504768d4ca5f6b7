(** Lengths of the messages. *)
From Coq Require Import List Arith NArith ZArith Bool Lia.
From Verif Require Import Loc LB_Spec Tags_Model Tags_Spec Tags_Proofs AMR_Model AMR_Spec AMR_Proofs AMR_Proofs2 Tree_Model Tree_Spec Tree_Proofs1 Tree_Proofs2 Tree_Proofs3 Tree_Proofs4 Tree_Proofs5 Tree_Proofs6 Tree_Proofs7 Tree_Proofs8 Tree_Restart Tree_Proofs9 Tree_Proofs10 Nbr_Model Nbr_Spec Nbr_Proofs Nbr_Proofs2 Nbr_Proofs3 Buf_Model Gho_Model Gho_Spec Gho_Proofs Gho_Proofs2 Gho_Proofs3 Gho_Proofs4 Gho_Proofs5 Gho_Proofs6 Fgh_Model Fgh_Spec Fgh_Proofs Fgh_Proofs2 Fgh_Proofs3.
Import ListNotations.
Local Open Scope Z_scope.
Local Notation pick := Fgh_Model.pick.

Definition zlen (r : rangez) : Z := snd r - fst r + 1.
Lemma fpack_length : forall (A : Type) (v : arr4 (A := A)) r, (forall c d, (c < 3)%nat -> (d < 3)%nat -> 0 <= zlen (r c d)) ->
  Z.of_nat (length (FPack v r)) = zlen (r 0 0)%nat * zlen (r 0 1)%nat * zlen (r 0 2)%nat + zlen (r 1 0)%nat * zlen (r 1 1)%nat * zlen (r 1 2)%nat + zlen (r 2 0)%nat * zlen (r 2 1)%nat * zlen (r 2 2)%nat.
Proof.
  intros A v r H. unfold FPack. cbn [flat_map]. rewrite !app_length. unfold Pack. rewrite !map_length, !region_length. cbn [length].
  assert (L1 : forall z, rlen (z, z) = 1%nat) by (intros z; unfold rlen; cbn [fst snd]; lia). rewrite !L1.
  assert (L2 : forall c d, (c < 3)%nat -> (d < 3)%nat -> Z.of_nat (rlen (r c d)) = zlen (r c d)) by (intros c d Hc Hd; specialize (H c d Hc Hd); unfold rlen, zlen in *; lia).
  rewrite !Nat2Z.inj_add, !Nat2Z.inj_mul, !L2 by lia. change (Z.of_nat 1) with 1. change (Z.of_nat 0) with 0. ring.
Qed.
Lemma grown : forall B (edge : bool) o a m, 1 <= ng B -> grown_by B edge o (pick o a (ng B) * m) = pick o a (ng B + (if edge then 1 else 0)) * m.
Proof.
  intros B edge o a m H. unfold grown_by, pick. destruct (Z.eqb o 0); [rewrite andb_false_r; reflexivity|]. destruct edge; cbn [andb negb]; [|ring]. rewrite (Z.mul_comm (ng B) m), Z.div_mul by lia. ring.
Qed.

Section N.
Variable g : grid.
Hypothesis Vg : valid_grid g.
Variable ml : bool.
Local Notation dim := (gdim g).
Variable Bz : bsz.
Hypothesis FT : fitting g Bz ml.
Local Notation D13 := (dim13 g Vg).
Definition fbit (d : nat) : Z := if Nat.ltb d dim then 1 else 0.

Lemma same_zlen : forall e c d, (d < 3)%nat -> okrange (ox e d) -> ((dim <= d)%nat -> ox e d = 0) ->
  zlen (fload_same Bz ml e c d) = if Nat.eqb d c then pick (ox e d) (cells_in Bz d + fbit d) (ng Bz + if ml && not_face e then 1 else 0) else pick (ox e d) (cells_in Bz d) (ng Bz).
Proof using Vg FT.
  intros e c d Hd Ho Z0. unfold zlen, fload_same, load_same, pick, okrange, fbit in *. destruct (Nat.ltb_spec d dim) as [Ha|Hi].
  - destruct (active_facts g Bz ml D13 FT d Ha) as (E1 & E2 & _ & _ & Ea & _). rewrite E1, E2, Ea. cbn [negb]. assert (C : ox e d = -1 \/ ox e d = 0 \/ ox e d = 1) by lia.
    destruct C as [C|[C|C]]; rewrite C; cbn [Z.eqb Z.ltb Z.compare Pos.eqb fst snd]; destruct (Nat.eqb d c), (ml && not_face e); cbn [fst snd]; lia.
  - destruct (inactive_facts g Bz ml D13 FT d Hi Hd) as (E1 & E2 & _ & _ & Ea & _ & _ & _ & E5). rewrite E1, E2, E5, Ea, (Z0 Hi). cbn [negb Z.eqb Z.ltb Z.compare]. destruct (Nat.eqb d c), (ml && not_face e); reflexivity.
Qed.
Lemma coarser_zlen : forall e c d, ml = true -> (d < 3)%nat -> okrange (ox e d) -> ((dim <= d)%nat -> ox e d = 0) ->
  zlen (fload_coarser Bz e c d) = if Nat.eqb d c then pick (ox e d) ((cells_in Bz d + 1) / 2 + fbit d) (ng Bz + if not_face e then 1 else 0) else pick (ox e d) ((cells_in Bz d + 1) / 2) (ng Bz).
Proof using Vg FT.
  intros e c d Hm Hd Ho Z0. unfold zlen, fload_coarser, load_coarser, pick, okrange, fbit in *. destruct (Nat.ltb_spec d dim) as [Ha|Hi].
  - destruct (active_facts g Bz ml D13 FT d Ha) as (_ & _ & E1 & E2 & Ea & _). destruct (multi_facts g Bz ml D13 FT Hm d Ha) as (h & k & G1 & G2 & _). rewrite E1, E2, G2, Ea. replace ((cells_in Bz d + 1) / 2) with h by (rewrite G1; apply (Z.div_unique _ 2 _ 1); lia). cbn [negb].
    assert (C : ox e d = -1 \/ ox e d = 0 \/ ox e d = 1) by lia. destruct C as [C|[C|C]]; rewrite C; cbn [Z.eqb Z.ltb Z.compare Pos.eqb fst snd]; destruct (Nat.eqb d c), (not_face e); cbn [fst snd]; lia.
  - destruct (inactive_facts g Bz ml D13 FT d Hi Hd) as (_ & _ & E1 & E2 & Ea & _ & _ & _ & E5). rewrite E1, E2, E5, Ea, (Z0 Hi). cbn [negb Z.eqb Z.ltb Z.compare]. destruct (Nat.eqb d c), (not_face e); reflexivity.
Qed.
Lemma finer_zlen : forall e c d, ml = true -> (d < 3)%nat -> okrange (ox e d) -> ((dim <= d)%nat -> ox e d = 0) ->
  zlen (fload_finer Bz e c d) = if Nat.eqb d c then pick (ox e d) ((cells_in Bz d + 1) / 2 + cng Bz * fbit d + fbit d) (cng Bz + 1) else pick (ox e d) ((cells_in Bz d + 1) / 2 + cng Bz * fbit d) (cng Bz).
Proof using Vg FT.
  intros e c d Hm Hd Ho Z0. unfold zlen, fload_finer, load_finer, pick, okrange, fbit in *. destruct (Nat.ltb_spec d dim) as [Ha|Hi].
  - destruct (active_facts g Bz ml D13 FT d Ha) as (E1 & E2 & _ & _ & Ea & En & _). destruct (multi_facts g Bz ml D13 FT Hm d Ha) as (h & k & G1 & G2 & G3 & G4 & G5 & G6). rewrite Ea, En, E1, E2, G2, G4. replace ((cells_in Bz d + 1) / 2) with h by (rewrite G1; apply (Z.div_unique _ 2 _ 1); lia). rewrite G1.
    assert (C : ox e d = -1 \/ ox e d = 0 \/ ox e d = 1) by lia. destruct C as [C|[C|C]]; rewrite C; cbn [Z.eqb Z.ltb Z.compare Pos.eqb fst snd andb]; destruct (Nat.eqb d c), (Z.eqb (fsel e d) 1); cbn [fst snd]; lia.
  - destruct (inactive_facts g Bz ml D13 FT d Hi Hd) as (E1 & E2 & _ & _ & Ea & _ & _ & _ & E5). rewrite E1, E2, E5, Ea, (Z0 Hi). cbn [negb Z.eqb Z.ltb Z.compare]. rewrite ?Z.mul_0_r. destruct (Nat.eqb d c); reflexivity.
Qed.
Variable t : tree.
Hypothesis NP : no_pole g.
Hypothesis NS : no_shear g.
Hypothesis W : wf g t.
Hypothesis Bt : B g t.
Hypothesis ML : declared g ml (blocks t).
Lemma bits : fbit 0 = 1 /\ fbit 1 = f2 Bz /\ fbit 2 = f3 Bz.
Proof using Vg FT.
  pose proof D13 as D. destruct (sizes_nonneg g Vg ml Bz FT) as (Q1 & Q2 & Q3 & Q4 & Q5 & Q6 & Q7 & Q8 & Q9). unfold fbit, f2, f3, act. split; [replace (Nat.ltb 0 dim) with true by (symmetry; apply Nat.ltb_lt; lia); reflexivity|]. split.
  - destruct (Nat.ltb_spec 1 dim); [replace (Z.ltb 1 (bn2 Bz)) with true by (symmetry; apply Z.ltb_lt, Q8; lia); reflexivity|]. rewrite Q7 by lia. reflexivity.
  - destruct (Nat.ltb_spec 2 dim); [replace (Z.ltb 1 (bn3 Bz)) with true by (symmetry; apply Z.ltb_lt, Q9; lia); reflexivity|]. rewrite Q6 by lia. reflexivity.
Qed.
Lemma pick_nonneg : forall o a b, 0 <= a -> 0 <= b -> 0 <= pick o a b.
Proof using . intros o a b H1 H2. unfold pick. destruct (Z.eqb o 0); assumption. Qed.
Lemma fload_length : forall (A : Type) a e (v r : arr4 (A := A)), In a (blocks t) -> E g t ml a e -> Z.of_nat (length (FLoad Bz ml (level a) v r e)) = fc_ssize Bz ml (level a) e.
Proof using Vg FT NP NS W Bt ML.
  intros A a e v r Ha He. destruct (entry_dirs g Vg NP t W Bt ml ML a e Ha He) as [O1 O2]. pose proof D13 as D. destruct (sizes_nonneg g Vg ml Bz FT) as (Q1 & Q2 & Q3 & Q4 & Q5 & _). destruct bits as (B0 & B1 & B2).
  assert (Ok : forall d, (d < 3)%nat -> (dim <= d)%nat -> ox e d = 0) by (intros d Hd Hi; apply (O2 d Hi Hd)).
  assert (Fb : forall d, 0 <= fbit d <= 1) by (intros d; unfold fbit; destruct (Nat.ltb d dim); lia).
  assert (Cn : forall d, (d < 3)%nat -> 0 <= cells_in Bz d) by (intros [|[|[|d]]] Hd; try lia; assumption).
  assert (Hn : forall d, (d < 3)%nat -> 0 <= (cells_in Bz d + 1) / 2) by (intros d Hd; apply Z.div_pos; [specialize (Cn d Hd)|]; lia).
  unfold FLoad, fc_ssize. destruct (kinds g Vg NP NS t W Bt ml ML a e Ha He) as [[L _]|[[Hm (L & F01 & _)]|[Hm (L & _)]]].
  - rewrite L, Nat.eqb_refl. rewrite fpack_length.
    + rewrite !same_zlen by (try apply O1; try (apply Ok); lia). cbn [Nat.eqb ox cells_in]. rewrite B0, B1, B2. unfold fsz_same.
      set (o1 := n_o1 e). set (o2 := n_o2 e). set (o3 := n_o3 e). destruct ml; cbn [andb]; [|rewrite !Z.add_0_r; ring].
      replace (pick o1 (bn1 Bz + 1) (ng Bz) * pick o2 (bn2 Bz) (ng Bz) * pick o3 (bn3 Bz) (ng Bz)) with (pick o1 (bn1 Bz + 1) (ng Bz) * (pick o2 (bn2 Bz) (ng Bz) * pick o3 (bn3 Bz) (ng Bz))) by ring.
      replace (pick o1 (bn1 Bz) (ng Bz) * pick o2 (bn2 Bz + f2 Bz) (ng Bz) * pick o3 (bn3 Bz) (ng Bz)) with (pick o2 (bn2 Bz + f2 Bz) (ng Bz) * (pick o1 (bn1 Bz) (ng Bz) * pick o3 (bn3 Bz) (ng Bz))) by ring.
      replace (pick o1 (bn1 Bz) (ng Bz) * pick o2 (bn2 Bz) (ng Bz) * pick o3 (bn3 Bz + f3 Bz) (ng Bz)) with (pick o3 (bn3 Bz + f3 Bz) (ng Bz) * (pick o1 (bn1 Bz) (ng Bz) * pick o2 (bn2 Bz) (ng Bz))) by ring.
      rewrite !grown by lia. ring.
    + intros c d Hc Hd. rewrite same_zlen by (try apply O1; try (apply Ok); lia). specialize (Fb d). specialize (Cn d Hd). destruct (Nat.eqb d c); apply pick_nonneg; destruct (ml && not_face e); lia.
  - replace (Nat.eqb (level (n_loc e)) (level a)) with false by (symmetry; apply Nat.eqb_neq; lia). replace (Nat.ltb (level (n_loc e)) (level a)) with false by (symmetry; apply Nat.ltb_ge; lia). rewrite fpack_length.
    + rewrite !finer_zlen by (first [exact Hm|lia|apply O1|apply Ok; lia]). cbn [Nat.eqb ox cells_in]. rewrite B0, B1, B2. unfold fsz_finer. rewrite !Z.mul_1_r. ring.
    + intros c d Hc Hd. rewrite finer_zlen by (first [exact Hm|lia|apply O1|apply Ok; lia]). specialize (Fb d). specialize (Hn d Hd). destruct (Nat.eqb d c); apply pick_nonneg; try lia; nia.
  - replace (Nat.eqb (level (n_loc e)) (level a)) with false by (symmetry; apply Nat.eqb_neq; lia). replace (Nat.ltb (level (n_loc e)) (level a)) with true by (symmetry; apply Nat.ltb_lt; lia). rewrite fpack_length.
    + rewrite !coarser_zlen by (first [exact Hm|lia|apply O1|apply Ok; lia]). cbn [Nat.eqb ox cells_in]. rewrite B0, B1, B2. unfold fsz_coarser.
      set (o1 := n_o1 e). set (o2 := n_o2 e). set (o3 := n_o3 e). set (h1 := (bn1 Bz + 1) / 2). set (h2 := (bn2 Bz + 1) / 2). set (h3 := (bn3 Bz + 1) / 2).
      replace (pick o1 (h1 + 1) (ng Bz) * pick o2 h2 (ng Bz) * pick o3 h3 (ng Bz)) with (pick o1 (h1 + 1) (ng Bz) * (pick o2 h2 (ng Bz) * pick o3 h3 (ng Bz))) by ring.
      replace (pick o1 h1 (ng Bz) * pick o2 (h2 + f2 Bz) (ng Bz) * pick o3 h3 (ng Bz)) with (pick o2 (h2 + f2 Bz) (ng Bz) * (pick o1 h1 (ng Bz) * pick o3 h3 (ng Bz))) by ring.
      replace (pick o1 h1 (ng Bz) * pick o2 h2 (ng Bz) * pick o3 (h3 + f3 Bz) (ng Bz)) with (pick o3 (h3 + f3 Bz) (ng Bz) * (pick o1 h1 (ng Bz) * pick o2 h2 (ng Bz))) by ring.
      rewrite !grown by lia. ring.
    + intros c d Hc Hd. rewrite coarser_zlen by (first [exact Hm|lia|apply O1|apply Ok; lia]). specialize (Fb d). specialize (Hn d Hd). destruct (Nat.eqb d c); apply pick_nonneg; destruct (not_face e); lia.
Qed.
Lemma fits : forall a e, In a (blocks t) -> E g t ml a e -> fc_ssize Bz ml (level a) e <= ComputeFaceBufferSize Bz ml (not_face e) (n_o1 e) (n_o2 e) (n_o3 e).
Proof using Vg FT NP NS W Bt ML.
  intros a e Ha He. unfold fc_ssize, ComputeFaceBufferSize. destruct (kinds g Vg NP NS t W Bt ml ML a e Ha He) as [[L _]|[[Hm (L & F01 & _)]|[Hm (L & _)]]].
  - rewrite L, Nat.eqb_refl. destruct ml; lia.
  - replace (Nat.eqb (level (n_loc e)) (level a)) with false by (symmetry; apply Nat.eqb_neq; lia). replace (Nat.ltb (level (n_loc e)) (level a)) with false by (symmetry; apply Nat.ltb_ge; lia). rewrite Hm. lia.
  - replace (Nat.eqb (level (n_loc e)) (level a)) with false by (symmetry; apply Nat.eqb_neq; lia). replace (Nat.ltb (level (n_loc e)) (level a)) with true by (symmetry; apply Nat.ltb_lt; lia). rewrite Hm. lia.
Qed.
Lemma flip : forall e e' l l', n_loc e = l' -> n_loc e' = l -> (forall d, ox e' d = - ox e d) -> not_face e' = not_face e -> fc_ssize Bz ml (level l') e' = fc_rsize Bz ml (level l) e.
Proof using .
  intros e e' l l' H1 H2 Ho Hf. assert (P : forall d a b, pick (ox e' d) a b = pick (ox e d) a b) by (intros d a b; rewrite Ho; unfold pick; destruct (ox e d); reflexivity).
  assert (G : forall d ed n, grown_by Bz ed (ox e' d) n = grown_by Bz ed (ox e d) n) by (intros d ed n; rewrite Ho; unfold grown_by; destruct (ox e d); reflexivity).
  pose proof (P 0%nat) as P0. pose proof (P 1%nat) as P1. pose proof (P 2%nat) as P2. pose proof (G 0%nat) as G0. pose proof (G 1%nat) as G1. pose proof (G 2%nat) as G2. cbn [ox] in P0, P1, P2, G0, G1, G2. clear P G Ho.
  unfold fc_ssize, fc_rsize, fsz_same, fsz_finer, fsz_coarser. rewrite H1, H2, Hf. rewrite !P0, !P1, !P2, !G0, !G1, !G2.
  destruct (Nat.eqb_spec (level l) (level l')) as [Q|Q]; [rewrite Q, Nat.eqb_refl; reflexivity|]. replace (Nat.eqb (level l') (level l)) with false by (symmetry; apply Nat.eqb_neq; lia).
  destruct (Nat.ltb_spec (level l) (level l')); [replace (Nat.ltb (level l') (level l)) with false by (symmetry; apply Nat.ltb_ge; lia)|replace (Nat.ltb (level l') (level l)) with true by (symmetry; apply Nat.ltb_lt; lia)]; reflexivity.
Qed.
End N.
