(** Lengths of the messages. *)
From Coq Require Import List Arith NArith ZArith Bool Lia.
From Verif Require Import Loc LB_Spec Tags_Model Tags_Spec Tags_Proofs AMR_Model AMR_Spec AMR_Proofs AMR_Proofs2 Tree_Model Tree_Spec Tree_Proofs1 Tree_Proofs2 Tree_Proofs3 Tree_Proofs4 Tree_Proofs5 Tree_Proofs6 Tree_Proofs7 Tree_Proofs8 Tree_Restart Tree_Proofs9 Tree_Proofs10 Nbr_Model Nbr_Spec Nbr_Proofs Nbr_Proofs2 Nbr_Proofs3 Buf_Model Gho_Model Gho_Spec Gho_Proofs Gho_Proofs2 Gho_Proofs3 Gho_Proofs4.
Import ListNotations.
Local Open Scope Z_scope.

Definition rlen (r : rangez) : nat := Z.to_nat (snd r - fst r + 1).
Lemma ints_length : forall r, length (ints r) = rlen r.
Proof. intros r. unfold ints. rewrite map_length, seq_length. reflexivity. Qed.
Lemma flat_map_const : forall (X Y : Type) (f : X -> list Y) n l, (forall x, In x l -> length (f x) = n) -> length (flat_map f l) = (length l * n)%nat.
Proof. intros X Y f n l H. induction l as [|x l IH]; [reflexivity|]. cbn [flat_map length]. rewrite app_length, IH, (H x) by (try (left; reflexivity); intros; apply H; right; assumption). lia. Qed.
Lemma region_length : forall nl nu r, length (region nl nu r) = (rlen (nl, nu) * (rlen (r 2%nat) * (rlen (r 1%nat) * rlen (r 0%nat))))%nat.
Proof.
  intros nl nu r. unfold region. rewrite (flat_map_const _ _ _ (rlen (r 2%nat) * (rlen (r 1%nat) * rlen (r 0%nat)))%nat), ints_length; [reflexivity|]. intros n _.
  rewrite (flat_map_const _ _ _ (rlen (r 1%nat) * rlen (r 0%nat))%nat), ints_length; [reflexivity|]. intros k _. rewrite (flat_map_const _ _ _ (rlen (r 0%nat))), ints_length; [reflexivity|]. intros j _. rewrite map_length. apply ints_length.
Qed.

Section N.
Variable g : grid.
Hypothesis Vg : valid_grid g.
Variable ml : bool.
Local Notation dim := (gdim g).
Variable Bz : bsz.
Hypothesis FT : fitting g Bz ml.
Local Notation D13 := (dim13 g Vg).
Definition pick (o a b : Z) := if Z.eqb o 0 then a else b.

Lemma same_len : forall e d, (d < 3)%nat -> okrange (ox e d) -> ((dim <= d)%nat -> ox e d = 0) -> rlen (load_same Bz e d) = Z.to_nat (pick (ox e d) (cells_in Bz d) (ng Bz)).
Proof using Vg FT.
  intros e d Hd Ho Z0. unfold rlen, load_same, pick, okrange in *. cbn [fst snd]. destruct (Nat.lt_ge_cases d dim) as [Ha|Hi].
  - destruct (active_facts g Bz ml D13 FT d Ha) as (E1 & E2 & _). rewrite E1, E2. destruct (Z.eqb_spec (ox e d) 0), (Z.ltb_spec 0 (ox e d)), (Z.ltb_spec (ox e d) 0); lia.
  - destruct (inactive_facts g Bz ml D13 FT d Hi Hd) as (E1 & E2 & _ & _ & _ & _ & _ & _ & E5). rewrite E1, E2, E5, (Z0 Hi). reflexivity.
Qed.
Lemma coarser_len : forall e d, ml = true -> (d < 3)%nat -> okrange (ox e d) -> ((dim <= d)%nat -> ox e d = 0) -> rlen (load_coarser Bz e d) = Z.to_nat (pick (ox e d) ((cells_in Bz d + 1) / 2) (ng Bz)).
Proof using Vg FT.
  intros e d Hm Hd Ho Z0. unfold rlen, load_coarser, pick, okrange in *. cbn [fst snd]. destruct (Nat.lt_ge_cases d dim) as [Ha|Hi].
  - destruct (active_facts g Bz ml D13 FT d Ha) as (_ & _ & E1 & E2 & _). destruct (multi_facts g Bz ml D13 FT Hm d Ha) as (h & k & G1 & G2 & _). rewrite E1, E2, G2. replace ((cells_in Bz d + 1) / 2) with h by (rewrite G1; apply (Z.div_unique _ 2 _ 1); lia).
    destruct (Z.eqb_spec (ox e d) 0), (Z.ltb_spec 0 (ox e d)), (Z.ltb_spec (ox e d) 0); lia.
  - destruct (inactive_facts g Bz ml D13 FT d Hi Hd) as (_ & _ & E1 & E2 & _ & _ & _ & _ & E5). rewrite E1, E2, E5, (Z0 Hi). reflexivity.
Qed.
Lemma finer_len : forall e d, ml = true -> (d < 3)%nat -> okrange (ox e d) -> ((dim <= d)%nat -> ox e d = 0) ->
  rlen (load_finer Bz e d) = Z.to_nat (pick (ox e d) ((cells_in Bz d + 1) / 2 + (if Nat.ltb d dim then cng Bz else 0)) (cng Bz)).
Proof using Vg FT.
  intros e d Hm Hd Ho Z0. unfold rlen, load_finer, pick, okrange in *. destruct (Nat.ltb_spec d dim) as [Ha|Hi].
  - destruct (active_facts g Bz ml D13 FT d Ha) as (E1 & E2 & _ & _ & Ea & En & _). destruct (multi_facts g Bz ml D13 FT Hm d Ha) as (h & k & G1 & G2 & G3 & G4 & G5 & G6). rewrite Ea, En, E1, E2, G2, G4. replace ((cells_in Bz d + 1) / 2) with h by (rewrite G1; apply (Z.div_unique _ 2 _ 1); lia). rewrite G1.
    destruct (Z.eqb_spec (ox e d) 0), (Z.ltb_spec 0 (ox e d)), (Z.ltb_spec (ox e d) 0); cbn [andb]; try lia; try destruct (Z.eqb (fsel e d) 1); cbn [fst snd]; lia.
  - destruct (inactive_facts g Bz ml D13 FT d Hi Hd) as (E1 & E2 & _ & _ & Ea & _ & _ & _ & E5). rewrite Ea, E1, E2, E5, (Z0 Hi). reflexivity.
Qed.

Variable t : tree.
Hypothesis NP : no_pole g.
Hypothesis NS : no_shear g.
Hypothesis W : wf g t.
Hypothesis Bt : B g t.
Hypothesis ML : declared g ml (blocks t).
Lemma half_Z : forall z, 0 <= z -> half (Z.to_nat z) = Z.to_nat ((z + 1) / 2).
Proof using. intros z H. unfold half. rewrite Z2Nat.inj_div by lia. replace (Z.to_nat (z + 1)) with (Z.to_nat z + 1)%nat by lia. reflexivity. Qed.
Lemma pick_nat : forall o a b, Z.to_nat (pick o a b) = if Z.eqb o 0 then Z.to_nat a else Z.to_nat b.
Proof using. intros o a b. unfold pick. destruct (Z.eqb o 0); reflexivity. Qed.
Lemma sizes_nonneg : 0 <= bn1 Bz /\ 0 <= bn2 Bz /\ 0 <= bn3 Bz /\ 1 <= ng Bz /\ 1 <= cng Bz /\ ((gdim g < 3)%nat -> bn3 Bz = 1) /\ ((gdim g < 2)%nat -> bn2 Bz = 1) /\ ((2 <= gdim g)%nat -> 1 < bn2 Bz) /\ ((3 <= gdim g)%nat -> 1 < bn3 Bz).
Proof using Vg FT.
  pose proof D13 as D. destruct FT as (F1 & F2 & _). assert (forall d, (d < 3)%nat -> 1 <= cells_in Bz d). { intros d Hd. destruct (F2 d Hd) as [G1 G2]. destruct (Nat.lt_ge_cases d dim) as [H|H]; [destruct (G1 H); lia|rewrite (G2 H); lia]. }
  pose proof (H 0%nat ltac:(lia)). pose proof (H 1%nat ltac:(lia)). pose proof (H 2%nat ltac:(lia)). cbn [cells_in] in *.
  assert (1 <= cng Bz) by (unfold cng; pose proof (Z.div_pos (ng Bz + 1) 2 ltac:(lia) ltac:(lia)); lia).
  repeat apply conj; try lia; intros Hd; [apply (F2 2%nat); lia|apply (F2 1%nat); lia|apply (F2 1%nat); lia|apply (F2 2%nat); lia].
Qed.
Lemma load_length : forall (A : Type) nl nu a e (v r : arr4 (A := A)), In a (blocks t) -> E g t ml a e ->
  cc_ssize dim (Z.to_nat (ng Bz)) (Z.to_nat (cng Bz)) (Z.to_nat (bn1 Bz), Z.to_nat (bn2 Bz), Z.to_nat (bn3 Bz)) (Z.to_nat (nu - nl + 1)) (level a) e = Some (length (Load Bz nl nu (level a) v r e)) /\
  (0 <= nl -> Z.of_nat (length (Load Bz nl nu (level a) v r e)) <= ComputeVariableBufferSize Bz ml (Z.max nu (-1)) (n_o1 e) (n_o2 e) (n_o3 e)).
Proof using Vg FT NP NS W Bt ML.
  intros A nl nu a e v r Ha He. destruct (entry_dirs g Vg NP t W Bt ml ML a e Ha He) as [O1 O2]. pose proof D13 as D. destruct sizes_nonneg as (Q1 & Q2 & Q3 & Q4 & Q5 & Q6 & Q7 & Q8 & Q9).
  pose proof (kinds g Vg NP NS t W Bt ml ML a e Ha He) as Kd.
  assert (Hl : length (Load Bz nl nu (level a) v r e) = (Z.to_nat (nu - nl + 1) * ((if Nat.eqb (level (n_loc e)) (level a) then sz_same (Z.to_nat (ng Bz)) (Z.to_nat (bn1 Bz), Z.to_nat (bn2 Bz), Z.to_nat (bn3 Bz)) (n_dir e) else if Nat.ltb (level (n_loc e)) (level a) then sz_fc (Z.to_nat (ng Bz)) (Z.to_nat (bn1 Bz), Z.to_nat (bn2 Bz), Z.to_nat (bn3 Bz)) (n_dir e) else sz_cf dim (Z.to_nat (cng Bz)) (Z.to_nat (bn1 Bz), Z.to_nat (bn2 Bz), Z.to_nat (bn3 Bz)) (n_dir e))))%nat).
  { unfold Load, Pack, sz_same, sz_fc, sz_cf, dirsize, n_dir. pose proof (fun H => O2 1%nat H ltac:(lia)) as I1. pose proof (fun H => O2 2%nat H ltac:(lia)) as I2. pose proof (fun H => O2 0%nat H ltac:(lia)) as I0.
    destruct Kd as [[L _]|[[Hm (L & F01 & _)]|[Hm (L & _)]]].
    - rewrite L, Nat.eqb_refl, map_length, region_length, !same_len by (try apply O1; first [lia|assumption]). rewrite !pick_nat. cbn [ox cells_in]. unfold rlen. cbn [fst snd]. rewrite !Nat.mul_assoc. lia.
    - replace (Nat.eqb (level (n_loc e)) (level a)) with false by (symmetry; apply Nat.eqb_neq; lia). replace (Nat.ltb (level (n_loc e)) (level a)) with false by (symmetry; apply Nat.ltb_ge; lia).
      rewrite map_length, region_length, !finer_len by (try apply O1; first [lia|assumption]). rewrite !pick_nat. cbn [ox cells_in]. unfold rlen. cbn [fst snd]. rewrite !half_Z by assumption. replace (Nat.ltb 0 dim) with true by (symmetry; apply Nat.ltb_lt; lia).
      pose proof (fun z => Z.div_pos (z + 1) 2) as P. generalize (Z.to_nat (nu - nl + 1)). intros nn. rewrite !Z2Nat.inj_add by (first [lia|apply P; lia|match goal with |- context [Nat.ltb ?u ?w] => destruct (Nat.ltb u w) end; lia]).
      destruct (Nat.ltb_spec 1 dim), (Nat.ltb_spec 2 dim), (Nat.leb_spec 2 dim), (Nat.eqb_spec dim 3); try lia; rewrite ?Z2Nat.inj_0; cbn [ox] in *; try (rewrite I1 by lia); try (rewrite I2 by lia); cbn [Z.eqb]; lia.
    - replace (Nat.eqb (level (n_loc e)) (level a)) with false by (symmetry; apply Nat.eqb_neq; lia). replace (Nat.ltb (level (n_loc e)) (level a)) with true by (symmetry; apply Nat.ltb_lt; lia).
      rewrite map_length, region_length, !coarser_len by (try apply O1; first [lia|assumption]). rewrite !pick_nat. cbn [ox cells_in]. unfold rlen. cbn [fst snd]. rewrite !half_Z by assumption. lia. }
  split; [unfold cc_ssize; rewrite Hl; f_equal; lia|].
  intros Hn0. match goal with |- _ <= ComputeVariableBufferSize ?b0 ?m0 ?n0 ?o1 ?o2 ?o3 => change (ComputeVariableBufferSize b0 m0 n0 o1 o2 o3) with
    ((if m0 then Z.max (Z.max (pick o1 (bn1 b0) (ng b0) * pick o2 (bn2 b0) (ng b0) * pick o3 (bn3 b0) (ng b0))
       (pick o1 ((bn1 b0 + 1) / 2 + cng b0) (cng b0) * pick o2 ((bn2 b0 + 1) / 2 + cng b0 * f2 b0) (cng b0) * pick o3 ((bn3 b0 + 1) / 2 + cng b0 * f3 b0) (cng b0)))
       (pick o1 ((bn1 b0 + 1) / 2) (ng b0) * pick o2 ((bn2 b0 + 1) / 2) (ng b0) * pick o3 ((bn3 b0 + 1) / 2) (ng b0)) else pick o1 (bn1 b0) (ng b0) * pick o2 (bn2 b0) (ng b0) * pick o3 (bn3 b0) (ng b0)) * (n0 + 1)) end. destruct (Z_lt_le_dec nu nl) as [Hlt|Hge].
  { rewrite Hl. replace (Z.to_nat (nu - nl + 1)) with 0%nat by lia. cbn [Nat.mul Z.of_nat]. destruct (Z.le_gt_cases nu (-1)); [rewrite (Z.max_r nu (-1)) by lia; change (-1 + 1) with 0; rewrite Z.mul_0_r; lia|]. rewrite (Z.max_l nu (-1)) by lia.
    apply Z.mul_nonneg_nonneg; [|lia]. assert (Hp : 0 <= pick (n_o1 e) (bn1 Bz) (ng Bz) * pick (n_o2 e) (bn2 Bz) (ng Bz) * pick (n_o3 e) (bn3 Bz) (ng Bz)); [|destruct ml; lia]. unfold pick. destruct (Z.eqb _ _), (Z.eqb _ _), (Z.eqb _ _); repeat apply Z.mul_nonneg_nonneg; lia. }
  rewrite (Z.max_l nu (-1)) by lia. rewrite Hl, Nat2Z.inj_mul, Z2Nat.id by lia.
  match goal with |- _ * Z.of_nat ?x <= ?y * _ => assert (H : Z.of_nat x <= y) end.
  { unfold sz_same, sz_fc, sz_cf, dirsize, n_dir. assert (PN : forall o a b : nat, True) by auto. clear PN Hl.
    assert (TP : forall o a b, 0 <= a -> 0 <= b -> Z.of_nat (if Z.eqb o 0 then Z.to_nat a else Z.to_nat b) = pick o a b) by (intros o x y H1 H2; unfold pick; destruct (Z.eqb o 0); lia).
    pose proof (fun z => Z.div_pos (z + 1) 2) as P.
    destruct Kd as [[L _]|[[Hm (L & F01 & _)]|[Hm (L & _)]]].
    - rewrite L, Nat.eqb_refl, !Nat2Z.inj_mul, !TP by lia. destruct ml; lia.
    - replace (Nat.eqb (level (n_loc e)) (level a)) with false by (symmetry; apply Nat.eqb_neq; lia). replace (Nat.ltb (level (n_loc e)) (level a)) with false by (symmetry; apply Nat.ltb_ge; lia). rewrite Hm. rewrite !half_Z by assumption.
      pose proof (fun H => O2 1%nat H ltac:(lia)) as I1. pose proof (fun H => O2 2%nat H ltac:(lia)) as I2. cbn [ox] in I1, I2.
      match goal with |- _ <= Z.max (Z.max _ ?y) _ => assert (H : Z.of_nat ((if Z.eqb (n_o1 e) 0 then Z.to_nat ((bn1 Bz + 1) / 2) + Z.to_nat (cng Bz) else Z.to_nat (cng Bz)) * (if Z.eqb (n_o2 e) 0 then Z.to_nat ((bn2 Bz + 1) / 2) + (if Nat.leb 2 dim then Z.to_nat (cng Bz) else 0) else (if Nat.leb 2 dim then Z.to_nat (cng Bz) else 0)) * (if Z.eqb (n_o3 e) 0 then Z.to_nat ((bn3 Bz + 1) / 2) + (if Nat.eqb dim 3 then Z.to_nat (cng Bz) else 0) else (if Nat.eqb dim 3 then Z.to_nat (cng Bz) else 0))) = y) end; [|lia].
      rewrite !Nat2Z.inj_mul. f_equal; [f_equal|].
      + unfold pick. pose proof (P (bn1 Bz) ltac:(lia) ltac:(lia)). destruct (Z.eqb (n_o1 e) 0); lia.
      + pose proof (P (bn2 Bz) ltac:(lia) ltac:(lia)). unfold pick, f2, act. destruct (Nat.leb_spec 2 dim) as [Hd|Hd]; [replace (Z.ltb 1 (bn2 Bz)) with true by (symmetry; apply Z.ltb_lt; auto); destruct (Z.eqb (n_o2 e) 0); lia|]. rewrite I1 by lia. rewrite Q7 by lia. change (Z.ltb 1 1) with false. cbv iota. rewrite Z.mul_0_r. reflexivity.
      + pose proof (P (bn3 Bz) ltac:(lia) ltac:(lia)). unfold pick, f3, act. destruct (Nat.eqb_spec dim 3) as [Hd|Hd]; [replace (Z.ltb 1 (bn3 Bz)) with true by (symmetry; apply Z.ltb_lt; apply Q9; lia); destruct (Z.eqb (n_o3 e) 0); lia|]. rewrite I2 by lia. rewrite Q6 by lia. change (Z.ltb 1 1) with false. cbv iota. rewrite Z.mul_0_r. reflexivity.
    - replace (Nat.eqb (level (n_loc e)) (level a)) with false by (symmetry; apply Nat.eqb_neq; lia). replace (Nat.ltb (level (n_loc e)) (level a)) with true by (symmetry; apply Nat.ltb_lt; lia). rewrite Hm. rewrite !half_Z by assumption. rewrite !Nat2Z.inj_mul, !TP by (try (apply P); lia). lia. }
  nia.
Qed.
End N.
