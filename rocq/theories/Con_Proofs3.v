(** The geometry of sides and parts in terms of places; what arrives; the corrected fluxes. *)
From Coq Require Import List Arith NArith ZArith Bool Lia Permutation Reals Lra.
From Verif Require Import Fv_Model Fv_Spec Fv_Proofs2 Fv_Proofs3 Loc LB_Spec Tags_Model Tags_Spec Tags_Proofs AMR_Model AMR_Spec AMR_Proofs AMR_Proofs2 Tree_Model Tree_Spec Tree_Proofs1 Tree_Proofs2 Tree_Proofs3 Tree_Proofs4 Tree_Proofs5 Tree_Proofs6 Tree_Proofs7 Tree_Proofs8 Tree_Restart Tree_Proofs9 Tree_Proofs10 Nbr_Model Nbr_Spec Nbr_Proofs Nbr_Proofs2 Nbr_Proofs3 Buf_Model Gho_Model Gho_Spec Gho_Proofs Gho_Proofs2 Con_Model Con_Spec Con_Proofs Con_Proofs2.
Import ListNotations.
Local Open Scope Z_scope.

Lemma div2_lt : forall dim fid, (fid < 2 * dim)%nat -> (fid / 2 < dim)%nat.
Proof. intros dim fid H. apply Nat.div_lt_upper_bound; lia. Qed.
Lemma shift_mul : forall g d w s c, period_shift g d w s -> period_shift g d (w * c) (s * c).
Proof. intros g d w s c [->|(P1 & P2 & [->| ->])]; [left; ring|right; split; [exact P1|]; split; [exact P2|]; left; reflexivity|right; split; [exact P1|]; split; [exact P2|]; right; ring]. Qed.
Lemma shift_val : forall g d w s, period_shift g d w s -> s = 0 \/ s = w \/ s = - w.
Proof. intros g d w s [H|(_ & _ & [H|H])]; auto. Qed.
Lemma face_id_opposite : forall dim e e', (1 <= dim <= 3)%nat -> okdir dim (edir e) -> dtype (edir e) = face -> okdir dim (edir e') -> dtype (edir e') = face -> (forall d, (d < 3)%nat -> od (edir e') d = - od (edir e) d) -> face_id e' = opposite (face_id e).
Proof.
  intros dim e e' H1 O1 T1 O2 T2 H. destruct (edir_face_id dim e O1 T1 H1) as [L1 E1]. destruct (edir_face_id dim e' O2 T2 H1) as [L2 E2]. rewrite E1, E2 in H. clear E1 E2 O1 O2 T1 T2.
  assert (L : (face_id e < 6)%nat /\ (face_id e' < 6)%nat) by lia. clear L1 L2. revert L H. generalize (face_id e) (face_id e'). intros x y [Lx Ly] H.
  pose proof (H 0%nat ltac:(lia)) as H0. pose proof (H 1%nat ltac:(lia)) as Hb. pose proof (H 2%nat ltac:(lia)) as H2. clear H.
  destruct x as [|[|[|[|[|[|x]]]]]]; try lia; destruct y as [|[|[|[|[|[|y]]]]]]; try lia; try reflexivity; cbn in H0, Hb, H2; lia.
Qed.
Lemma opp_div : forall fid, (fid < 6)%nat -> (opposite fid / 2 = fid / 2)%nat /\ forall n, (fid < 2 * n)%nat -> (opposite fid < 2 * n)%nat.
Proof. intros fid H. destruct fid as [|[|[|[|[|[|fid]]]]]]; try lia; (split; [reflexivity|intros n; cbn; lia]). Qed.

Section N.
Variable g : grid.
Hypothesis Vg : valid_grid g.
Hypothesis NP : no_pole g.
Hypothesis NS : no_shear g.
Variable t : tree.
Hypothesis W : wf g t.
Hypothesis Bt : B g t.
Variable ml : bool.
Hypothesis ML : declared g ml (blocks t).
Variable Bz : bsz.
Hypothesis FT : fitting g Bz ml.
Local Notation dim := (gdim g).
Local Notation E := (E g t ml).
Local Notation D := (block_dims Bz).

Lemma D_facts : forall d, (d < 3)%nat -> lo_ D d = first Bz dim d /\ hi_ D d = first Bz dim d + size Bz dim false d - 1 /\ nn D d = cells_in Bz d /\ size Bz dim false d = cells_in Bz d /\ ((d < dim)%nat -> 1 < cells_in Bz d) /\ ((dim <= d)%nat -> cells_in Bz d = 1).
Proof using Vg FT.
  intros d Hd. pose proof (dim13 g Vg) as D13. assert (El : lo_ D d = s_ Bz d) by (do 3 (destruct d as [|d]; [reflexivity|]); lia). assert (Eh : hi_ D d = e_ Bz d) by (do 3 (destruct d as [|d]; [reflexivity|]); lia).
  rewrite nn_eq, El, Eh. destruct FT as (F1 & F2 & _). destruct (F2 d Hd) as [G1 G2]. destruct (Nat.lt_ge_cases d dim) as [L|L].
  - destruct (active_facts g Bz ml D13 FT d L) as (A1 & A2 & _ & _ & _ & _ & A3 & A4 & _). rewrite A1, A2, A3, (A4 false). destruct (G1 L) as [G3 _]. split; [reflexivity|]. split; [reflexivity|]. split; [lia|]. split; [reflexivity|]. split; [intros _; exact G3|intros H; lia].
  - destruct (inactive_facts g Bz ml D13 FT d L Hd) as (A1 & A2 & _ & _ & _ & _ & A3 & A4 & A5). rewrite A1, A2, A3, (A4 false), A5. split; [reflexivity|]. split; [reflexivity|]. split; [reflexivity|]. split; [reflexivity|]. split; [intros H; lia|reflexivity].
Qed.
Lemma D_nonempty : nonempty D.
Proof using Vg FT.
  pose proof (D_facts 0 ltac:(lia)) as (A1 & A2 & A3 & A4 & A5 & A6). pose proof (D_facts 1 ltac:(lia)) as (B1 & B2 & B3 & B4 & B5 & B6). pose proof (D_facts 2 ltac:(lia)) as (C1 & C2 & C3 & C4 & C5 & C6). pose proof (dim13 g Vg) as D13.
  cbn [lo_ hi_ nn] in *. split; [|intros H; destruct (Nat.lt_ge_cases 2 dim); [specialize (B5 ltac:(lia)); lia|rewrite C3; apply C6; lia]]. specialize (A5 ltac:(lia)). rewrite A1, A2, B1, B2, C1, C2, A4, B4, C4.
  destruct (Nat.lt_ge_cases 1 dim); [specialize (B5 ltac:(lia))|specialize (B6 ltac:(lia))]; (destruct (Nat.lt_ge_cases 2 dim); [specialize (C5 ltac:(lia))|specialize (C6 ltac:(lia))]); lia.
Qed.
Lemma D_active : forall d, (d < 3)%nat -> Z.ltb 1 (nn D d) = Nat.ltb d dim.
Proof using Vg FT. intros d Hd. destruct (D_facts d Hd) as (_ & _ & -> & _ & A5 & A6). destruct (Nat.ltb_spec d dim) as [H|H]; [apply Z.ltb_lt, A5, H|rewrite (A6 H); reflexivity]. Qed.
Lemma D_sides : forall fid, In fid (sides D) <-> (fid < 2 * dim)%nat.
Proof using Vg FT.
  intros fid. pose proof (dim13 g Vg) as D13. pose proof (D_active 1 ltac:(lia)) as H1. pose proof (D_active 2 ltac:(lia)) as H2. cbn [nn] in H1, H2. unfold sides. rewrite H1, H2. destruct (Nat.ltb_spec 1 dim), (Nat.ltb_spec 2 dim); try lia; cbn [app In]; lia.
Qed.
Lemma D_sides_nodup : NoDup (sides D).
Proof using . unfold sides. destruct (Z.ltb 1 (nx2 D)), (Z.ltb 1 (nx3 D)); cbn [app]; repeat constructor; cbn [In]; lia. Qed.
Lemma D_even : ml = true -> Z.even (nx1 D) = true /\ dir_ok (nx2 D) /\ dir_ok (nx3 D).
Proof using Vg FT.
  intros Hm. pose proof (dim13 g Vg) as D13. assert (X : forall d, (d < 3)%nat -> ((d < dim)%nat -> Z.even (nn D d) = true) /\ dir_ok (nn D d)).
  { intros d Hd. destruct (D_facts d Hd) as (_ & _ & -> & _ & _ & A6). destruct FT as (_ & _ & F3). destruct (F3 Hm) as [_ F4]. split; [intros L; apply F4, L|]. destruct (Nat.lt_ge_cases d dim) as [L|L]; [left; apply F4, L|right; apply A6, L]. }
  split; [apply (X 0%nat); lia|]. split; [apply (X 1%nat); lia|apply (X 2%nat); lia].
Qed.
Lemma D_parts_map : forall fid, parts D fid = map (fun f => Part fid (Z.to_nat (fst f)) (Z.to_nat (snd f))) (halves dim).
Proof using Vg FT.
  intros fid. pose proof (dim13 g Vg) as D13. pose proof (D_active 1 ltac:(lia)) as H1. pose proof (D_active 2 ltac:(lia)) as H2. cbn [nn] in H1, H2. unfold parts, halves. rewrite H1, H2.
  assert (Ed : dim = 1%nat \/ dim = 2%nat \/ dim = 3%nat) by lia. destruct Ed as [Ed|[Ed|Ed]]; rewrite Ed; reflexivity.
Qed.
Lemma face_of_D : forall dir p, face_of g Bz dir p <-> forall d, (d < 3)%nat -> lo_ D d <= index p d <= hi_ D d + (if Nat.eqb d dir then 1 else 0).
Proof using Vg FT.
  intros dir p. unfold face_of. split; intros H d Hd; specialize (H d Hd); destruct (D_facts d Hd) as (A1 & A2 & _); rewrite ?A1, ?A2 in *; destruct (Nat.eqb d dir); lia.
Qed.
Lemma side_face_of : forall fid p, (fid < 2 * dim)%nat -> In p (Fv_Spec.side D fid) -> face_of g Bz (fid / 2) p.
Proof using Vg FT.
  intros fid p Hf Hp. pose proof (dim13 g Vg) as D13. pose proof (proj1 (in_side D fid p ltac:(lia)) Hp) as Hq; clear Hp; rename Hq into Hp. apply face_of_D. intros d Hd. specialize (Hp d Hd). destruct (D_facts d Hd) as (A1 & A2 & A3 & A4 & _ & _). assert (1 <= cells_in Bz d) by (destruct FT as (_ & F2 & _); destruct (F2 d Hd) as [G1 G2]; destruct (Nat.lt_ge_cases d dim); [specialize (G1 ltac:(assumption)); lia|rewrite G2 by assumption; lia]).
  destruct (Nat.eqb d (fid / 2)); [|lia]. destruct (outer fid); lia.
Qed.
(** An entry across a face. *)
Lemma face_entry : forall a e, In a (blocks t) -> E a e -> is_face e = true -> (face_id e < 2 * dim)%nat /\ (forall d, (d < 3)%nat -> off e d = if Nat.eqb d (face_id e / 2) then (if outer (face_id e) then 1 else -1) else 0) /\
  forall d, (d < 3)%nat -> d <> (face_id e / 2)%nat -> fsel e d = match d with 0%nat => n_f1 e | 1%nat => if Nat.ltb (face_id e) 2 then n_f1 e else n_f2 e | _ => n_f2 e end.
Proof using Vg W ML.
  intros a e Ha He Hf. pose proof (dim13 g Vg) as D13. destruct (entry_facts g Vg t W ml ML a e Ha He) as (_ & _ & _ & Ho & Ht & _). assert (Tf : dtype (edir e) = face) by (unfold is_face in Hf; rewrite Ht in Hf; destruct (dtype (edir e)); [reflexivity|discriminate Hf|discriminate Hf]).
  destruct (edir_face_id dim e Ho Tf D13) as [L Ee]. split; [exact L|]. split.
  - intros d Hd. rewrite off_dir, Ee. apply od_dir_of; [lia|exact Hd].
  - intros d Hd Hne. rewrite fsel_tang, Ee. assert (L6 : (face_id e < 6)%nat) by lia. clear L Ee Ho Ht Tf Hf He. revert Hne L6. generalize (face_id e). intros fid Hne L6.
    destruct fid as [|[|[|[|[|[|fid]]]]]]; try lia; destruct d as [|[|[|d]]]; try lia; try reflexivity; contradiction Hne; reflexivity.
Qed.
(** A face on a side and the one opposite to it in the neighbour of the same level are the same face. *)
Lemma flip_same : forall a e p, In a (blocks t) -> E a e -> is_face e = true -> same_nb g a e -> In p (Fv_Spec.side D (face_id e)) -> face_of g Bz (face_id e / 2) (flip D (face_id e) p) /\ same_face g Bz a p (n_loc e) (flip D (face_id e) p).
Proof using Vg W ML FT.
  intros a e p Ha He Hf [L (_ & _ & N3)] Hp. pose proof (dim13 g Vg) as D13. destruct (face_entry a e Ha He Hf) as (Lf & Ho & _). pose proof (proj1 (in_side D (face_id e) p ltac:(lia)) Hp) as Hp'. split.
  - destruct (opp_div (face_id e) ltac:(lia)) as [O1 O2]. rewrite <- O1. apply side_face_of; [apply O2, Lf|]. rewrite side_flip by lia. apply in_map. exact Hp.
  - intros d Hd. destruct (N3 d Hd) as (s & S1 & S2). exists (s * cells_in Bz d). split; [apply shift_mul, S1|]. unfold place. rewrite S2, index_flip by lia. rewrite Ho by lia. specialize (Hp' d ltac:(lia)). destruct (D_facts d ltac:(lia)) as (A1 & A2 & A3 & A4 & _).
    destruct (Nat.eqb d (face_id e / 2)); [|ring]. rewrite Hp'. destruct (outer (face_id e)); rewrite ?A1, ?A2, ?A4; ring.
Qed.
(** The faces of a finer neighbour that lie on a face of the part next to it. *)
Lemma nat_sel : forall e d, (n_f1 e = 0 \/ n_f1 e = 1) -> (n_f2 e = 0 \/ n_f2 e = 1) -> sel (face_id e) (Z.to_nat (n_f1 e)) (Z.to_nat (n_f2 e)) d = Z.to_nat (match d with 0%nat => n_f1 e | 1%nat => if Nat.ltb (face_id e) 2 then n_f1 e else n_f2 e | _ => n_f2 e end).
Proof using . intros e d _ _. destruct d as [|[|d]]; cbn [sel]; [reflexivity|destruct (Nat.ltb (face_id e) 2); reflexivity|reflexivity]. Qed.
Lemma fine_on : forall a e p q, In a (blocks t) -> E a e -> is_face e = true -> ml = true -> finer_nb g a e -> (n_f1 e = 0 \/ n_f1 e = 1) -> (n_f2 e = 0 \/ n_f2 e = 1) -> In p (slots D (face_id e) (Z.to_nat (n_f1 e)) (Z.to_nat (n_f2 e))) ->
  (In q (fine_faces D D (face_id e) (Z.to_nat (n_f1 e)) (Z.to_nat (n_f2 e)) p) <-> face_of g Bz (face_id e / 2) q /\ on_face g Bz (face_id e / 2) a p (n_loc e) q).
Proof using Vg W ML FT.
  intros a e p q Ha He Hf Hm (L & F01 & m & (Lm & _ & N3) & _ & Hc) HF1 HF2 Hp. pose proof (dim13 g Vg) as D13. destruct (face_entry a e Ha He Hf) as (Lf & Ho & Hs). pose proof (proj1 (in_slots D (face_id e) _ _ p ltac:(lia)) Hp) as Hp'. clear Hp.
  rewrite in_fine by lia. rewrite face_of_D. apply (in_blocks g t a W) in Ha as [Ca (za & Ka)]. destruct (leaf_level g t a za W Ca Ka) as [Da Ra].
  pose proof (div2_lt dim _ Lf) as Ld.
  assert (Key : forall d, (d < 3)%nat -> (if Nat.eqb d (face_id e / 2) then index q d = (if outer (face_id e) then lo_ D d else hi_ D d + 1)
      else if Z.ltb 1 (nn D d) then (let y := lo_ D d + 2 * (index p d - fst (Fv_Model.half (lo_ D d) (hi_ D d) (nn D d) (sel (face_id e) (Z.to_nat (n_f1 e)) (Z.to_nat (n_f2 e)) d))) in y <= index q d <= y + 1) else index q d = lo_ D d) <->
      (lo_ D d <= index q d <= hi_ D d + (if Nat.eqb d (face_id e / 2) then 1 else 0)) /\ ((d < dim)%nat -> exists s, period_shift g d (domain_cells g Bz (level (n_loc e)) d) s /\
        (if Nat.eqb d (face_id e / 2) then place g Bz (n_loc e) q d = 2 * place g Bz a p d + s else 2 * place g Bz a p d + s <= place g Bz (n_loc e) q d <= 2 * place g Bz a p d + 1 + s))).
  { intros d Hd. specialize (Hp' d Hd). rewrite (D_active d Hd). destruct (D_facts d Hd) as (A1 & A2 & A3 & A4 & A5 & A6). rewrite A3, ?A1, ?A2, A4 in *. set (n := cells_in Bz d) in *. set (f := first Bz dim d) in *. destruct (Nat.ltb_spec d dim) as [Ldd|Ldd].
    - destruct (N3 d Ldd) as (s & S1 & S2). specialize (Hc d Hd). rewrite S2 in Hc. unfold bitf in Hc. change (ox e d) with (off e d) in Hc. rewrite (Ho d Hd) in Hc. unfold place, domain_cells. fold n f. rewrite L, Hc. specialize (A5 Ldd).
      assert (Ep : 2 ^ Z.of_nat (S (level a) - groot g) = 2 * 2 ^ Z.of_nat (level a - groot g)) by (rewrite Nat.sub_succ_l by exact Ra; rewrite Nat2Z.inj_succ, Z.pow_succ_r by lia; reflexivity). rewrite Ep.
      set (M := gnrb g d * 2 ^ Z.of_nat (level a - groot g)) in *. replace (gnrb g d * (2 * 2 ^ Z.of_nat (level a - groot g)) * n) with (M * (2 * n)) by (unfold M; ring).
      assert (HM : 1 <= M). { unfold M. destruct Vg as (_ & V2 & _). destruct (V2 d Hd) as [V3 _]. assert (0 < 2 ^ Z.of_nat (level a - groot g)) by (apply Z.pow_pos_nonneg; lia). nia. }
      assert (HMn : n <= M * n) by nia. pose proof (shift_mul _ _ _ _ (2 * n) S1) as S1'. pose proof (shift_val _ _ _ _ S1') as V1.
      destruct (Nat.eqb_spec d (face_id e / 2)) as [Ed|Ed].
      + destruct (outer (face_id e)) eqn:Eo; cbn [Z.eqb Pos.eqb] in Hc |- *.
        * rewrite Hp'. split.
          { intros ->. split; [lia|]. intros _. exists (s * (2 * n)). split; [exact S1'|]. ring. }
          { intros [R1 R2]. destruct (R2 Ldd) as (s' & S3 & S4). pose proof (shift_val _ _ _ _ S3) as V2. assert (s' = s * (2 * n)) by (clear -V1 V2 S4 R1 HMn A5; replace ((2 * (coord d a + 1 + s) + 0) * n) with (2 * (coord d a * n) + 2 * n + s * (2 * n)) in S4 by ring; lia). subst s'. lia. }
        * rewrite Hp'. split.
          { intros ->. split; [lia|]. intros _. exists (s * (2 * n)). split; [exact S1'|]. ring. }
          { intros [R1 R2]. destruct (R2 Ldd) as (s' & S3 & S4). pose proof (shift_val _ _ _ _ S3) as V2. assert (s' = s * (2 * n)) by (clear -V1 V2 S4 R1 HMn A5; replace ((2 * (coord d a + -1 + s) + 1) * n) with (2 * (coord d a * n) - n + s * (2 * n)) in S4 by ring; lia). subst s'. lia. }
      + rewrite nat_sel in * by assumption. rewrite <- Hs in * by assumption. destruct (multi_facts g Bz ml D13 FT Hm d Ldd) as (h & _ & Eh & Eh2 & _). fold n in Eh, Eh2. cbn [Z.eqb Pos.eqb] in Hc |- *. unfold Fv_Model.half in *. rewrite Eh2 in *.
        assert (Efs : fsel e d = 0 \/ fsel e d = 1) by apply F01.
        destruct Efs as [Efs|Efs]; rewrite Efs in *; change (Z.to_nat 0) with 0%nat in *; change (Z.to_nat 1) with 1%nat in *; cbn [Nat.eqb fst snd] in *.
        * split.
          { intros R. split; [lia|]. intros _. exists (s * (2 * n)). split; [exact S1'|]. replace ((2 * (coord d a + 0 + s) + 0) * n) with (2 * (coord d a * n) + s * (2 * n)) by ring. lia. }
          { intros [R1 R2]. destruct (R2 Ldd) as (s' & S3 & S4). pose proof (shift_val _ _ _ _ S3) as V2. replace ((2 * (coord d a + 0 + s) + 0) * n) with (2 * (coord d a * n) + s * (2 * n)) in S4 by ring.
            assert (s' = s * (2 * n)) by (clear -V1 V2 S4 R1 HMn A5 Hp' Eh; lia). subst s'. lia. }
        * split.
          { intros R. split; [lia|]. intros _. exists (s * (2 * n)). split; [exact S1'|]. replace ((2 * (coord d a + 0 + s) + 1) * n) with (2 * (coord d a * n) + n + s * (2 * n)) by ring. lia. }
          { intros [R1 R2]. destruct (R2 Ldd) as (s' & S3 & S4). pose proof (shift_val _ _ _ _ S3) as V2. replace ((2 * (coord d a + 0 + s) + 1) * n) with (2 * (coord d a * n) + n + s * (2 * n)) in S4 by ring.
            assert (s' = s * (2 * n)) by (clear -V1 V2 S4 R1 HMn A5 Hp' Eh; lia). subst s'. lia. }
    - destruct (Nat.eqb_spec d (face_id e / 2)) as [Ed|Ed]; [lia|]. rewrite (A6 Ldd). split; [intros ->; split; [lia|intros; lia]|intros [R1 _]; lia]. }
  split.
  - intros H. split; intros d Hd; [apply (Key d Hd), H, Hd|]. apply (Key d ltac:(lia)); [apply H; lia|exact Hd].
  - intros [H1 H2] d Hd. apply (Key d Hd). split; [apply H1, Hd|intros Hd2; apply H2, Hd2].
Qed.
Lemma slot_face_of : forall fid f1 f2 p, (fid < 2 * dim)%nat -> ml = true -> (f1 = 0 \/ f1 = 1)%nat -> (f2 = 0 \/ f2 = 1)%nat -> In p (slots D fid f1 f2) -> face_of g Bz (fid / 2) p.
Proof using Vg FT.
  intros fid f1 f2 p Hf Hm H1 H2 Hp. pose proof (dim13 g Vg) as D13. pose proof (proj1 (in_slots D fid f1 f2 p ltac:(lia)) Hp) as Hq. apply face_of_D. intros d Hd. specialize (Hq d Hd). destruct (D_facts d Hd) as (A1 & A2 & A3 & A4 & A5 & A6). rewrite A3, A1, A2, A4 in *.
  assert (Hs : (sel fid f1 f2 d = 0 \/ sel fid f1 f2 d = 1)%nat) by (destruct d as [|[|d]]; cbn [sel]; [assumption|destruct (Nat.ltb fid 2); assumption|assumption]).
  destruct (Nat.eqb_spec d (fid / 2)) as [Ed|Ed].
  - pose proof (div2_lt dim fid Hf). specialize (A5 ltac:(lia)). destruct (outer fid); lia.
  - destruct (Nat.lt_ge_cases d dim) as [L|L].
    + destruct (multi_facts g Bz ml D13 FT Hm d L) as (h & _ & Eh & Eh2 & _). unfold Fv_Model.half in Hq. rewrite Eh2 in Hq. destruct Hs as [Hs|Hs]; rewrite Hs in Hq; cbn [Nat.eqb fst snd] in Hq; specialize (A5 L); lia.
    + specialize (A6 L). rewrite A6 in *. unfold Fv_Model.half in Hq. change (1 / 2) with 0 in Hq. destruct (Nat.eqb (sel fid f1 f2 d) 0); cbn [fst snd] in Hq; lia.
Qed.
Lemma finer_area : forall G a e p, geometry_ok g Bz (blocks t) G -> In a (blocks t) -> In (n_loc e) (blocks t) -> E a e -> is_face e = true -> ml = true -> finer_nb g a e -> (n_f1 e = 0 \/ n_f1 e = 1) -> (n_f2 e = 0 \/ n_f2 e = 1) -> In p (slots D (face_id e) (Z.to_nat (n_f1 e)) (Z.to_nat (n_f2 e))) ->
  Fv_Spec.at_ (areas (face_id e) (G a)) p = area_of (G (n_loc e)) (face_id e) (fine_faces D D (face_id e) (Z.to_nat (n_f1 e)) (Z.to_nat (n_f2 e)) p) /\ Fv_Spec.at_ (areas (face_id e) (G a)) p <> 0%R.
Proof using Vg W ML FT.
  intros G a e p GO Ha Hb He Hf Hm Hfn HF1 HF2 Hp. pose proof (dim13 g Vg) as D13. destruct (face_entry a e Ha He Hf) as (Lf & _ & _). rewrite <- area_areas by lia. rewrite area_at.
  destruct (fine_nodup D (face_id e) (Z.to_nat (n_f1 e)) (Z.to_nat (n_f2 e)) p ltac:(lia)) as [ND NE].
  destruct (go_parts _ _ _ _ GO a (n_loc e) (face_id e / 2)%nat p (fine_faces D D (face_id e) (Z.to_nat (n_f1 e)) (Z.to_nat (n_f2 e)) p) Ha Hb) as [R1 R2]; try assumption.
  - apply Hfn.
  - apply div2_lt, Lf.
  - apply (slot_face_of _ (Z.to_nat (n_f1 e)) (Z.to_nat (n_f2 e))); try assumption; lia.
  - intros q. apply fine_on; assumption.
  - split; [|exact R2]. rewrite R1. apply Fv_Proofs2.sum_ext. intros q _. apply area_areas. lia.
Qed.
End N.
