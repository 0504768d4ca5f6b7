(** Fields that agree (C74) are consistent; ghost cells are free of magnetic charge. *)
From Coq Require Import List Arith NArith ZArith Bool Lia Reals Lra.
From Verif Require Import Fv_Model.
From Verif Require Fv_Spec Ref_Model Ref_Spec Ref_Proofs.
From Verif Require Import Loc LB_Spec Tags_Model Tags_Spec Tags_Proofs AMR_Model AMR_Spec AMR_Proofs AMR_Proofs2 Tree_Model Tree_Spec Tree_Proofs1 Tree_Proofs2 Tree_Proofs3 Tree_Proofs4 Tree_Proofs5 Tree_Proofs6 Tree_Proofs7 Tree_Proofs8 Tree_Restart Tree_Proofs9 Tree_Proofs10 Nbr_Model Nbr_Spec Nbr_Proofs Nbr_Proofs2 Nbr_Proofs3 Buf_Model Gho_Model Gho_Spec Gho_Proofs Gho_Proofs2 Gho_Proofs3 Gho_Proofs4 Gho_Proofs5 Con_Model Con_Spec Con_Proofs Emf_Model Emf_Spec Mag_Spec Fgh_Model Fgh_Spec Fgh_Proofs Fgh_Proofs2 Fgh_Proofs3 Fgh_Proofs4 Fgh_Model2 Fgh_Spec2 Fgh_Proofs6.
Import ListNotations.
Local Open Scope Z_scope.

(** The fine faces of two coarse faces, displaced. *)
Definition tr (B : bsz) (y y' : cell) (q : fpos) : fpos := let '(k, j, i) := q in
  (k + (if Z.ltb 1 (nx3 (block_dims B)) then 2 * (y' 2%nat - y 2%nat) else 0), j + (if Z.ltb 1 (nx2 (block_dims B)) then 2 * (y' 1%nat - y 1%nat) else 0), i + 2 * (y' 0%nat - y 0%nat)).
Lemma map_combine : forall fk fj fi K J I, map (fun q : fpos => let '(k, j, i) := q in (fk k, fj j, fi i)) (Ref_Spec.combine3 K J I) = Ref_Spec.combine3 (map fk K) (map fj J) (map fi I).
Proof.
  intros fk fj fi K J I. unfold Ref_Spec.combine3. induction K as [|k K IH]; [reflexivity|]. cbn [flat_map map]. rewrite map_app. f_equal; [|exact IH]. clear IH. induction J as [|j J IHJ]; [reflexivity|]. cbn [flat_map map]. rewrite map_app. f_equal; [|exact IHJ]. rewrite !map_map. reflexivity.
Qed.
Lemma map_two : forall s cs x x', map (fun z => z + 2 * (x' - x)) (Ref_Spec.two s cs x) = Ref_Spec.two s cs x'.
Proof. intros. unfold Ref_Spec.two. cbn [map]. f_equal; [ring|]. f_equal. ring. Qed.
Lemma map_duo : forall n s cs x x', map (fun z => z + (if Z.ltb 1 n then 2 * (x' - x) else 0)) (Ref_Spec.duo n s cs x) = Ref_Spec.duo n s cs x'.
Proof. intros. unfold Ref_Spec.duo. destruct (Z.ltb 1 n); [apply map_two|]. cbn [map]. rewrite Z.add_0_r. reflexivity. Qed.
Lemma sum_map_ext : forall (T : Type) (f h : T -> R) l, (forall x, In x l -> f x = h x) -> Fv_Spec.sum (map f l) = Fv_Spec.sum (map h l).
Proof. intros T f h l H. f_equal. apply map_ext_in, H. Qed.

Section N.
Variable g : grid.
Hypothesis Vg : valid_grid g.
Variable ml : bool.
Local Notation dim := (gdim g).
Variable Bz : bsz.
Hypothesis FT : fitting g Bz ml.
Local Notation D13 := (dim13 g Vg).
Lemma fine_shift : forall c y y', (c < dim)%nat -> fine_faces Bz c y' = map (tr Bz y y') (fine_faces Bz c y).
Proof using Vg FT.
  intros c y y' Hc. pose proof D13 as D. destruct (dims_nx g Vg ml Bz FT) as (N1 & N2 & N3). unfold fine_faces, fpos_of. destruct c as [|[|[|c]]]; [| | |lia]; cbn [Ref_Spec.faces1 Ref_Spec.faces2 Ref_Spec.faces3]; unfold tr;
    (rewrite (map_combine (fun z => z + (if Z.ltb 1 (nx3 (block_dims Bz)) then 2 * (y' 2%nat - y 2%nat) else 0)) (fun z => z + (if Z.ltb 1 (nx2 (block_dims Bz)) then 2 * (y' 1%nat - y 1%nat) else 0)) (fun z => z + 2 * (y' 0%nat - y 0%nat)))); rewrite ?map_two, ?map_duo; f_equal; cbn [map]; f_equal.
  - ring.
  - rewrite N2. pose proof (N1 1%nat Hc) as P. apply Z.ltb_lt in P. rewrite P. ring.
  - rewrite N3. pose proof (N1 2%nat Hc) as P. apply Z.ltb_lt in P. rewrite P. ring.
Qed.
Lemma tr_index : forall y y' q d, (d < 3)%nat -> index (tr Bz y y' q) d = index q d + (if Nat.ltb d dim then 2 * (y' d - y d) else 0).
Proof using Vg FT.
  intros y y' [[k j] i] d Hd. pose proof D13 as D. destruct (dims_nx g Vg ml Bz FT) as (N1 & N2 & N3).
  assert (L : forall d, (d < 3)%nat -> Z.ltb 1 (cells_in Bz d) = Nat.ltb d dim). { intros d0 Hd0. destruct (Nat.ltb_spec d0 dim) as [Ha|Hi]; [apply Z.ltb_lt, N1, Ha|]. destruct (inactive_facts g Bz ml D13 FT d0 Hi Hd0) as (_ & _ & _ & _ & _ & _ & _ & _ & ->). reflexivity. }
  unfold tr. rewrite N2, N3, !L by lia. destruct d as [|[|[|d]]]; [|reflexivity|reflexivity|lia]. replace (Nat.ltb 0 dim) with true by (symmetry; apply Nat.ltb_lt; lia). reflexivity.
Qed.
Lemma own_face_of : forall c y, (c < dim)%nat -> own_face Bz dim false c y -> face_of g Bz c (fpos_of y).
Proof using . intros c y Hc O d Hd. rewrite index_of by exact Hd. specialize (O d Hd). replace (Nat.ltb c dim) with true in O by (symmetry; apply Nat.ltb_lt, Hc). rewrite andb_true_r in O. exact O. Qed.
Lemma place_sym : forall lev a (ha : bool) x b (hb : bool) y, same_place g Bz lev a ha x b hb y -> same_place g Bz lev b hb y a ha x.
Proof using . intros lev a ha x b hb y P d Hd. destruct (P d Hd) as (s & S1 & S2). exists (- s). split; [|lia]. unfold period_shift in *. destruct S1 as [->|(Q1 & Q2 & [->| ->])]; [left; reflexivity|right|right]; (split; [exact Q1|split; [exact Q2|lia]]). Qed.

Variable t : tree.
Hypothesis W : wf g t.
Hypothesis ML : declared g ml (blocks t).
Variable G : loc -> geom.
Hypothesis GO : geometry_ok g Bz (blocks t) G.
Hypothesis PA : areas_positive g Bz (blocks t) G.
Variable bv : loc -> vec.
Hypothesis FA : fields_agree g Bz (blocks t) G bv.
Local Notation V := (fun b => field4 (bv b)).
Local Notation R := (fun b => RestrictField Bz (G b)).
Lemma cells_double : forall lev d, (groot g <= lev)%nat -> domain_cells g Bz (S lev) d = 2 * domain_cells g Bz lev d.
Proof using . intros lev d H. unfold domain_cells. replace (S lev - groot g)%nat with (S (lev - groot g)) by lia. rewrite Nat2Z.inj_succ, Z.pow_succ_r by lia. ring. Qed.
Lemma cells_least : forall lev d, (d < dim)%nat -> (groot g <= lev)%nat -> cells_in Bz d <= domain_cells g Bz lev d.
Proof using Vg FT.
  intros lev d Hd H. unfold domain_cells. pose proof D13 as D. assert (P1 : 1 <= gnrb g d) by (apply (proj1 (proj2 Vg) d); lia). assert (P2 : 0 < 2 ^ Z.of_nat (lev - groot g)) by (apply Z.pow_pos_nonneg; lia). destruct (active_facts g Bz ml D13 FT d Hd) as (_ & _ & _ & _ & _ & _ & _ & _ & N1 & N2). assert (P3 : 1 <= gnrb g d * 2 ^ Z.of_nat (lev - groot g)) by (clear -P1 P2; nia). set (w := gnrb g d * 2 ^ Z.of_nat (lev - groot g)) in *. clearbody w. clear -P3 N1 N2. nia.
Qed.
(** Two blocks of one level. *)
Lemma agree_same : forall lev b y b' y' c, In b (blocks t) -> In b' (blocks t) -> level b = lev -> level b' = lev -> (c < dim)%nat -> own_face Bz dim false c y -> own_face Bz dim false c y' ->
  same_place g Bz lev b false y b' false y' -> value (V b) (Z.of_nat c) y = value (V b') (Z.of_nat c) y'.
Proof using Vg FT FA.
  intros lev b y b' y' c Hb Hb' L L' Hc O O' P. pose proof D13 as D. rewrite !value_at_, !field4_at by lia. apply (proj1 FA b b' c); try assumption; [congruence|apply own_face_of; assumption|apply own_face_of; assumption|].
  intros d Hd. destruct (P d ltac:(lia)) as (s & S1 & S2). exists s. rewrite L. split; [exact S1|]. unfold place. rewrite !index_of by lia. destruct (active_facts g Bz ml D13 FT d Hd) as (_ & _ & _ & _ & _ & _ & E3 & E4 & _). rewrite !E4 in S2. exact S2.
Qed.
(** The coarse faces of two finer blocks. *)
Lemma agree_fine : forall lev b y b' y' c, In b (blocks t) -> In b' (blocks t) -> level b = S lev -> level b' = S lev -> (groot g <= lev)%nat -> (c < dim)%nat -> own_face Bz dim true c y -> own_face Bz dim true c y' ->
  same_place g Bz lev b true y b' true y' -> value (R b (V b)) (Z.of_nat c) y = value (R b' (V b')) (Z.of_nat c) y'.
Proof using Vg FT W ML GO PA FA.
  intros lev b y b' y' c Hb Hb' L L' Hr Hc O O' P. pose proof D13 as D. pose proof (finer_ml g t W ml ML b lev Hb L Hr) as Hm.
  pose proof (restricted g Vg ml Hm Bz FT (G b) (V b) c y (fun dir p => PA b dir p Hb) Hc O) as E1. pose proof (restricted g Vg ml Hm Bz FT (G b') (V b') c y' (fun dir p => PA b' dir p Hb') Hc O') as E2.
  assert (SF : forall q, In q (fine_faces Bz c y) -> face_of g Bz c q /\ face_of g Bz c (tr Bz y y' q) /\ same_face g Bz b q b' (tr Bz y y' q)).
  { intros q Hq. split; [apply (fine_face_of g Vg ml Hm Bz FT c y q Hc O Hq)|]. split; [apply (fine_face_of g Vg ml Hm Bz FT c y' _ Hc O'); rewrite (fine_shift c y y' Hc); apply in_map, Hq|].
    intros d Hd. destruct (P d ltac:(lia)) as (s & S1 & S2). exists (2 * s). split.
    - rewrite L, cells_double by exact Hr. fold (domain_cells g Bz lev d) in S1. unfold period_shift in *. destruct S1 as [->|(Q1 & Q2 & [->| ->])]; [left; reflexivity|right|right]; (split; [exact Q1|split; [exact Q2|lia]]).
    - unfold place. rewrite tr_index by lia. replace (Nat.ltb d dim) with true by (symmetry; apply Nat.ltb_lt, Hd). destruct (own_half g Vg ml Hm Bz FT c y d O Hd ltac:(lia)) as (h & H1 & H2 & H3 & _). rewrite H2, H3 in S2. rewrite H1, H3. clear -S2. nia. }
  rewrite (fine_shift c y y' Hc), !map_map in E2.
  assert (EA : Fv_Spec.sum (map (fun q => area (G b') c (tr Bz y y' q)) (fine_faces Bz c y)) = Fv_Spec.sum (map (area (G b) c) (fine_faces Bz c y))).
  { apply sum_map_ext. intros q Hq. destruct (SF q Hq) as (S1 & S2 & S3). symmetry. apply (go_same _ _ _ _ GO b b' c q); try assumption. congruence. }
  assert (EB : Fv_Spec.sum (map (fun q => area (G b') c (tr Bz y y' q) * Fv_Spec.at_ (V b' (Z.of_nat c)) (tr Bz y y' q))%R (fine_faces Bz c y)) = Fv_Spec.sum (map (fun q => area (G b) c q * Fv_Spec.at_ (V b (Z.of_nat c)) q)%R (fine_faces Bz c y))).
  { apply sum_map_ext. intros q Hq. destruct (SF q Hq) as (S1 & S2 & S3). rewrite !field4_at by lia. f_equal; symmetry; [apply (go_same _ _ _ _ GO b b' c q)|apply (proj1 FA b b' c q)]; try assumption; congruence. }
  rewrite EA, EB in E2. rewrite <- E1 in E2. apply Rmult_eq_reg_r in E2; [symmetry; exact E2|].
  apply Rgt_not_eq. assert (SP : forall l, (forall q, In q l -> (0 < area (G b) c q)%R) -> l <> [] -> (0 < Fv_Spec.sum (map (area (G b) c) l))%R).
  { clear. induction l as [|q l IH]; intros H N; [contradiction|]. cbn [map]. rewrite sum_cons'. pose proof (H q (or_introl eq_refl)). destruct l as [|q' l]; [cbn [map]; rewrite sum_nil'; lra|]. pose proof (IH (fun z Hz => H z (or_intror Hz)) ltac:(discriminate)). lra. }
  apply SP; [|apply (fine_some g Vg ml Bz FT c y Hc)]. intros q Hq. apply (PA b); [exact Hb|exact Hc|]. apply (fine_face_of g Vg ml Hm Bz FT c y q Hc O Hq).
Qed.
(** A face and the finer faces of another block on it. *)
Lemma parts_of : forall lev b y b' y' c, In b (blocks t) -> level b = S lev -> level b' = lev -> (groot g <= lev)%nat -> (c < dim)%nat -> ml = true -> own_face Bz dim true c y ->
  same_place g Bz lev b true y b' false y' -> face_parts g Bz b' b c (fpos_of y') (fine_faces Bz c y).
Proof using Vg FT.
  intros lev b y b' y' c Hb L L' Hr Hc Hm O P. pose proof D13 as D. split; [apply (fine_some g Vg ml Bz FT c y Hc)|]. split; [apply nodup_faces|]. intros q.
  assert (Q : forall d, (d < dim)%nat -> exists s0 h, cells_in Bz d = 2 * h /\ 1 <= h /\ first Bz dim d = ng Bz /\ ng Bz <= y d <= ng Bz + h /\ period_shift g d (domain_cells g Bz (S lev) d) (2 * s0) /\ 2 * place g Bz b' (fpos_of y') d = coord d b * cells_in Bz d + (base Bz y d - ng Bz) + 2 * s0).
  { intros d Hd. destruct (P d ltac:(lia)) as (s & S1 & S2). destruct (own_half g Vg ml Hm Bz FT c y d O Hd ltac:(lia)) as (h & H1 & H2 & H3 & H4). exists s, h. split; [exact H1|]. destruct (active_facts g Bz ml D13 FT d Hd) as (_ & _ & _ & _ & _ & _ & E3 & E4 & N1 & N2). split; [lia|]. split; [exact H3|]. split; [destruct (Nat.eqb d c && Nat.ltb c dim); lia|]. split.
    - rewrite cells_double by exact Hr. fold (domain_cells g Bz lev d) in S1. unfold period_shift in *. destruct S1 as [->|(Q1 & Q2 & [->| ->])]; [left; reflexivity|right|right]; (split; [exact Q1|split; [exact Q2|lia]]).
    - unfold place, base. rewrite index_of by lia. rewrite E4, H2, E3 in S2. rewrite H3, H1 in *. clear -S2. nia. }
  split.
  - intros Hq. split; [apply (fine_face_of g Vg ml Hm Bz FT c y q Hc O Hq)|]. intros d Hd. destruct (Q d Hd) as (s0 & h & H1 & H0 & H2 & H3 & H4 & H5). exists (- (2 * s0)). rewrite L. split.
    + unfold period_shift in *. destruct H4 as [E0|(Q1 & Q2 & [E0|E0])]; [left; lia|right|right]; (split; [exact Q1|split; [exact Q2|lia]]).
    + apply (proj1 (fine_in g Vg ml Bz FT c y q Hc)) with (d := d) in Hq; [|lia]. unfold digit in Hq. replace (Nat.ltb d dim) with true in Hq by (symmetry; apply Nat.ltb_lt, Hd). rewrite H5. unfold place. rewrite H2. destruct (Nat.eqb d c); lia.
  - intros [F On]. apply (fine_in g Vg ml Bz FT c y q Hc). intros d Hd. unfold digit. destruct (Nat.ltb_spec d dim) as [Ha|Hi].
    + destruct (Q d Ha) as (s0 & h & H1 & H0 & H2 & H3 & H4 & H5). destruct (On d Ha) as (s & S1 & S2). specialize (F d Hd). destruct (active_facts g Bz ml D13 FT d Ha) as (_ & _ & _ & _ & _ & _ & E3 & E4 & N1 & N2). rewrite E3, E4 in F. rewrite H5 in S2. unfold place in S2. rewrite H2 in S2. rewrite L in S1.
      pose proof (cells_least lev d Ha Hr) as CL. rewrite cells_double in * by exact Hr. unfold base in *. set (w := domain_cells g Bz lev d) in *. clearbody w.
      assert (Z0 : 2 * s0 + s = 0). { assert (M : 2 * s0 + s = 0 \/ 2 * s0 + s <= - 2 * w \/ 2 * w <= 2 * s0 + s) by (unfold period_shift in *; destruct S1 as [->|(_ & _ & [->| ->])], H4 as [E0|(_ & _ & [E0|E0])]; rewrite ?E0; lia). destruct (Nat.eqb d c); lia. }
      destruct (Nat.eqb d c); lia.
    + specialize (F d Hd). destruct (inactive_facts g Bz ml D13 FT d Hi Hd) as (_ & _ & _ & _ & _ & _ & E3 & E4 & _). rewrite E3, E4 in F. destruct (Nat.eqb_spec d c); lia.
Qed.
Lemma agree_parts : forall lev b y b' y' c, In b (blocks t) -> In b' (blocks t) -> level b = S lev -> level b' = lev -> (groot g <= lev)%nat -> (c < dim)%nat -> own_face Bz dim true c y -> own_face Bz dim false c y' ->
  same_place g Bz lev b true y b' false y' -> value (R b (V b)) (Z.of_nat c) y = value (V b') (Z.of_nat c) y'.
Proof using Vg FT W ML GO PA FA.
  intros lev b y b' y' c Hb Hb' L L' Hr Hc O O' P. pose proof D13 as D. pose proof (finer_ml g t W ml ML b lev Hb L Hr) as Hm.
  pose proof (restricted g Vg ml Hm Bz FT (G b) (V b) c y (fun dir p => PA b dir p Hb) Hc O) as E1. pose proof (parts_of lev b y b' y' c Hb L L' Hr Hc Hm O P) as FP. pose proof (own_face_of c y' Hc O') as F'.
  pose proof (proj2 FA b' b c (fpos_of y') _ Hb' Hb ltac:(congruence) Hc F' FP) as E2. destruct FP as (NE & ND & FP). destruct (go_parts _ _ _ _ GO b' b c (fpos_of y') _ Hb' Hb ltac:(congruence) Hc F' ND NE FP) as [E3 E4].
  rewrite (sum_map_ext _ (fun q => area (G b) c q * Fv_Spec.at_ (field4 (bv b) (Z.of_nat c)) q)%R (fun q => area (G b) c q * normal (bv b) c q)%R) in E1 by (intros q _; cbv beta; rewrite field4_at by lia; reflexivity). rewrite <- E2, <- E3 in E1. rewrite (value_at_ (V b')), field4_at by lia. apply (Rmult_eq_reg_r (area (G b') c (fpos_of y'))); [|exact E4]. rewrite E1. apply Rmult_comm.
Qed.
Lemma agree_consistent : consistent g Bz (blocks t) V (fun b v => RestrictField Bz (G b) v).
Proof using Vg FT W ML GO PA FA.
  intros lev b h y b' h' y' c Hb Hb' L L' Hr Hc O O' P. unfold reading. destruct h, h'.
  - apply (agree_fine lev b y b' y' c Hb Hb' L L' Hr Hc O O' P).
  - apply (agree_parts lev b y b' y' c Hb Hb' L L' Hr Hc O O' P).
  - symmetry. apply (agree_parts lev b' y' b y c Hb' Hb L' L Hr Hc O' O (place_sym _ _ _ _ _ _ _ P)).
  - apply (agree_same lev b y b' y' c Hb Hb' L L' Hc O O' P).
Qed.
End N.
