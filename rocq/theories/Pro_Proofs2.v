(** The coarse cells around a ghost zone: where they lie, and which step of the code fills them. *)
From Coq Require Import List Arith NArith ZArith Bool Lia Permutation.
From Verif Require Import Loc LB_Spec Tags_Model Tags_Spec Tags_Proofs AMR_Model AMR_Spec AMR_Proofs AMR_Proofs2 Tree_Model Tree_Spec Tree_Proofs1 Tree_Proofs2 Tree_Proofs3 Tree_Proofs4 Tree_Proofs5 Tree_Proofs6 Tree_Proofs7 Tree_Proofs8 Tree_Restart Tree_Proofs9 Tree_Proofs10 Nbr_Model Nbr_Spec Nbr_Proofs Nbr_Proofs2 Nbr_Proofs3 Buf_Model Gho_Model Gho_Spec Gho_Proofs Gho_Proofs2 Gho_Proofs3 Gho_Proofs4 Gho_Proofs5 Pro_Model Pro_Spec Pro_Proofs.
Import ListNotations.
Local Open Scope Z_scope.

Lemma in_ints : forall r x, In x (ints r) <-> fst r <= x <= snd r.
Proof. intros [u v] x. unfold ints. rewrite in_map_iff. cbn [fst snd]. split; [intros (n & <- & H); apply in_seq in H; lia|intros H; exists (Z.to_nat (x - u)); split; [lia|apply in_seq; lia]]. Qed.

Section N.
Variable g : grid.
Hypothesis Vg : valid_grid g.
Hypothesis NP : no_pole g.
Hypothesis NS : no_shear g.
Hypothesis PL : plain g.
Variable t : tree.
Hypothesis W : wf g t.
Hypothesis Bt : B g t.
Variable ml : bool.
Hypothesis ML : declared g ml (blocks t).
Local Notation dim := (gdim g).
Local Notation E := (E g t ml).
Variable Bz : bsz.
Hypothesis FT : fitting g Bz ml.
Hypothesis NG : ng Bz = 2.
Local Notation D13 := (dim13 g Vg).
Variable a : loc.
Hypothesis Ha : In a (blocks t).
Hypothesis Hm : ml = true.
Local Notation bs := (blocks t).

(** nblevel of the neighbours. *)
Lemma nblevel_same : forall o, okdir dim o -> nblevel g t a o = Z.of_nat (level a) -> exists b, In b bs /\ neighbour_position g a (od o) b.
Proof using Vg NP NS W Bt Ha.
  intros [[o1 o2] o3] Ho H. pose proof Ha as Ha'. apply (in_blocks g t a W) in Ha' as [Ca (za & Hk)]. destruct (leaf_level g t a za W Ca Hk) as [Da Ra]. unfold nblevel in H.
  destruct (Z.eqb o1 0 && Z.eqb o2 0 && Z.eqb o3 0) eqn:E0. { exfalso. rewrite !andb_true_iff, !Z.eqb_eq in E0. destruct Ho as (_ & _ & _ & _ & _ & Hn). lia. }
  destruct (dir_offs3 g Vg o1 o2 o3 Ho) as (O1 & O2 & O3). destruct (FindNeighborLoc g a o1 o2 o3) as [m|] eqn:EL; [|unfold FindNeighbor in H; rewrite EL in H; lia].
  apply (fnl_nb g Vg NP NS) in EL; try assumption. assert (Lm : level m = level a) by apply EL.
  destruct (find_leaf g Vg NP t a za o1 o2 o3 m false W Bt Ca Hk EL) as (r & Er & [[-> Hn]|(Hgm & -> & (z' & Ez'))]); rewrite Er in H.
  - destruct (K t m) as [|zm|] eqn:Em; [contradiction Hn; reflexivity| |destruct (find_node t m Em) as (zz & ch & Eq); rewrite Eq in H; lia].
    exists m. split; [|apply (spec_pos g Vg t W a _ m Ha Ho); exact EL]. apply (in_blocks g t m W). split; [|exists zm; exact Em]. apply (dom_canon g Vg), (nb_dom g Vg a _ m Da Ra EL).
  - exfalso. rewrite (find_kind t _ _ Ez') in H. unfold anc in H. cbn [level] in H. lia.
Qed.
Lemma nblevel_leaf : forall o b, okdir dim o -> In b bs -> neighbour_position g a (od o) b -> nblevel g t a o = Z.of_nat (level a).
Proof using Vg NP NS W Bt Ha.
  intros [[o1 o2] o3] b Ho Hb NB. pose proof Ha as Ha'. apply (in_blocks g t a W) in Ha' as [Ca (za & Hk)]. pose proof (proj2 (spec_pos g Vg t W a _ b Ha Ho) NB) as Hnb. apply (in_blocks g t b W) in Hb as [Cb (zb & Kb)]. unfold nblevel.
  destruct (Z.eqb o1 0 && Z.eqb o2 0 && Z.eqb o3 0) eqn:E0; [reflexivity|].
  destruct (find_leaf g Vg NP t a za o1 o2 o3 b false W Bt Ca Hk Hnb) as (r & Er & [[-> Hn]|(Hgm & -> & (z' & Ez'))]); rewrite Er.
  - rewrite (find_kind t _ _ Kb). f_equal. apply NB.
  - exfalso. assert (Hn : K t b <> KNull) by congruence. apply (K_anc t 1 b) in Hn; try lia; congruence.
Qed.
Lemma nblevel_some : forall o m, okdir dim o -> neighbour_position g a (od o) m -> nblevel g t a o <> -1.
Proof using Vg NP NS W Bt Ha.
  intros [[o1 o2] o3] b Ho NB. pose proof Ha as Ha'. apply (in_blocks g t a W) in Ha' as [Ca (za & Hk)]. pose proof (proj2 (spec_pos g Vg t W a _ b Ha Ho) NB) as Hnb. unfold nblevel.
  destruct (Z.eqb o1 0 && Z.eqb o2 0 && Z.eqb o3 0) eqn:E0; [lia|].
  destruct (find_leaf g Vg NP t a za o1 o2 o3 b false W Bt Ca Hk Hnb) as (r & Er & _). rewrite Er. destruct (FindMeshBlock t r); lia.
Qed.
Lemma face_level : forall d (hi : bool), (d < dim)%nat -> ~ at_wall g a d hi -> nblevel g t a (face_dir d hi) <> -1.
Proof using Vg NP NS PL W Bt Ha.
  intros d hi Hd Nw. pose proof D13 as D. destruct (in_dom g t W a Ha) as [Da Ra]. set (o := if hi then 1 else -1). destruct (no_wall g Vg PL t W a Ha d o Hd) as (v & S1 & S2); [unfold o; destruct hi; [intros _; exact Nw|discriminate]|unfold o; destruct hi; [discriminate|intros _; exact Nw]|unfold o; destruct hi; auto|].
  set (c d' := if Nat.eqb d' d then coord d a + o + v else coord d' a). set (m := mkLoc (level a) (c 0%nat) (c 1%nat) (c 2%nat)).
  assert (Cm : forall d, (d < 3)%nat -> coord d m = c d) by (intros [|[|[|d']]] Hd'; [reflexivity|reflexivity|reflexivity|lia]).
  assert (Of : forall d', (d' < 3)%nat -> od (face_dir d hi) d' = if Nat.eqb d' d then o else 0). { intros [|[|[|d']]] Hd'; try lia; destruct d as [|[|[|d]]]; try lia; reflexivity. }
  apply (nblevel_some _ m).
  - assert (Oo : -1 <= o <= 1 /\ o <> 0) by (unfold o; destruct hi; lia). unfold face_dir. fold o. destruct d as [|[|[|d]]]; try lia; unfold okdir; repeat split; intros; lia.
  - split; [reflexivity|]. split.
    + apply (inr_dom g m); [exact Ra|]. intros d' Hd'. rewrite Cm by exact Hd'. change (level m) with (level a). pose proof (dom_inr g a d' Ra Da Hd') as I. unfold c. destruct (Nat.eqb_spec d' d) as [->|]; [|exact I]. unfold inr, nmax in *. replace (Nat.ltb d dim) with true by (symmetry; apply Nat.ltb_lt, Hd). exact S2.
    + intros d' Hd'. rewrite Cm, Of by lia. unfold c. destruct (Nat.eqb_spec d' d) as [->|]; [exists v; split; [exact S1|reflexivity]|]. exists 0. split; [left; reflexivity|ring].
Qed.

(** Two neighbours of [a], the first subdivided. *)
Lemma node_next : forall o1 o2 p q, (forall d, (d < dim)%nat -> o2 d - o1 d = -1 \/ o2 d - o1 d = 0 \/ o2 d - o1 d = 1) -> neighbour_position g a o1 p -> neighbour_position g a o2 q -> K t p = KNode -> K t q <> KNull.
Proof using Vg NP W Bt Ha.
  intros o1 o2 p q Ho (L1 & D1 & H1) (L2 & D2 & H2) Kp. pose proof D13 as D. destruct (in_dom g t W a Ha) as [Da Ra].
  apply (B_nb g NP t p (fun d => if Nat.ltb d dim then o2 d - o1 d else 0) q W Bt (dom_canon g Vg p D1) Kp ltac:(lia)).
  apply nbpos_nb; [exact Vg|exact D1|lia| |].
  - intros d Hd. unfold offs. destruct (Nat.ltb_spec d dim) as [Hdd|Hdd]; [|left; reflexivity]. specialize (Ho d Hdd). cbn [In]. lia.
  - split; [lia|]. split; [exact D2|]. intros d Hd. replace (Nat.ltb d dim) with true by (symmetry; apply Nat.ltb_lt, Hd). destruct (H1 d Hd) as (s1 & P1 & C1). destruct (H2 d Hd) as (s2 & P2 & C2). specialize (Ho d Hd). exists (s2 - s1). split; [|lia]. rewrite L1.
    pose proof (dom_inr g p d ltac:(lia) D1 ltac:(lia)) as I1. pose proof (dom_inr g q d ltac:(lia) D2 ltac:(lia)) as I2. unfold inr, nmax in *. replace (Nat.ltb d dim) with true in * by (symmetry; apply Nat.ltb_lt, Hd). rewrite L1 in *. rewrite L2 in *. set (w := gnrb g d * 2 ^ Z.of_nat (level a - groot g)) in *. clearbody w.
    destruct P1 as [->|(Q1 & Q2 & P1)], P2 as [->|(Q3 & Q4 & P2)].
    + left. reflexivity.
    + right. split; [exact Q3|]. split; [exact Q4|]. lia.
    + right. split; [exact Q1|]. split; [exact Q2|]. lia.
    + destruct (Z.eq_dec s1 s2) as [->|]; [left; ring|]. right. split; [exact Q1|]. split; [exact Q2|]. lia.
Qed.

Lemma half : forall d, (d < dim)%nat -> exists h, cells_in Bz d = 2 * h /\ cells_in Bz d / 2 = h /\ 2 <= h /\ cng Bz = 2.
Proof using Vg FT NG Hm. intros d Hd. destruct (multi_facts g Bz ml D13 FT Hm d Hd) as (h & k & G1 & G2 & G3 & G4 & G5 & G6). exists h. split; [exact G1|]. split; [exact G2|]. rewrite G4. lia. Qed.
Lemma cng2 : cng Bz = 2.
Proof using NG. unfold cng. rewrite NG. reflexivity. Qed.

(** The fine cell at the lower corner of a coarse one. *)
Definition finec (s : cell) : cell := fun d => if Nat.ltb d dim then 2 * (s d - 2) + 2 else s d.
Lemma finec_coarse : forall s d, (d < 3)%nat -> coarse_cell g Bz (finec s) d = s d.
Proof using NG. intros s d Hd. unfold coarse_cell, finec. rewrite NG. destruct (Nat.ltb d dim); [|reflexivity]. replace (2 * (s d - 2) + 2 - 2) with ((s d - 2) * 2) by ring. rewrite Z.div_mul by lia. ring. Qed.
Lemma finec_side : forall s d, (d < 3)%nat -> side Bz dim false (finec s) d = side Bz dim true s d.
Proof using Vg FT NG Hm.
  intros s d Hd. unfold side, finec. destruct (Nat.ltb_spec d dim) as [Hdd|Hdd].
  - destruct (half d Hdd) as (h & G1 & G2 & G3 & _). destruct (active_facts g Bz ml D13 FT d Hdd) as (_ & _ & _ & _ & _ & _ & E3 & E4 & _). rewrite E3, !E4, G2, G1, NG.
    destruct (Z.ltb_spec (2 * (s d - 2) + 2) 2), (Z.ltb_spec (s d) 2), (Z.leb_spec (2 + 2 * h) (2 * (s d - 2) + 2)), (Z.leb_spec (2 + h) (s d)); lia.
  - destruct (inactive_facts g Bz ml D13 FT d Hdd Hd) as (_ & _ & _ & _ & _ & _ & E3 & E4 & _). rewrite E3, !E4. reflexivity.
Qed.

(** A coarser neighbour. *)
Section Entry.
Variable e : nblock.
Hypothesis He : E a e.
Hypothesis Hl : (level (n_loc e) < level a)%nat.
Lemma lev_root : (groot g < level a)%nat.
Proof using Vg NP W Bt ML Ha He Hl. destruct (entry_block g Vg NP t W Bt ml ML a e Ha He) as [Hb _]. destruct (in_dom g t W _ Hb) as [_ Rb]. lia. Qed.
Lemma e_coarser : coarser_nb g a e.
Proof using Vg NP NS W Bt ML Ha He Hl. destruct (kinds g Vg NP NS t W Bt ml ML a e Ha He) as [[L _]|[[_ (L & _)]|[_ C]]]; [lia|lia|exact C]. Qed.
Lemma e_ox : forall d, (d < 3)%nat -> (ox e d = -1 \/ ox e d = 0 \/ ox e d = 1) /\ ((dim <= d)%nat -> ox e d = 0) /\ (ox e d <> 0 -> ox e d = if Z.even (lx a d) then -1 else 1).
Proof using Vg NP NS W Bt ML Ha He Hl.
  intros d Hd. destruct (entry_dirs g Vg NP t W Bt ml ML a e Ha He) as [O1 O2]. destruct e_coarser as (_ & Li & _). split; [pose proof (O1 d) as Q; unfold okrange in Q; lia|]. split; [intros H; apply O2; assumption|]. intros H. rewrite even_lx by exact g. symmetry. apply (Li d Hd). exact H.
Qed.
(** The box in numbers. *)
Lemma box_active : forall d, (d < dim)%nat -> exists h, cells_in Bz d = 2 * h /\ cells_in Bz d / 2 = h /\ 2 <= h /\ cng Bz = 2 /\ cs_ Bz d = 2 /\ ce_ Bz d = h + 1 /\ actv Bz d = true /\ first Bz dim d = 2 /\ size Bz dim true d = h /\ size Bz dim false d = 2 * h /\
  ((ox e d = 0 /\ Z.even (lx a d) = true /\ box Bz a e d = (2, h + 2) /\ set_coarser Bz a e d = (2, h + 3)) \/ (ox e d = 0 /\ Z.even (lx a d) = false /\ box Bz a e d = (1, h + 1) /\ set_coarser Bz a e d = (0, h + 1)) \/
   (ox e d = 1 /\ Z.even (lx a d) = false /\ box Bz a e d = (h + 2, h + 2) /\ set_coarser Bz a e d = (h + 2, h + 3)) \/ (ox e d = -1 /\ Z.even (lx a d) = true /\ box Bz a e d = (1, 1) /\ set_coarser Bz a e d = (0, 1))).
Proof using Vg NP NS W Bt ML FT NG Ha Hm He Hl.
  intros d Hd. pose proof D13. destruct (half d Hd) as (h & G1 & G2 & G3 & G4). destruct (active_facts g Bz ml D13 FT d Hd) as (_ & _ & E1 & E2 & Ea & _ & E3 & E4 & _). exists h. split; [exact G1|]. split; [exact G2|]. split; [exact G3|]. split; [exact G4|].
  rewrite E1, E2, Ea, E3, !E4, G2, G1, NG. split; [reflexivity|]. split; [lia|]. split; [reflexivity|]. split; [reflexivity|]. split; [reflexivity|]. split; [reflexivity|].
  destruct (e_ox d ltac:(lia)) as (R & _ & Ev). unfold box, set_coarser. rewrite E1, E2, Ea, G2, G4, NG.
  destruct R as [R|[R|R]]; rewrite R in *; cbn [Z.eqb Z.ltb Z.compare]; destruct (Z.even (lx a d)) eqn:Ee; try (specialize (Ev ltac:(lia)); discriminate Ev).
  - right. right. right. repeat split; f_equal; ring.
  - left. repeat split; f_equal; ring.
  - right. left. repeat split; f_equal; ring.
  - right. right. left. repeat split; f_equal; ring.
Qed.
Lemma box_inactive : forall d, (dim <= d)%nat -> (d < 3)%nat -> cs_ Bz d = 0 /\ ce_ Bz d = 0 /\ s_ Bz d = 0 /\ e_ Bz d = 0 /\ actv Bz d = false /\ first Bz dim d = 0 /\ (forall h, size Bz dim h d = 1) /\ ox e d = 0 /\ box Bz a e d = (0, 0) /\ set_coarser Bz a e d = (0, 0).
Proof using Vg NP NS W Bt ML FT Ha He Hl.
  intros d Hi Hd. destruct (inactive_facts g Bz ml D13 FT d Hi Hd) as (E0 & E0' & E1 & E2 & Ea & _ & E3 & E4 & E5). destruct (e_ox d Hd) as (_ & R & _). specialize (R Hi). unfold box, set_coarser. rewrite E0, E0', E1, E2, Ea, R, E3. cbn [Z.eqb]. repeat split. exact E4.
Qed.
Lemma box_set : forall c, inbox (box Bz a e) c -> inbox (set_coarser Bz a e) c.
Proof using Vg NP NS W Bt ML FT NG Ha Hm He Hl.
  intros c Hc d Hd. specialize (Hc d Hd). destruct (Nat.lt_ge_cases d dim) as [Hdd|Hdd].
  - destruct (box_active d Hdd) as (h & _ & _ & G & _ & _ & _ & _ & _ & _ & _ & [(_ & _ & Q1 & Q2)|[(_ & _ & Q1 & Q2)|[(_ & _ & Q1 & Q2)|(_ & _ & Q1 & Q2)]]]); rewrite Q1 in Hc; rewrite Q2; cbn [fst snd] in *; lia.
  - destruct (box_inactive d Hdd Hd) as (_ & _ & _ & _ & _ & _ & _ & _ & Q1 & Q2). rewrite Q1 in Hc. rewrite Q2. exact Hc.
Qed.
Lemma set_place : forall s, inbox (set_coarser Bz a e) s -> exists y, in_coarser g Bz bs a s (n_loc e) y.
Proof using Vg NP NS W Bt ML FT NG Ha Hm He Hl.
  intros s Hs. destruct (arriving_ok g Vg NP NS t W Bt ml ML Bz 0 0 (fun _ _ _ _ _ => 0) (fun _ v => v) a e Ha He) as (Hb & e' & _ & He' & El & Ho).
  destruct (place_coarser g Vg NP NS t W Bt ml ML Bz FT a e e' s Hm Ha Hb He e_coarser He' El Ho Hs) as (_ & O & P). eexists. split; [exact Hb|]. split; [apply e_coarser|]. split; [exact O|exact P].
Qed.

(** Cells around the box. *)
Definition region_ok (s : cell) : Prop := (own Bz dim true s /\ inbox (load_coarser Bz e) s) \/
  exists o, In o (ndirs Bz e) /\ okdir dim o /\ nblevel g t a o = Z.of_nat (level a) /\ inbox (same_range Bz e o) s.
Definition beyond (s : cell) (d : nat) (hi : bool) : Prop := at_wall g a d hi /\ ox e d = 0 /\ side Bz dim true s d = (if hi then 1 else -1) /\ s d = (if hi then ce_ Bz d + 1 else cs_ Bz d - 1) /\ forall d', (d' < 3)%nat -> d' <> d -> fst (box Bz a e d') <= s d' <= snd (box Bz a e d').
Definition regular (s : cell) : Prop := near Bz dim true (cng Bz) s /\ (forall d hi, at_wall g a d hi -> side Bz dim true s d <> if hi then 1 else -1) /\
  ((exists b y, in_coarser g Bz bs a s b y) \/ (in_level g Bz bs a s /\ region_ok s)).

Lemma wall_box : forall c d (hi : bool), inbox (box Bz a e) c -> at_wall g a d hi -> side Bz dim true c d <> if hi then 1 else -1.
Proof using Vg NP NS W Bt ML FT NG Ha Hm He Hl.
  intros c d hi Hc Hw Hs. destruct (set_place c (box_set c Hc)) as (y & P). apply (wall_coarser g Vg t W ml Bz FT a Ha Hm c (n_loc e) y d hi P Hw Hs).
Qed.
Lemma around : forall c s, inbox (box Bz a e) c -> stencil g c s -> (exists d hi, beyond s d hi) \/ regular s.
Proof using Vg NP NS PL W Bt ML FT NG Ha Hm He Hl.
  intros c s Hc (k & Hk & Hsk & Hs). pose proof D13 as D. pose proof lev_root as Lr. destruct (in_dom g t W a Ha) as [Da Ra].
  destruct (box_active k Hk) as (h & G1 & G2 & G3 & G4 & Ecs & Ece & Eact & Ef & Es & Es' & Cases). pose proof (Hc k ltac:(lia)) as Hck.
  assert (Sother : forall d, (d < 3)%nat -> d <> k -> side Bz dim true s d = side Bz dim true c d) by (intros d Hd Hne; unfold side; rewrite (Hs d Hd Hne); reflexivity).
  (* is s beyond a wall? *)
  assert (BW : (exists hi, at_wall g a k hi /\ side Bz dim true s k = if hi then 1 else -1) \/ forall d hi, at_wall g a d hi -> side Bz dim true s d <> if hi then 1 else -1).
  { assert (Q : forall hi : bool, (at_wall g a k hi /\ side Bz dim true s k = (if hi then 1 else -1)) \/ ~ (at_wall g a k hi /\ side Bz dim true s k = if hi then 1 else -1)).
    { intros hi. destruct (wall_dec g Vg a k hi Hk) as [Q|Q]; [|right; tauto]. destruct (Z.eq_dec (side Bz dim true s k) (if hi then 1 else -1)); [left|right]; tauto. }
    destruct (Q true) as [Q1|Q1]; [left; exists true; exact Q1|]. destruct (Q false) as [Q2|Q2]; [left; exists false; exact Q2|]. right. intros d hi Hw Hsd. destruct (Nat.eq_dec d k) as [->|Hne]; [destruct hi; tauto|].
    apply (wall_box c d hi Hc Hw). rewrite <- Sother; [exact Hsd| |exact Hne]. destruct Hw as (Hd & _). lia. }
  destruct BW as [(hi & Hw & Hsd)|NW].
  - left. exists k, hi. pose proof (wall_parity g a k hi Lr Hw) as Ev. rewrite <- lx_coord in Ev. pose proof (wall_box c k hi Hc Hw) as Nc. unfold side in Hsd, Nc. rewrite Ef, Es in Hsd, Nc.
    assert (OX : ox e k = 0 /\ s k = if hi then ce_ Bz k + 1 else cs_ Bz k - 1).
    { rewrite Ece, Ecs. destruct hi; destruct (Z.ltb_spec (s k) 2), (Z.leb_spec (2 + h) (s k)), (Z.ltb_spec (c k) 2), (Z.leb_spec (2 + h) (c k)); try discriminate Hsd; try (contradiction Nc; reflexivity);
        destruct Cases as [(Q0 & Q1 & Q2 & Q3)|[(Q0 & Q1 & Q2 & Q3)|[(Q0 & Q1 & Q2 & Q3)|(Q0 & Q1 & Q2 & Q3)]]]; rewrite Q2 in Hck; cbn [fst snd] in Hck; rewrite Q1 in Ev; try discriminate Ev; split; lia. }
    split; [exact Hw|]. split; [apply OX|]. split; [unfold side; rewrite Ef, Es; exact Hsd|]. split; [apply OX|]. intros d' Hd' Hne. rewrite (Hs d' Hd' Hne). apply Hc, Hd'.
  - right.
    assert (Near1 : inbox (set_coarser Bz a e) s \/ near Bz dim true 1 s).
    { destruct (Z_le_dec (fst (set_coarser Bz a e k)) (s k)) as [H1|H1]; [destruct (Z_le_dec (s k) (snd (set_coarser Bz a e k))) as [H2|H2]|].
      - left. intros d Hd. destruct (Nat.eq_dec d k) as [->|Hne]; [lia|]. rewrite (Hs d Hd Hne). apply (box_set c Hc d Hd).
      - right. intros d Hd. destruct (Nat.ltb_spec d dim) as [Hdd|Hdd]; cbv zeta.
        + destruct (Nat.eq_dec d k) as [->|Hne].
          * rewrite Ef, Es. destruct Cases as [(Q0 & Q1 & Q2 & Q3)|[(Q0 & Q1 & Q2 & Q3)|[(Q0 & Q1 & Q2 & Q3)|(Q0 & Q1 & Q2 & Q3)]]]; rewrite Q2 in Hck; rewrite Q3 in *; cbn [fst snd] in *; lia.
          * rewrite (Hs d Hd Hne). specialize (Hc d Hd). destruct (box_active d Hdd) as (h' & _ & _ & G' & _ & _ & _ & _ & Q4 & Q5 & _ & [(_ & _ & Q1 & Q2)|[(_ & _ & Q1 & Q2)|[(_ & _ & Q1 & Q2)|(_ & _ & Q1 & Q2)]]]); rewrite Q1 in Hc; rewrite Q4, Q5; cbn [fst snd] in *; lia.
        + rewrite (Hs d Hd ltac:(lia)). specialize (Hc d Hd). destruct (box_inactive d Hdd Hd) as (_ & _ & _ & _ & _ & Q4 & Q5 & _ & Q1 & _). rewrite Q1 in Hc. rewrite Q4, Q5. cbn [fst snd] in Hc. lia.
      - right. intros d Hd. destruct (Nat.ltb_spec d dim) as [Hdd|Hdd]; cbv zeta.
        + destruct (Nat.eq_dec d k) as [->|Hne].
          * rewrite Ef, Es. destruct Cases as [(Q0 & Q1 & Q2 & Q3)|[(Q0 & Q1 & Q2 & Q3)|[(Q0 & Q1 & Q2 & Q3)|(Q0 & Q1 & Q2 & Q3)]]]; rewrite Q2 in Hck; rewrite Q3 in *; cbn [fst snd] in *; lia.
          * rewrite (Hs d Hd Hne). specialize (Hc d Hd). destruct (box_active d Hdd) as (h' & _ & _ & G' & _ & _ & _ & _ & Q4 & Q5 & _ & [(_ & _ & Q1 & Q2)|[(_ & _ & Q1 & Q2)|[(_ & _ & Q1 & Q2)|(_ & _ & Q1 & Q2)]]]); rewrite Q1 in Hc; rewrite Q4, Q5; cbn [fst snd] in *; lia.
        + rewrite (Hs d Hd ltac:(lia)). specialize (Hc d Hd). destruct (box_inactive d Hdd Hd) as (_ & _ & _ & _ & _ & Q4 & Q5 & _ & Q1 & _). rewrite Q1 in Hc. rewrite Q4, Q5. cbn [fst snd] in Hc. lia. }
    assert (SETNEAR : forall s0, inbox (set_coarser Bz a e) s0 -> near Bz dim true (cng Bz) s0).
    { intros s0 H0. apply (wc_where g Vg NP NS t W Bt ml ML Bz FT a e s0 Ha He). unfold wc. replace (Nat.eqb (level (n_loc e)) (level a)) with false by (symmetry; apply Nat.eqb_neq; lia). replace (Nat.ltb (level (n_loc e)) (level a)) with true by (symmetry; apply Nat.ltb_lt; exact Hl). exact H0. }
    assert (Near2 : near Bz dim true (cng Bz) s). { destruct Near1 as [H|H]; [apply SETNEAR, H|]. intros d Hd. specialize (H d Hd). rewrite cng2. destruct (Nat.ltb d dim); cbv zeta in *; lia. }
    split; [exact Near2|]. split; [exact NW|].
    destruct (inbox_dec (set_coarser Bz a e) s) as [Hin|Hout]; [left; destruct (set_place s Hin) as (y & P); exists (n_loc e), y; exact P|]. destruct Near1 as [H|N1]; [contradiction|].
    (* the direction k fails *)
    assert (KF : (ox e k = 0 /\ Z.even (lx a k) = true /\ s k = 1) \/ (ox e k = 0 /\ Z.even (lx a k) = false /\ s k = h + 2) \/ (ox e k = 1 /\ s k = h + 1) \/ (ox e k = -1 /\ s k = 2)).
    { assert (NK : ~ (fst (set_coarser Bz a e k) <= s k <= snd (set_coarser Bz a e k))). { intros X. apply Hout. intros d Hd. destruct (Nat.eq_dec d k) as [->|Hne]; [exact X|]. rewrite (Hs d Hd Hne). apply (box_set c Hc d Hd). }
      destruct Cases as [(Q0 & Q1 & Q2 & Q3)|[(Q0 & Q1 & Q2 & Q3)|[(Q0 & Q1 & Q2 & Q3)|(Q0 & Q1 & Q2 & Q3)]]]; rewrite Q2 in Hck; rewrite Q3 in NK; cbn [fst snd] in *; [left|right; left|right; right; left|right; right; right]; repeat split; first [assumption|lia]. }
    (* sides differ by at most one *)
    assert (SD : forall d, (d < dim)%nat -> side Bz dim true c d - side Bz dim true s d = -1 \/ side Bz dim true c d - side Bz dim true s d = 0 \/ side Bz dim true c d - side Bz dim true s d = 1).
    { intros d Hd. destruct (Nat.eq_dec d k) as [->|Hne]; [|rewrite (Sother d ltac:(lia) Hne); lia]. unfold side. rewrite Ef, Es. destruct (Z.ltb_spec (s k) 2), (Z.leb_spec (2 + h) (s k)), (Z.ltb_spec (c k) 2), (Z.leb_spec (2 + h) (c k)); lia. }
    assert (OWN : own Bz dim true s \/ ~ own Bz dim true s).
    { destruct (inbox_dec (fun d => (first Bz dim d, first Bz dim d + size Bz dim true d - 1)) s) as [H|H]; [left|right; intros O; apply H]; intros d Hd; [specialize (H d Hd); cbn [fst snd] in H; lia|specialize (O d Hd); cbn [fst snd]; lia]. }
    destruct OWN as [O|NO].
    + right. split; [apply self_level; assumption|]. left. split; [exact O|]. intros d Hd. pose proof (O d Hd) as Od. destruct (Nat.lt_ge_cases d dim) as [Hdd|Hdd].
      * destruct (box_active d Hdd) as (h' & _ & _ & G' & _ & C1 & C2 & _ & Q4 & Q5 & _ & Cs). rewrite Q4, Q5 in Od. unfold load_coarser. rewrite C1, C2, NG. cbn [fst snd]. destruct (Nat.eq_dec d k) as [->|Hne].
        { assert (h' = h) by lia. subst h'. destruct KF as [(K1 & K2 & K3)|[(K1 & K2 & K3)|[(K1 & K3)|(K1 & K3)]]]; rewrite K1; cbn [Z.ltb Z.compare]; lia. }
        { specialize (Hc d Hd). rewrite <- (Hs d Hd Hne) in Hc. destruct Cs as [(K1 & _ & Q1 & Q2)|[(K1 & _ & Q1 & Q2)|[(K1 & _ & Q1 & Q2)|(K1 & _ & Q1 & Q2)]]]; rewrite Q1 in Hc; rewrite K1; cbn [fst snd Z.ltb Z.compare] in *; lia. }
      * destruct (box_inactive d Hdd Hd) as (C1 & C2 & _ & _ & _ & Q4 & Q5 & K1 & _). rewrite Q4, Q5 in Od. unfold load_coarser. rewrite C1, C2, K1. cbn [Z.ltb Z.compare fst snd]. lia.
    + set (x := finec s).
      assert (Nx : near Bz dim false (ng Bz) x).
      { intros d Hd. specialize (N1 d Hd). unfold x, finec. rewrite NG. destruct (Nat.ltb_spec d dim) as [Hdd|Hdd]; cbv zeta in *.
        - destruct (half d Hdd) as (h' & F1 & F2 & F3 & _). destruct (active_facts g Bz ml D13 FT d Hdd) as (_ & _ & _ & _ & _ & _ & E3 & E4 & _). rewrite E3, !E4, ?F2, ?F1, NG in *. lia.
        - destruct (inactive_facts g Bz ml D13 FT d Hdd Hd) as (_ & _ & _ & _ & _ & _ & E3 & E4 & _). rewrite E3, !E4 in *. lia. }
      assert (NOx : ~ own Bz dim false x). { intros O. apply NO. apply (proj1 (side_own g Bz true s)). intros d Hd. rewrite <- (finec_side s d Hd). apply (proj2 (side_own g Bz false x) O d Hd). }
      assert (Ix : inside g Bz a x).
      { intros d Hd. assert (Hd3 : (d < 3)%nat) by lia. destruct (no_wall g Vg PL t W a Ha d (side Bz dim true s d) Hd) as (v & S1 & S2); [intros X Hw; apply (NW d true Hw), X|intros X Hw; apply (NW d false Hw), X|apply side_range|].
        exists (v * cells_in Bz d). split; [apply shift_scale, S1|]. destruct (active_facts g Bz ml D13 FT d Hd) as (_ & _ & _ & _ & _ & _ & E3 & E4 & N2 & N3).
        pose proof (side_digit g Vg Bz false (ng Bz) x d Nx Hd ltac:(rewrite E4; lia)) as Sd. unfold x in Sd. rewrite (finec_side s d Hd3), E3, E4 in Sd. fold x in Sd. set (cc := cells_in Bz d) in *. set (ww := gnrb g d * 2 ^ Z.of_nat (level a - groot g)) in *. set (oo := side Bz dim true s d) in *. clearbody oo ww. nia. }
      destruct (complete g Vg NP NS t W Bt ml ML Bz FT a x Ha Nx NOx Ix) as (b & y & Hb & [(Lb & O & P)|[(Lb & O & P)|(Lb & Nc & O & P)]]).
      * (* same level *)
        assert (NBp : neighbour_position g a (side Bz dim true s) b).
        { destruct (in_dom g t W b Hb) as [Db _]. split; [exact Lb|]. split; [exact Db|]. intros d Hd. destruct (P d ltac:(lia)) as (v & S1 & S2). destruct (active_facts g Bz ml D13 FT d Hd) as (_ & _ & _ & _ & _ & _ & E3 & E4 & N2 & N3).
          pose proof (side_digit g Vg Bz false (ng Bz) x d Nx Hd ltac:(rewrite E4; lia)) as Sd. unfold x in Sd. rewrite (finec_side s d ltac:(lia)), E3, E4 in Sd. fold x in Sd. specialize (O d ltac:(lia)). rewrite E3, !E4 in *. destruct (shift_div g a d (cells_in Bz d) v ltac:(lia) ltac:(lia) S1) as (v' & -> & Sv). exists v'. split; [exact Sv|].
          apply (digits (coord d b) (coord d a + side Bz dim true s d + v') (cells_in Bz d) (y d - ng Bz) (x d - ng Bz - side Bz dim true s d * cells_in Bz d)); [lia|lia|]. rewrite S2. ring. }
        right. split; [apply (level_place g Vg t W ml Bz FT a Ha Hm s b Lr Near2 Hb NBp)|]. right. exists (sdir Bz dim true s). pose proof (sdir_ok g Vg Bz true _ s Near2 NO) as Ok.
        assert (SR : forall d, (d < dim)%nat -> exists h', cs_ Bz d = 2 /\ ce_ Bz d = h' + 1 /\ actv Bz d = true /\ 2 <= h' /\ (ox e d = -1 \/ ox e d = 0 \/ ox e d = 1) /\
          ((side Bz dim true s d = -1 /\ s d = 1 /\ ox e d <> 1) \/ (side Bz dim true s d = 1 /\ s d = h' + 2 /\ ox e d <> -1) \/ (side Bz dim true s d = 0 /\ 2 <= s d <= h' + 1 /\ (ox e d = 1 -> s d = h' + 1) /\ (ox e d = -1 -> s d = 2)))).
        { intros d Hdd. destruct (box_active d Hdd) as (h' & _ & _ & G' & _ & C1 & C2 & C3 & Q4 & Q5 & _ & Cs). exists h'. split; [exact C1|]. split; [exact C2|]. split; [exact C3|]. split; [exact G'|]. split; [apply e_ox; lia|].
          unfold side. rewrite Q4, Q5. pose proof (N1 d ltac:(lia)) as Nd. replace (Nat.ltb d dim) with true in Nd by (symmetry; apply Nat.ltb_lt, Hdd). cbv zeta in Nd. rewrite Q4, Q5 in Nd. destruct (Nat.eq_dec d k) as [->|Hne].
          - assert (Eh : h' = h) by lia. clear Q5. subst h'. destruct KF as [(K1 & K2 & K3)|[(K1 & K2 & K3)|[(K1 & K3)|(K1 & K3)]]]; rewrite K1; destruct (Z.ltb_spec (s k) 2), (Z.leb_spec (2 + h) (s k)); first [lia|left; lia|right; left; lia|right; right; repeat split; intros; lia].
          - specialize (Hc d ltac:(lia)). rewrite <- (Hs d ltac:(lia) Hne) in Hc. destruct (Z.ltb_spec (s d) 2), (Z.leb_spec (2 + h') (s d)); destruct Cs as [(K1 & _ & Q1 & Q2)|[(K1 & _ & Q1 & Q2)|[(K1 & _ & Q1 & Q2)|(K1 & _ & Q1 & Q2)]]]; rewrite Q1 in Hc; rewrite K1; cbn [fst snd] in *; first [lia|left; lia|right; left; lia|right; right; repeat split; intros; lia]. }
        assert (SI : forall d, (dim <= d)%nat -> (d < 3)%nat -> side Bz dim true s d = 0 /\ s d = 0) by (intros d Hi Hd; split; [apply (side_inactive g Bz true _ s d Near2 Hi Hd)|rewrite (Hs d Hd ltac:(lia)); specialize (Hc d Hd); destruct (box_inactive d Hi Hd) as (_ & _ & _ & _ & _ & _ & _ & _ & Q1 & _); rewrite Q1 in Hc; cbn [fst snd] in Hc; lia]).
        assert (NR : forall d, (d < 3)%nat -> In (side Bz dim true s d) (ints (nrange Bz e d))).
        { intros d Hd. apply in_ints. unfold nrange. destruct (Nat.lt_ge_cases d dim) as [Hdd|Hdd]; [destruct (SR d Hdd) as (h' & _ & _ & -> & _ & R & Q); cbn [fst snd]; lia|]. destruct (box_inactive d Hdd Hd) as (_ & _ & _ & _ & -> & _). destruct (SI d Hdd Hd) as [-> _]. cbn [fst snd]. lia. }
        split; [|split; [exact Ok|split]].
        { unfold ndirs, sdir. apply in_flat_map. exists (side Bz dim true s 2). split; [apply NR; lia|]. apply in_flat_map. exists (side Bz dim true s 1). split; [apply NR; lia|]. apply in_map_iff. exists (side Bz dim true s 0). split; [reflexivity|apply NR; lia]. }
        { apply (nblevel_leaf _ b Ok Hb). apply (np_ext g a (side Bz dim true s)); [|exact NBp]. intros d Hd. symmetry. apply od_sdir. lia. }
        { intros d Hd. assert (En : (match d with 0%nat => fst (fst (sdir Bz dim true s)) | 1%nat => snd (fst (sdir Bz dim true s)) | _ => snd (sdir Bz dim true s) end) = side Bz dim true s d) by (destruct d as [|[|[|d]]]; [reflexivity|reflexivity|reflexivity|lia]).
          unfold same_range. rewrite En. destruct (Nat.lt_ge_cases d dim) as [Hdd|Hdd].
          - destruct (SR d Hdd) as (h' & -> & -> & _ & G' & R & [(-> & Q1 & Q2)|[(-> & Q1 & Q2)|(-> & Q1 & Q2 & Q3)]]); cbn [Z.eqb Pos.eqb]; [cbn [fst snd]; lia|cbn [fst snd]; lia|]. destruct (Z.eqb_spec (ox e d) 1), (Z.eqb_spec (ox e d) (-1)); cbn [fst snd]; lia.
          - destruct (SI d Hdd Hd) as [-> ->]. destruct (box_inactive d Hdd Hd) as (-> & -> & _). cbn [Z.eqb]. destruct (Z.eqb _ _), (Z.eqb _ _); cbn [fst snd]; lia. }
      * (* finer: impossible *)
        exfalso. destruct (set_place c (box_set c Hc)) as (yc & Pc). destruct (coarser_pos g Vg t W ml Bz FT a Ha Hm c (n_loc e) yc (SETNEAR c (box_set c Hc)) Pc) as (q & Nq & Aq & Lq).
        assert (Kq : K t q = KNull). { destruct (K t q) eqn:Ek; [reflexivity| |]; (assert (Hn : K t q <> KNull) by congruence; apply (K_anc t 1 q) in Hn; [|lia|lia]; rewrite Aq in Hn; destruct Pc as (Hbc & _); apply (in_blocks g t _ W) in Hbc as [_ (zz & Kz)]; congruence). }
        destruct (in_dom g t W b Hb) as [Db Rb]. set (p := anc 1 b).
        assert (Np : neighbour_position g a (side Bz dim true s) p).
        { assert (Dp : in_domain g p). { apply (inr_dom g p); [unfold p; cbn [anc level]; lia|]. intros d Hd. pose proof (dom_inr g b d Rb Db Hd) as I. unfold inr, nmax in *. unfold p. rewrite coord_anc1. cbn [anc level]. pose proof (Z.div_mod (coord d b) 2 ltac:(lia)). pose proof (Z.mod_pos_bound (coord d b) 2 ltac:(lia)). destruct (Nat.ltb_spec d dim) as [Hdd|Hdd]; [|split; [apply Z.div_pos; lia|apply Z.div_lt_upper_bound; lia]].
            rewrite Lb in I. replace (S (level a) - groot g)%nat with (S (level a - groot g)) in I by lia. rewrite pow2_S in I. replace (level b - 1)%nat with (level a) by lia. lia. }
          split; [unfold p; cbn [anc level]; lia|]. split; [exact Dp|]. intros d Hd. destruct (P d ltac:(lia)) as (v & S1 & S2). destruct (active_facts g Bz ml D13 FT d Hd) as (_ & _ & _ & _ & _ & _ & E3 & E4 & N2 & N3). destruct (half d Hd) as (h' & F1 & F2 & F3 & _).
          pose proof (side_digit g Vg Bz false (ng Bz) x d Nx Hd ltac:(rewrite E4; lia)) as Sd. unfold x in Sd. rewrite (finec_side s d ltac:(lia)), E3, E4 in Sd. fold x in Sd. specialize (O d ltac:(lia)). rewrite E3, !E4 in *. destruct (shift_div g a d (cells_in Bz d) v ltac:(lia) ltac:(lia) S1) as (v' & -> & Sv). exists v'. split; [exact Sv|].
          unfold p. rewrite coord_anc1. rewrite F2 in *. rewrite F1 in *. pose proof (myf_div g (coord d b)) as Hcb. pose proof (myf_01 (coord d b)) as H01. set (qq := coord d b / 2) in *. set (r := myf (coord d b)) in *. clearbody qq r.
          apply (digits qq (coord d a + side Bz dim true s d + v') (2 * h') (r * h' + (y d - ng Bz)) (x d - ng Bz - side Bz dim true s d * (2 * h'))); [destruct H01 as [-> | ->]; lia|lia|]. rewrite Hcb in S2. lia. }
        assert (Kp : K t p = KNode). { apply (in_blocks g t b W) in Hb as [Cb (zb & Kb)]. apply (K_anc t 1 b); [lia|lia|congruence]. }
        apply (node_next (side Bz dim true s) (side Bz dim true c) p q SD Np Nq Kp Kq).
      * left. exists b, y. apply (in_coarser_ext g t Bz a (coarse_cell g Bz x) s b y); [intros d Hd; apply finec_coarse, Hd|]. split; [exact Hb|]. split; [exact Lb|]. split; [exact O|exact P].
Qed.
End Entry.
End N.
