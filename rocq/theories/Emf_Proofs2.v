(** Neighbours in a direction: one of the same level, or finer ones for every choice of halves; the message of an entry. *)
From Coq Require Import List Arith NArith ZArith Bool Lia Permutation Reals Lra.
From Verif Require Import Loc LB_Spec Tags_Model Tags_Spec Tags_Proofs AMR_Model AMR_Spec AMR_Proofs AMR_Proofs2 Tree_Model Tree_Spec Tree_Proofs1 Tree_Proofs2 Tree_Proofs3 Tree_Proofs4 Tree_Proofs5 Tree_Proofs6 Tree_Proofs7 Tree_Proofs8 Tree_Restart Tree_Proofs9 Tree_Proofs10 Nbr_Model Nbr_Spec Nbr_Proofs Nbr_Proofs2 Nbr_Proofs3 Buf_Model Gho_Model Gho_Spec Gho_Proofs Gho_Proofs2 Con_Model Con_Spec Con_Proofs Emf_Model Emf_Spec Emf_Proofs.
Import ListNotations.
Local Open Scope Z_scope.

Lemma od_dd : forall o d, od o d = dd o d.
Proof. intros [[o1 o2] o3] d. reflexivity. Qed.
Lemma edir_entry : forall e, edir e = entry_dir e.
Proof. reflexivity. Qed.
Lemma dd_opp : forall o d, dd (opp3 o) d = - dd o d.
Proof. intros [[o1 o2] o3] d. destruct d as [|[|d]]; reflexivity. Qed.
Lemma comps_opp : forall o, comps (opp3 o) = comps o.
Proof. intros o. unfold comps. apply filter_ext. intros c. rewrite dd_opp. destruct (Z.eqb_spec (dd o c) 0), (Z.eqb_spec (- dd o c) 0); try reflexivity; lia. Qed.
Lemma loc_ext2 : forall a b : loc, level a = level b -> (forall d, (d < 3)%nat -> coord d a = coord d b) -> a = b.
Proof.
  intros [v a1 a2 a3] [v' b1 b2 b3] Hv H. cbn in Hv. subst v'. pose proof (H 0%nat ltac:(lia)). pose proof (H 1%nat ltac:(lia)). pose proof (H 2%nat ltac:(lia)). cbn in *. congruence.
Qed.
(** The loop that stops at the first corner meets all faces and edges. *)
Lemma dirs_corners : forall dim, (1 <= dim <= 3)%nat -> exists os1 os2, dirs dim = os1 ++ os2 /\ (forall o, In o os1 -> dtype o <> corner) /\ (forall o, In o os2 -> dtype o = corner).
Proof.
  intros dim H. exists (firstn 18 (dirs dim)), (skipn 18 (dirs dim)). split; [symmetry; apply firstn_skipn|].
  assert (E : (dim = 1 \/ dim = 2 \/ dim = 3)%nat) by lia. destruct E as [->|[->| ->]]; cbn; split; intros o Ho; repeat match type of Ho with _ \/ _ => destruct Ho as [<-|Ho] | False => contradiction Ho end; try reflexivity; discriminate.
Qed.
Lemma emf_loop_filter : forall g, valid_grid g -> forall ml t l ns, SearchAndSetNeighbors g ml t l = Some ns -> emf_loop ns = filter (fun e => negb (is_corner e)) ns.
Proof.
  intros g Vg ml t l ns H. unfold SearchAndSetNeighbors in H. destruct (dirs_corners (gdim g) (dim13 g Vg)) as (os1 & os2 & Ed & D1 & D2). rewrite Ed in H. destruct (search_app _ _ _ _ _ _ _ _ H) as (r1 & r2 & bid' & -> & S1 & S2).
  assert (H1 : forall e, In e r1 -> is_corner e = false). { intros e He. destruct (search_type _ _ _ _ _ _ _ S1 e He) as (o & Ho & Et). unfold is_corner. rewrite Et. specialize (D1 o Ho). destruct (dtype o); [reflexivity|reflexivity|contradiction D1; reflexivity]. }
  assert (H2 : forall e, In e r2 -> is_corner e = true). { intros e He. destruct (search_type _ _ _ _ _ _ _ S2 e He) as (o & Ho & Et). unfold is_corner. rewrite Et, (D2 o Ho). reflexivity. }
  clear -H1 H2. induction r1 as [|e r1 IH].
  - cbn [app]. destruct r2 as [|e r2]; [reflexivity|]. cbn [emf_loop]. rewrite (H2 e (or_introl eq_refl)). clear H1. symmetry. assert (X : forall l, (forall e, In e l -> is_corner e = true) -> filter (fun e => negb (is_corner e)) l = []).
    { intros l. induction l as [|x l IH]; intros H; [reflexivity|]. cbn [filter]. rewrite (H x (or_introl eq_refl)). cbn [negb]. apply IH. intros y Hy. apply H. right. exact Hy. }
    apply X, H2.
  - cbn [app emf_loop filter]. rewrite (H1 e (or_introl eq_refl)). cbn [negb]. f_equal. apply IH. intros x Hx. apply H1. right. exact Hx.
Qed.

Section N.
Variable g : grid.
Hypothesis Vg : valid_grid g.
Hypothesis NP : no_pole g.
Hypothesis NS : no_shear g.
Variable t : tree.
Hypothesis W : wf g t.
Hypothesis Bt : B g t.
Variable ml : bool.
Hypothesis ML : declared g ml (blocks t).
Local Notation dim := (gdim g).
Local Notation E := (E g t ml).
Local Notation D13 := (dim13 g Vg).
Local Notation bs := (blocks t).

Lemma okdir_odir : forall o, okdir dim o <-> odir g o /\ exists d, (d < 3)%nat /\ dd o d <> 0.
Proof using Vg.
  intros [[o1 o2] o3]. pose proof D13 as V. split.
  - intros (R1 & R2 & R3 & D2 & D3 & Hn). split; [split|].
    + intros [|[|d]]; assumption.
    + intros [|[|[|d]]] H1 H2; cbn [dd]; lia.
    + destruct Hn as [H|[H|H]]; [exists 0%nat|exists 1%nat|exists 2%nat]; (split; [lia|exact H]).
  - intros [[O1 O2] (d & Hd & Hn)]. pose proof (O1 0%nat). pose proof (O1 1%nat). pose proof (O1 2%nat). pose proof (O2 1%nat) as P1. pose proof (O2 2%nat) as P2. cbn [dd] in *. unfold okdir. repeat (split; [first [assumption|intros; first [apply P1; lia|apply P2; lia]]|]). destruct d as [|[|d]]; tauto.
Qed.
Lemma odir_cases : forall o, odir g o -> o = (0, 0, 0) \/ okdir dim o.
Proof using Vg. intros o Ho. destruct (dirt_dec o (0, 0, 0)) as [->|N]; [left; reflexivity|right]. apply okdir_odir. split; [exact Ho|]. destruct o as [[o1 o2] o3]. destruct (Z.eq_dec o1 0) as [->|]; [|exists 0%nat; split; [lia|assumption]]. destruct (Z.eq_dec o2 0) as [->|]; [|exists 1%nat; split; [lia|assumption]]. exists 2%nat. split; [lia|]. cbn. congruence. Qed.

Lemma in_around_of : forall o x, odir g o -> In x (around o) <-> (forall d, (d < 3)%nat -> dd x d = 0 \/ dd x d = dd o d).
Proof using . intros o x [O1 _]. apply in_around, O1. Qed.
Lemma around_odir : forall o o', odir g o -> In o' (around o) -> odir g o'.
Proof using .
  intros o o' Ho H. pose proof (proj1 (in_around_of o o' Ho) H) as H0. clear H. rename H0 into H. destruct Ho as [O1 O2]. split; [|intros d H1 H2; destruct (H d H2) as [->| ->]; [reflexivity|apply O2; assumption]].
  assert (X : forall d, (d < 3)%nat -> -1 <= dd o' d <= 1) by (intros d Hd; destruct (H d Hd) as [->| ->]; [lia|apply O1]). intros d. pose proof (X 0%nat ltac:(lia)). pose proof (X 1%nat ltac:(lia)). pose proof (X 2%nat ltac:(lia)). destruct o' as [[x y] z]. cbn [dd] in *. destruct d as [|[|d]]; assumption.
Qed.

(** ** nblevel *)
Section A.
Variable a : loc.
Hypothesis Ha : In a bs.
Local Notation lev := (Z.of_nat (level a)).
Lemma nbpos_det : forall o m m', okdir dim o -> neighbour_position g a (od o) m -> neighbour_position g a (od o) m' -> m = m'.
Proof using Vg W Ha. intros o m m' Ho H1 H2. apply (proj2 (spec_pos g Vg t W a o m Ha Ho)) in H1. apply (proj2 (spec_pos g Vg t W a o m' Ha Ho)) in H2. apply (nb_det g a _ m m' H1 H2). Qed.
Lemma nblevel_cases : forall o, okdir dim o ->
  (nblevel g t a o = -1 /\ forall m, ~ neighbour_position g a (od o) m) \/
  exists m, neighbour_position g a (od o) m /\ ((In m bs /\ nblevel g t a o = lev) \/ (K t m = KNode /\ nblevel g t a o = lev + 1) \/ (K t m = KNull /\ nblevel g t a o = lev - 1)).
Proof using Vg NP NS W Bt Ha.
  intros [[o1 o2] o3] Ho. pose proof Ha as Ha'. apply (in_blocks g t a W) in Ha' as [Ca (za & Hk)]. destruct (leaf_level g t a za W Ca Hk) as [Da Ra]. unfold nblevel.
  destruct (Z.eqb o1 0 && Z.eqb o2 0 && Z.eqb o3 0) eqn:E0. { exfalso. rewrite !andb_true_iff, !Z.eqb_eq in E0. destruct Ho as (_ & _ & _ & _ & _ & Hn). lia. }
  destruct (dir_offs3 g Vg o1 o2 o3 Ho) as (O1 & O2 & O3). destruct (FindNeighborLoc g a o1 o2 o3) as [m|] eqn:EL.
  - right. exists m. apply (fnl_nb g Vg NP NS) in EL; try assumption. assert (Lm : level m = level a) by apply EL. split; [apply (spec_pos g Vg t W a _ m Ha Ho); exact EL|].
    destruct (find_leaf g Vg NP t a za o1 o2 o3 m false W Bt Ca Hk EL) as (r & Er & [[-> Hn]|(Hgm & -> & (z' & Ez'))]); rewrite Er.
    + destruct (K t m) as [|zm|] eqn:Em; [contradiction Hn; reflexivity| |].
      * left. rewrite (find_kind t _ _ Em). split; [|lia]. apply (in_blocks g t m W). split; [|exists zm; exact Em]. apply (dom_canon g Vg), (nb_dom g Vg a _ m Da Ra EL).
      * right. left. destruct (find_node t m Em) as (zz & ch & Eq). rewrite Eq. split; [reflexivity|lia].
    + right. right. rewrite (find_kind t _ _ Ez'). split; [|cbn [anc level]; lia]. destruct (K t m) eqn:Em; [reflexivity| |]; exfalso; assert (Hn : K t m <> KNull) by congruence; apply (K_anc t 1 m) in Hn; try lia; congruence.
  - left. split; [unfold FindNeighbor; rewrite EL; reflexivity|]. intros m Hm. apply (proj2 (spec_pos g Vg t W a _ m Ha Ho)) in Hm. destruct (find_leaf g Vg NP t a za o1 o2 o3 m false W Bt Ca Hk Hm) as (r & Er & _). unfold FindNeighbor in Er. rewrite EL in Er. discriminate Er.
Qed.
Lemma nblevel_zero : nblevel g t a (0, 0, 0) = lev.
Proof using . reflexivity. Qed.
Lemma nblevel_le : forall o, odir g o -> nblevel g t a o <= lev + 1.
Proof using Vg NP NS W Bt Ha. intros o Ho. destruct (odir_cases o Ho) as [->|Hk]; [rewrite nblevel_zero; lia|]. destruct (nblevel_cases o Hk) as [[-> _]|(m & _ & [[_ ->]|[[_ ->]|[_ ->]]])]; lia. Qed.
Lemma nblevel_fine : forall o, okdir dim o -> (nblevel g t a o = lev + 1 <-> exists m, neighbour_position g a (od o) m /\ K t m = KNode).
Proof using Vg NP NS W Bt Ha.
  intros o Ho. destruct (nblevel_cases o Ho) as [[E1 N]|(m & Hm & H)].
  - split; [lia|]. intros (m & Hm & _). contradiction (N m).
  - split.
    + intros E1. exists m. split; [exact Hm|]. destruct H as [[_ X]|[[X _]|[_ X]]]; [lia|exact X|lia].
    + intros (m' & Hm' & Hk). rewrite <- (nbpos_det o m m' Ho Hm Hm') in Hk. destruct H as [[X _]|[[_ X]|[X _]]]; [|exact X|congruence]. apply (in_blocks g t m W) in X as [_ (z & X)]. congruence.
Qed.
Lemma nblevel_eq : forall o, okdir dim o -> (nblevel g t a o = lev <-> exists m, neighbour_position g a (od o) m /\ In m bs).
Proof using Vg NP NS W Bt Ha.
  intros o Ho. destruct (nblevel_cases o Ho) as [[E1 N]|(m & Hm & H)].
  - split; [lia|]. intros (m & Hm & _). contradiction (N m).
  - split.
    + intros E1. exists m. split; [exact Hm|]. destruct H as [[X _]|[[_ X]|[_ X]]]; [exact X|lia|lia].
    + intros (m' & Hm' & Hk). rewrite <- (nbpos_det o m m' Ho Hm Hm') in Hk. apply (in_blocks g t m W) in Hk as [_ (z & X)]. destruct H as [[_ Y]|[[Y _]|[Y _]]]; [exact Y|congruence|congruence].
Qed.

(** ** Entries in a direction *)
Lemma entry_dir_ok : forall e, E a e -> okdir dim (entry_dir e) /\ exists m, neighbour_position g a (od (entry_dir e)) m /\ E1 g t ml a (entry_dir e) m e.
Proof using Vg W Ha.
  intros e (o & m & Hin & Hnb & HE). apply (dirs_iff dim o D13) in Hin.
  assert (Ed : edir e = o) by (destruct HE as [(z & k & _ & _ & ->)|[(_ & f1 & f2 & z & k & _ & _ & _ & _ & ->)|(_ & _ & z & k & _ & _ & ->)]]; match goal with |- context[mkn ?c ?z ?o ?k ?ts ?f1 ?f2] => destruct (mkn_fields c z o k ts f1 f2) as (_ & _ & F3 & _) end; exact F3).
  rewrite <- edir_entry, Ed. split; [exact Hin|]. exists m. split; [apply (spec_pos g Vg t W a o m Ha Hin), Hnb|exact HE].
Qed.
Lemma tang_inj : forall o f1 f2 f1' f2', okdir dim o -> In f1 (upto (cnt1 dim ml o)) -> In f2 (upto (cnt2 dim ml o)) -> In f1' (upto (cnt1 dim ml o)) -> In f2' (upto (cnt2 dim ml o)) ->
  (forall d, (d < 3)%nat -> od o d = 0 -> tang o f1 f2 d = tang o f1' f2' d) -> f1 = f1' /\ f2 = f2'.
Proof using .
  clear -g ml. intros [[o1 o2] o3] f1 f2 f1' f2' (R1 & R2 & R3 & _ & _ & Hn) H1 H2 H3 H4 H. apply (in_upto g) in H1, H2, H3, H4. pose proof (H 0%nat ltac:(lia)) as T0. pose proof (H 1%nat ltac:(lia)) as T1. pose proof (H 2%nat ltac:(lia)) as T2. clear H. unfold od, off3, tang, cnt1, cnt2, dtype, nz in *.
  destruct (Z.eqb_spec o1 0) as [Z1|Z1], (Z.eqb_spec o2 0) as [Z2|Z2], (Z.eqb_spec o3 0) as [Z3|Z3]; cbn [plus orb] in *; try lia.
Qed.
Lemma entry_unique : forall e1 e2, E a e1 -> E a e2 -> entry_dir e1 = entry_dir e2 -> n_loc e1 = n_loc e2 -> e1 = e2.
Proof using Vg NP W Bt Ha.
  intros e1 e2 H1 H2 Ed El. destruct (entry_dir_ok e1 H1) as (Ho & m & Hm & E1'). destruct (entry_dir_ok e2 H2) as (_ & m2 & Hm2 & E2'). rewrite <- Ed in Hm2, E2'. rewrite <- (nbpos_det _ m m2 Ho Hm Hm2) in E2'. set (o := entry_dir e1) in *. clearbody o. clear Ed H1 H2.
  destruct E1' as [(z & k & A1 & A2 & A3)|[(A1 & f1 & f2 & z & k & A2 & A3 & A4 & A5 & A6)|(A1 & _ & z & k & A3 & A4 & A5)]], E2' as [(z' & k' & B1 & B2 & B3)|[(B1 & f1' & f2' & z' & k' & B2 & B3 & B4 & B5 & B6)|(B1 & _ & z' & k' & B3 & B4 & B5)]]; try (exfalso; congruence).
  - rewrite A3, B3. assert (z = z') by congruence. assert (k = k') by congruence. subst. reflexivity.
  - assert (Hg : getleaf m o false f1 f2 = getleaf m o false f1' f2'). { rewrite A6, B6 in El. destruct (mkn_fields (getleaf m o false f1 f2) z o k (slot dim ml (opp3 o) 0 0) f1 f2) as (F1 & _). destruct (mkn_fields (getleaf m o false f1' f2') z' o k' (slot dim ml (opp3 o) 0 0) f1' f2') as (F1' & _). rewrite F1, F1' in El. exact El. }
    destruct (f_range g ml o f1 f2 A2 A3) as [R1 R2]. destruct (f_range g ml o f1' f2' B2 B3) as [R1' R2'].
    assert (T : f1 = f1' /\ f2 = f2'). { apply (tang_inj o); try assumption. intros d Hd Hz. pose proof (coord_getleaf g m o f1 f2 d Hd R1 R2) as C1. pose proof (coord_getleaf g m o f1' f2' d Hd R1' R2') as C2. rewrite Hz in C1, C2. cbn [Z.eqb] in C1, C2. rewrite Hg in C1. lia. }
    destruct T as [<- <-]. rewrite A6, B6. assert (z = z') by congruence. assert (k = k') by congruence. subst. reflexivity.
  - rewrite A5, B5. assert (z = z') by congruence. assert (k = k') by congruence. subst. reflexivity.
Qed.
(** Same level. *)
Lemma same_entry : forall o, okdir dim o -> nblevel g t a o = lev -> exists e, E a e /\ entry_dir e = o /\ same_nb g a e.
Proof using Vg NP NS W Bt ML Ha.
  intros o Ho Hl. apply (nblevel_eq o Ho) in Hl as (m & Hm & Hb). destruct (cover_dir g Vg t W ml ML a o m Ha Ho Hm) as (C1 & _). destruct (C1 Hb) as (e & He & El & Eo).
  exists e. split; [exact He|]. assert (Ed : entry_dir e = o) by (apply dirt_ext; intros d Hd; rewrite <- (od_dd o d), <- (Eo d); reflexivity). split; [exact Ed|]. split; [rewrite El; apply Hm|]. rewrite El. destruct Hm as (M1 & M2 & M3). split; [exact M1|]. split; [exact M2|]. intros d Hd. rewrite Eo. apply M3, Hd.
Qed.
Lemma same_level_of : forall e, E a e -> level (n_loc e) = level a -> nblevel g t a (entry_dir e) = lev /\ same_nb g a e.
Proof using Vg NP NS W Bt ML Ha.
  intros e He Hl. destruct (entry_dir_ok e He) as (Ho & _). destruct (kinds g Vg NP NS t W Bt ml ML a e Ha He) as [H|[[_ (H & _)]|[_ (H & _)]]]; [|lia|lia]. split; [|exact H]. apply (nblevel_eq _ Ho). exists (n_loc e). split; [|apply (entry_block g Vg NP t W Bt ml ML a e Ha He)]. destruct H as [_ (M1 & M2 & M3)]. split; [exact M1|]. split; [exact M2|]. intros d Hd. rewrite <- edir_entry, <- off_dir. apply M3, Hd.
Qed.
Lemma finer_level_of : forall e, E a e -> level (n_loc e) = S (level a) -> nblevel g t a (entry_dir e) = lev + 1 /\ finer_nb g a e /\ ml = true.
Proof using Vg NP NS W Bt ML Ha.
  intros e He Hl. destruct (entry_dir_ok e He) as (Ho & m & Hm & HE). destruct (kinds g Vg NP NS t W Bt ml ML a e Ha He) as [(H & _)|[[Hml H]|[_ (H & _)]]]; [lia| |lia]. split; [|split; assumption]. apply (nblevel_fine _ Ho). exists m. split; [exact Hm|].
  destruct HE as [(z & k & A1 & A2 & A3)|[(A1 & _)|(A1 & _ & z & k & A3 & A4 & A5)]]; [|exact A1|]; exfalso.
  - rewrite A3 in Hl. destruct (mkn_fields m z (entry_dir e) k (slot dim ml (opp3 (entry_dir e)) 0 0) 0 0) as (F1 & _). rewrite F1 in Hl. destruct Hm as (M1 & _). lia.
  - assert (X : n_loc e = anc 1 m) by (rewrite A5; match goal with |- context[mkn ?c ?z ?o ?k ?ts ?f1 ?f2] => destruct (mkn_fields c z o k ts f1 f2) as (F1 & _) end; exact F1). rewrite X in Hl. destruct Hm as (M1 & _). cbn [anc level] in Hl. lia.
Qed.
(** Finer: one entry for every choice of halves. *)
Lemma finer_entry : forall o (h : nat -> Z), okdir dim o -> nblevel g t a o = lev + 1 -> (forall d, h d = 0 \/ h d = 1) -> (forall d, (dim <= d)%nat -> (d < 3)%nat -> h d = 0) ->
  exists e, E a e /\ entry_dir e = o /\ level (n_loc e) = S (level a) /\ forall d, (d < 3)%nat -> dd o d = 0 -> fsel e d = h d.
Proof using Vg NP NS W Bt ML Ha.
  intros o h Ho Hl H01 H0. apply (nblevel_fine o Ho) in Hl as (m & Hm & Hk). pose proof Ha as Ha'. apply (in_blocks g t a W) in Ha' as [Ca (za & Ka)]. destruct (leaf_level g t a za W Ca Ka) as [Da Ra]. pose proof (proj2 (spec_pos g Vg t W a o m Ha Ho) Hm) as Hnb. destruct Hm as (Lm & Dm & _).
  assert (Hml : ml = true).
  { destruct (cnt_pos dim ml o) as [P1 P2]. destruct (finer_leaf g Vg NP t W Bt ml ML a za o m 0 0 Ho Ca Ka Hnb Hk (upto0 _ (proj1 P1)) (upto0 _ (proj1 P2))) as (Cc & (zc & Ec) & _). apply (ml_true g t W ml ML _ zc Cc Ec). rewrite getleaf_level. lia. }
  set (f1 := sub1 o (h 0%nat) (h 1%nat) (h 2%nat)). set (f2 := sub2 o (h 0%nat) (h 1%nat) (h 2%nat)).
  assert (HS : In f1 (upto (cnt1 dim ml o)) /\ In f2 (upto (cnt2 dim ml o))).
  { pose proof (H01 0%nat). pose proof (H01 1%nat). pose proof (H01 2%nat). pose proof (H0 1%nat) as Z1. pose proof (H0 2%nat) as Z2. clear -Ho Hml H H1 H2 Z1 Z2 Vg. pose proof D13 as V. destruct o as [[o1 o2] o3]. destruct Ho as (R1 & R2 & R3 & D2 & D3 & Hn). rewrite !(in_upto g). unfold f1, f2, sub1, sub2, cnt1, cnt2, nf1, nf2, dtype, nz. rewrite Hml. cbn [andb].
    destruct (Nat.leb_spec 2 dim), (Nat.leb_spec 3 dim); destruct (Z.eqb_spec o1 0), (Z.eqb_spec o2 0), (Z.eqb_spec o3 0); cbn [plus Z.of_nat]; lia. }
  destruct HS as [S1 S2]. destruct (finer_leaf g Vg NP t W Bt ml ML a za o m f1 f2 Ho Ca Ka Hnb Hk S1 S2) as (_ & (zc & Ec) & _). destruct (slot_ex g Vg ml o f1 f2 Ho S1 S2) as (k & Ek).
  exists (mkn (getleaf m o false f1 f2) zc o k (slot dim ml (opp3 o) 0 0) f1 f2). destruct (mkn_fields (getleaf m o false f1 f2) zc o k (slot dim ml (opp3 o) 0 0) f1 f2) as (F1 & _ & F3 & _).
  split; [|split; [exact F3|split]].
  - exists o, m. split; [apply (dirs_iff dim o D13), Ho|]. split; [exact Hnb|]. right. left. split; [exact Hk|]. exists f1, f2, zc, k. repeat (split; [assumption|]). reflexivity.
  - rewrite F1, getleaf_level. lia.
  - intros d Hd Hz. rewrite fsel_tang, F3. assert (X : n_f1 (mkn (getleaf m o false f1 f2) zc o k (slot dim ml (opp3 o) 0 0) f1 f2) = f1 /\ n_f2 (mkn (getleaf m o false f1 f2) zc o k (slot dim ml (opp3 o) 0 0) f1 f2) = f2) by (destruct o as [[? ?] ?]; split; reflexivity). destruct X as [-> ->].
    clear -Hd Hz Ho. destruct o as [[o1 o2] o3]. destruct Ho as (_ & _ & _ & _ & _ & Hn). unfold tang, f1, f2, sub1, sub2, dtype, nz. cbn [dd] in Hz. destruct d as [|[|[|d]]]; [| | |lia]; rewrite Hz; cbn [Z.eqb]; destruct (Z.eqb_spec o1 0), (Z.eqb_spec o2 0), (Z.eqb_spec o3 0); cbn [plus orb]; try reflexivity; lia.
Qed.
Lemma finer_unique : forall e1 e2, E a e1 -> E a e2 -> level (n_loc e1) = S (level a) -> level (n_loc e2) = S (level a) -> entry_dir e1 = entry_dir e2 -> (forall d, (d < dim)%nat -> dd (entry_dir e1) d = 0 -> fsel e1 d = fsel e2 d) -> e1 = e2.
Proof using Vg NP NS W Bt ML Ha.
  intros e1 e2 H1 H2 L1 L2 Ed Hf. apply entry_unique; try assumption. destruct (finer_level_of e1 H1 L1) as (_ & (_ & F1 & m1 & M1 & C1 & X1) & _). destruct (finer_level_of e2 H2 L2) as (_ & (_ & F2 & m2 & M2 & C2 & X2) & _).
  destruct (entry_dir_ok e1 H1) as (Ho & _). assert (Em : m1 = m2). { apply (nbpos_det (entry_dir e1) m1 m2 Ho); [destruct M1 as (A1 & A2 & A3)|destruct M2 as (A1 & A2 & A3)]; (split; [exact A1|]; split; [exact A2|]); intros d Hd; [rewrite <- edir_entry, <- off_dir|rewrite Ed, <- edir_entry, <- off_dir]; apply A3, Hd. }
  subst m2. apply loc_ext2; [congruence|]. intros d Hd. rewrite X1, X2 by exact Hd. unfold bitf. assert (Eo : ox e1 d = dd (entry_dir e1) d /\ ox e2 d = dd (entry_dir e1) d) by (rewrite Ed at 2; split; reflexivity). destruct Eo as [-> ->]. destruct (Z.eqb_spec (dd (entry_dir e1) d) 0) as [Hz|Hz]; [|reflexivity]. destruct (Nat.lt_ge_cases d dim) as [L|L]; [rewrite (Hf d L Hz); reflexivity|].
  assert (Z1 : coord d (n_loc e1) = 0 /\ coord d (n_loc e2) = 0). { split; [destruct (entry_block g Vg NP t W Bt ml ML a e1 Ha H1) as [Hb _]|destruct (entry_block g Vg NP t W Bt ml ML a e2 Ha H2) as [Hb _]]; apply (in_blocks g t _ W) in Hb as [Cb (zb & Kb)]; destruct (leaf_level g t _ zb W Cb Kb) as [Db _]; apply (Db d Hd); exact L. }
  pose proof (X1 d Hd) as Y1. pose proof (X2 d Hd) as Y2. unfold bitf in Y1, Y2. change (ox e1 d) with (dd (entry_dir e1) d) in Y1. change (ox e2 d) with (dd (entry_dir e2) d) in Y2. rewrite <- Ed in Y2. rewrite Hz in Y1, Y2. cbn [Z.eqb] in Y1, Y2. lia.
Qed.
(** The flag of an edge. *)
Lemma flag_iff : forall o, odir g o -> (edge_flag g t a o = true <-> forall o', In o' (around o) -> nblevel g t a o' <> lev + 1).
Proof using Vg NP NS W Bt Ha.
  intros o Ho. pose proof (fun o' => around_odir o o' Ho) as Hin.
  unfold edge_flag, count_fine. pose proof (count_ok (nblevel g t a) (level a) (around o) 0 false (fun o' H => nblevel_le o' (Hin o' H))) as Q. cbn zeta iota in Q. rewrite Q. clear Q.
  destruct (existsb _ (around o)) eqn:Ex; cbn [snd].
  - split; [intros X; apply Z.eqb_eq in X; lia|]. intros H. exfalso. apply existsb_exists in Ex as (o' & H1 & H2). apply Z.eqb_eq in H2. exact (H o' H1 H2).
  - split; [|intros _; apply Z.eqb_refl]. intros _ o' H1 H2. assert (X : existsb (fun o => Z.eqb (nblevel g t a o) (lev + 1)) (around o) = true) by (apply existsb_exists; exists o'; split; [exact H1|apply Z.eqb_eq, H2]). congruence.
Qed.
Lemma nedge_ok : forall o, odir g o -> nedge_fine g t a o = if edge_flag g t a o then cnt (fun o' => Z.eqb (nblevel g t a o') lev) (around o) else cnt (fun o' => Z.eqb (nblevel g t a o') (lev + 1)) (around o).
Proof using Vg NP NS W Bt Ha.
  intros o Ho. pose proof (fun o' => around_odir o o' Ho) as Hin.
  unfold nedge_fine, edge_flag, count_fine. pose proof (count_ok (nblevel g t a) (level a) (around o) 0 false (fun o' H => nblevel_le o' (Hin o' H))) as Q. cbn zeta iota in Q. rewrite Q. clear Q.
  destruct (existsb _ (around o)); cbn [fst snd]; [destruct (Z.eqb_spec (lev + 1) lev); [lia|reflexivity]|rewrite Z.eqb_refl; reflexivity].
Qed.
End A.

(** Positions around a shared edge, seen from two blocks. *)
Lemma nbpos_compose : forall a b m o o', In a bs -> neighbour_position g a o b -> neighbour_position g b o' m -> (forall d, (d < dim)%nat -> o' d = 0 \/ o' d = - o d) -> neighbour_position g a (fun d => o d + o' d) m.
Proof using Vg W.
  intros a b m o o' Ha (A1 & A2 & A3) (B1 & B2 & B3) H. apply (in_blocks g t a W) in Ha as [Ca (za & Ka)]. destruct (leaf_level g t a za W Ca Ka) as [Da Ra]. split; [congruence|]. split; [exact B2|]. intros d Hd.
  destruct (A3 d Hd) as (s1 & P1 & E1). destruct (B3 d Hd) as (s2 & P2 & E2). rewrite A1 in P2. pose proof D13 as V.
  assert (R : forall x, in_domain g x -> level x = level a -> 0 <= coord d x < gnrb g d * 2 ^ Z.of_nat (level a - groot g)). { intros x Dx Lx. pose proof (dom_inr g x d ltac:(lia) Dx ltac:(lia)) as X. unfold inr, nmax in X. rewrite (proj2 (Nat.ltb_lt _ _) Hd), Lx in X. exact X. }
  pose proof (R a Da eq_refl). pose proof (R b A2 A1). pose proof (R m B2 ltac:(congruence)). set (N := gnrb g d * 2 ^ Z.of_nat (level a - groot g)) in *. clearbody N. unfold period_shift in *.
  destruct (H d Hd) as [Z0|Z0].
  - assert (s2 = 0) by lia. exists s1. split; [exact P1|lia].
  - exists 0. split; [left; reflexivity|]. lia.
Qed.
Lemma flag_sym : forall a e b e', In a bs -> E a e -> same_nb g a e -> b = n_loc e -> entry_dir e' = opp3 (entry_dir e) -> edge_flag g t a (entry_dir e) = true -> edge_flag g t b (entry_dir e') = true.
Proof using Vg NP NS W Bt ML.
  intros a e b e' Ha He (Sl & Sp) Eb Ee Hf. destruct (entry_dir_ok a Ha e He) as (Ho & _). pose proof (proj1 (proj1 (okdir_odir _) Ho)) as Od. assert (Hb : In b bs) by (rewrite Eb; apply (entry_block g Vg NP t W Bt ml ML a e Ha He)).
  assert (Od' : odir g (opp3 (entry_dir e))). { destruct Od as [O1 O2]. split; [intros d; rewrite dd_opp; specialize (O1 d); lia|intros d H1 H2; rewrite dd_opp, (O2 d H1 H2); reflexivity]. }
  rewrite Ee. apply (flag_iff b Hb _ Od'). intros o' Hin Hl. rewrite (flag_iff a Ha _ Od) in Hf.
  pose proof (around_odir _ o' Od' Hin) as Ho'.
  destruct (odir_cases o' Ho') as [->|Ok']. { rewrite nblevel_zero in Hl. lia. } pose proof (proj1 (in_around_of _ o' Od') Hin) as Hin0. clear Hin. rename Hin0 into Hin. apply (nblevel_fine b Hb o' Ok') in Hl as (m & Hm & Hk).
  assert (Hc : neighbour_position g a (fun d => off e d + od o' d) m). { apply (nbpos_compose a b m (off e) (od o') Ha); [rewrite Eb; exact Sp|exact Hm|]. intros d Hd. rewrite od_dd. change (off e d) with (dd (entry_dir e) d). destruct (Hin d ltac:(pose proof D13; lia)) as [X|X]; [left; exact X|right; rewrite X, dd_opp; reflexivity]. }
  set (o2 := (dd (entry_dir e) 0%nat + dd o' 0%nat, dd (entry_dir e) 1%nat + dd o' 1%nat, dd (entry_dir e) 2%nat + dd o' 2%nat)).
  assert (E2 : forall d, (d < 3)%nat -> dd o2 d = dd (entry_dir e) d + dd o' d) by (intros d Hd; destruct d as [|[|[|d]]]; try reflexivity; lia).
  assert (Hin2 : In o2 (around (entry_dir e))). { apply (proj2 (in_around_of _ o2 Od)). intros d Hd. rewrite (E2 d Hd). destruct (Hin d Hd) as [X|X]; rewrite X; rewrite ?dd_opp; [right; lia|left; lia]. }
  assert (Hm2 : neighbour_position g a (od o2) m). { destruct Hc as (M1 & M2 & M3). split; [exact M1|]. split; [exact M2|]. intros d Hd. destruct (M3 d Hd) as (s & P & Q). exists s. split; [exact P|]. rewrite od_dd, E2 by (pose proof D13; lia). rewrite od_dd in Q. exact Q. }
  apply (Hf o2 Hin2). pose proof (around_odir _ o2 Od Hin2) as Od2.
  destruct (odir_cases o2 Od2) as [Z0|Ok2].
  - exfalso. destruct Hm2 as (M1 & M2 & M3). apply (in_blocks g t a W) in Ha as [Ca (za & Ka)]. destruct (leaf_level g t a za W Ca Ka) as [Da Ra]. assert (m = a); [|subst m; congruence]. apply loc_ext2; [exact M1|]. intros d Hd. destruct (Nat.lt_ge_cases d dim) as [L|L].
    + destruct (M3 d L) as (s & P & Q). rewrite Z0 in Q. rewrite od_dd in Q. assert (Y : dd (0, 0, 0) d = 0) by (destruct d as [|[|d]]; reflexivity). rewrite Y in Q. pose proof (dom_inr g a d Ra Da Hd) as X1. pose proof (dom_inr g m d ltac:(lia) M2 Hd) as X2. unfold inr, nmax in X1, X2. rewrite (proj2 (Nat.ltb_lt _ _) L) in X1, X2. rewrite M1 in X2. unfold period_shift in P. lia.
    + destruct (Da d Hd) as (_ & _ & Y1). destruct (M2 d Hd) as (_ & _ & Y2). rewrite Y1, Y2 by exact L. reflexivity.
  - apply (nblevel_fine a Ha o2 Ok2). exists m. split; assumption.
Qed.
End N.
