(** Neighbour lists in the words of the specification: completeness, messages. *)
From Coq Require Import List Arith NArith ZArith Bool Lia Permutation.
From Verif Require Import Loc LB_Spec Tags_Model Tags_Spec Tags_Proofs AMR_Model AMR_Spec AMR_Proofs AMR_Proofs2 Tree_Model Tree_Spec Tree_Proofs1 Tree_Proofs2 Tree_Proofs3 Tree_Proofs4 Tree_Proofs5 Tree_Proofs6 Tree_Proofs7 Tree_Proofs8 Tree_Restart Tree_Proofs9 Tree_Proofs10 Nbr_Model Nbr_Spec Nbr_Proofs.
Import ListNotations.
Local Open Scope nat_scope.

Section N.
Variable g : grid.
Hypothesis Vg : valid_grid g.
Hypothesis NP : no_pole g.
Hypothesis NS : no_shear g.
Variable t : tree.
Hypothesis W : wf g t.
Hypothesis Bt : B g t.
Variable ml : bool.
Hypothesis ML : declared g ml (blocks t).
Local Notation dim := (gdim g).
Local Notation E := (E g t ml).

Lemma off_dir : forall e d, off e d = od (edir e) d.
Proof. intros e d. destruct d as [|[|d]]; reflexivity. Qed.
Lemma lists : forall a, In a (blocks t) -> exists za ns, canon a /\ K t a = KLeaf za /\ SearchAndSetNeighbors g ml t a = Some ns /\ (forall e, In e ns <-> E a e) /\ NoDup (map n_bufid ns).
Proof.
  intros a Ha. apply (in_blocks g t a W) in Ha as [Ca (za & Hk)]. destruct (search_all g Vg NP NS t W Bt ml ML a za Ca Hk) as (ns & H1 & H2 & H3). exists za, ns. split; [exact Ca|]. split; [exact Hk|]. split; [exact H1|]. split; [exact H2|exact H3].
Qed.
Lemma spec_pos : forall a o m, In a (blocks t) -> okdir dim o -> nb g a (od o) m <-> neighbour_position g a (od o) m.
Proof.
  intros a o m Ha Ho. apply (in_blocks g t a W) in Ha as [Ca (za & Hk)]. destruct (leaf_level g t a za W Ca Hk) as [Da Ra]. symmetry. apply (nbpos_nb g Vg a (od o) m Da Ra).
  intros d Hd. destruct o as [[o1 o2] o3]. destruct (dir_offs3 g Vg o1 o2 o3 Ho) as (O1 & O2 & O3). destruct d as [|[|[|d]]]; assumption || lia.
Qed.
Lemma find_index_lt : forall b l i k, find_index b l i = Some k -> k < i + length l.
Proof. intros b l. induction l as [|x l IH]; intros i k; cbn [find_index length]; [discriminate|]. destruct (Z.eqb b x); [intros H; injection H as <-; lia|]. intros H. apply IH in H. lia. Qed.
Lemma slot56 : forall m o f1 f2 k, slot dim m o f1 f2 = Some k -> k < 56.
Proof.
  intros m [[o1 o2] o3] f1 f2 k H. unfold slot, FindBufferID in H. apply find_index_lt in H. unfold bufids in H. rewrite map_length in H. pose proof (slots_56 dim m (dim13 g Vg)). lia.
Qed.
Lemma entry_facts : forall a e, In a (blocks t) -> E a e -> points_to g a e /\ n_polar e = false /\ n_shear e = false /\ okdir dim (edir e) /\ n_type e = dtype (edir e) /\ n_bufid e < 56.
Proof.
  intros a e Ha (o & m & Hin & Hnb & HE). pose proof Hin as Ho. apply (dirs_iff dim o (dim13 g Vg)) in Ho. pose proof Ha as Ha'. apply (in_blocks g t a W) in Ha' as [Ca (za & Hk)]. destruct (leaf_level g t a za W Ca Hk) as [Da Ra].
  pose proof (nb_dom g Vg a _ m Da Ra Hnb) as Dm. assert (Lm : level m = level a) by apply Hnb.

  assert (Hp : forall x, n_loc e = x -> edir e = o -> (x = m \/ In x (children dim m) \/ In m (children dim x)) -> points_to g a e).
  { intros x Ex Ee H. exists m. split; [|rewrite Ex; exact H]. assert (Hn : neighbour_position g a (od o) m) by (apply spec_pos; assumption). destruct Hn as (N1 & N2 & N3). split; [exact N1|]. split; [exact N2|]. intros d Hd. destruct (N3 d Hd) as (s & S1 & S2). exists s. split; [exact S1|]. rewrite off_dir, Ee. exact S2. }
  assert (Hm : forall c z k ts f1 f2 f3 f4, slot dim ml o f3 f4 = Some k -> e = mkn c z o k ts f1 f2 -> (c = m \/ In c (children dim m) \/ In m (children dim c)) ->
     points_to g a e /\ n_polar e = false /\ n_shear e = false /\ okdir dim (edir e) /\ n_type e = dtype (edir e) /\ n_bufid e < 56).
  { intros c z k ts f1 f2 f3 f4 Hs He Hc. destruct (mkn_fields c z o k ts f1 f2) as (F1 & F2 & F3 & F4 & F5 & F6). rewrite <- He in *. split; [apply (Hp c); assumption|]. rewrite F3, F4, F6. rewrite He. pose proof (slot56 _ _ _ _ _ Hs). destruct o as [[o1 o2] o3]. split; [reflexivity|]. split; [reflexivity|]. split; [exact Ho|]. split; [reflexivity|assumption]. }
  destruct HE as [(z & k & Em & Ek & He)|[(Em & f1 & f2 & z & k & H1 & H2 & Ec & Ek & He)|(Em & Li & z & k & Eb & Ek & He)]].
  - apply (Hm _ _ _ _ _ _ _ _ Ek He). left. reflexivity.
  - apply (Hm _ _ _ _ _ _ _ _ Ek He). right. left. destruct (getleaf_child g Vg t ml ML m o f1 f2 Ho H1 H2) as (j & Hj & ->). apply in_map, in_seq. lia.
  - apply (Hm _ _ _ _ _ _ _ _ Ek He). right. right. destruct (dom_child_of g m Dm) as (j & Hj & Ej).
    { assert (groot g < level m); [|lia]. destruct (Nat.lt_ge_cases (groot g) (level m)); [assumption|]. contradiction (wf_root g t W m Dm ltac:(assumption)). }
    rewrite Ej at 1. apply in_map, in_seq. lia.
Qed.
(** ** Every block that touches a block is listed by it *)
Lemma nb_from_shift : forall a o P, In a (blocks t) -> in_domain g P -> level P = level a -> okdir dim o ->
  (forall d, d < dim -> exists s, period_shift g d (gnrb g d * 2 ^ Z.of_nat (level a - groot g)) s /\ coord d P = (coord d a + od o d + s)%Z) -> nb g a (od o) P.
Proof. intros a o P Ha DP LP Ho H. apply spec_pos; [exact Ha|exact Ho|]. split; [exact LP|]. split; [exact DP|exact H]. Qed.
(** the displacement, direction by direction *)
Lemma touch_disp : forall (k : nat) (N A b s : Z), k <= 1 -> (s = 0 \/ s = N * 2 ^ Z.of_nat k \/ s = - (N * 2 ^ Z.of_nat k))%Z ->
  (A * 2 ^ Z.of_nat k <= b + 1 + s)%Z -> (b + s <= (A + 1) * 2 ^ Z.of_nat k)%Z ->
  exists o s', (-1 <= o <= 1)%Z /\ (s' = 0 \/ s' = N \/ s' = - N)%Z /\ (s = 0 -> s' = 0)%Z /\ (b / 2 ^ Z.of_nat k = A + o - s')%Z /\ (k = 1 -> (o = -1 -> myf b = 1)%Z /\ (o = 1 -> myf b = 0)%Z).
Proof.
  intros k N A b s Hk Hs H1 H2. assert (E : k = 0 \/ k = 1) by lia. destruct E as [->| ->].
  - change (2 ^ Z.of_nat 0)%Z with 1%Z in *. rewrite Z.div_1_r. exists (b + s - A)%Z, s. repeat split; lia.
  - change (2 ^ Z.of_nat 1)%Z with 2%Z in *. pose proof (myf_div g b) as Eb. pose proof (myf_01 b) as Hb. set (q := (b / 2)%Z) in *. set (r := myf b) in *. clearbody q r.
    destruct Hs as [->|[->| ->]]; [exists (q - A)%Z, 0%Z|exists (q + N - A)%Z, N|exists (q - N - A)%Z, (- N)%Z]; repeat split; lia.
Qed.
Lemma touch_listed_finer : forall a b, In a (blocks t) -> In b (blocks t) -> a <> b -> level a <= level b <= level a + 1 -> touch g a b -> exists e, E a e /\ n_loc e = b.
Proof.
  intros a b Ha Hb Hne Hl T. pose proof Ha as Ha'. pose proof Hb as Hb'. apply (in_blocks g t a W) in Ha' as [Ca (za & Ka)]. apply (in_blocks g t b W) in Hb' as [Cb (zb & Kb)].
  destruct (leaf_level g t a za W Ca Ka) as [Da Ra]. destruct (leaf_level g t b zb W Cb Kb) as [Db Rb].
  set (k := level b - level a). assert (Hk : k <= 1) by (unfold k; lia).
  set (P := anc k b). assert (LP : level P = level a) by (unfold P, k; cbn [anc level]; lia).
  assert (KP : K t P <> KNull). { unfold P. destruct (Nat.eq_dec k 0) as [E0|E0]; [rewrite E0; replace (anc 0 b) with b; [congruence|]; apply (coord_ext g); [cbn [anc level]; lia|intros d _; rewrite coord_anc; change (2 ^ Z.of_nat 0)%Z with 1%Z; rewrite Z.div_1_r; reflexivity]|]. rewrite (K_anc t k b) by (lia || congruence). discriminate. }
  assert (CP : canon P) by (unfold P; apply canon_anc; [exact Cb|lia]). pose proof (wf_dom g t W P CP KP) as DP.
  assert (HD : forall d, d < dim -> exists o s', (-1 <= o <= 1)%Z /\ period_shift g d (gnrb g d * 2 ^ Z.of_nat (level a - groot g)) s' /\ coord d P = (coord d a + o + s')%Z /\ (k = 1 -> (o = -1 -> myf (coord d b) = 1)%Z /\ (o = 1 -> myf (coord d b) = 0)%Z)).
  { intros d Hd. destruct (T d Hd) as (s & Hs & T1 & T2). set (N := (gnrb g d * 2 ^ Z.of_nat (level a - groot g))%Z).
    assert (EN : (gnrb g d * 2 ^ Z.of_nat (level a + level b - groot g) = N * 2 ^ Z.of_nat k * 2 ^ Z.of_nat (level a))%Z).
    { unfold N, k. rewrite <- !Z.mul_assoc, <- !Z.pow_add_r by lia. f_equal. f_equal. lia. }
    rewrite EN in Hs. assert (El : (2 ^ Z.of_nat (level b) = 2 ^ Z.of_nat k * 2 ^ Z.of_nat (level a))%Z) by (unfold k; rewrite <- Z.pow_add_r by lia; f_equal; lia). rewrite El in T1, T2.
    pose proof (pow2_pos (level a)) as Hp. set (u := (2 ^ Z.of_nat (level a))%Z) in *. clearbody u. set (M := (N * 2 ^ Z.of_nat k)%Z) in *.
    assert (Hs0 : exists s0, s = (s0 * u)%Z /\ (s0 = 0 \/ s0 = M \/ s0 = - M)%Z). { destruct Hs as [->|(_ & _ & [->| ->])]; [exists 0%Z|exists M|exists (- M)%Z]; split; try tauto; lia. }
    destruct Hs0 as (s0 & -> & Hs0).
    destruct (touch_disp k N (coord d a) (coord d b) s0 Hk Hs0) as (o & s' & O1 & O2 & O3 & O4 & O5); [clear - Hp T1; apply (Z.mul_le_mono_pos_r _ _ u Hp); lia|clear - Hp T2; apply (Z.mul_le_mono_pos_r _ _ u Hp); lia|].
    exists o, (- s')%Z. split; [exact O1|]. split; [|split; [unfold P; rewrite coord_anc; clear - O4; lia|exact O5]].
    destruct (Z.eq_dec s0 0) as [Z0|Z0]; [left; rewrite (O3 Z0); reflexivity|]. destruct Hs as [Hs|(P1 & P2 & _)]; [exfalso; clear - Hs Hp Z0; apply Z.mul_eq_0 in Hs; lia|]. destruct O2 as [->|[->| ->]]; [left; reflexivity|right; repeat split; try assumption; right; reflexivity|right; repeat split; try assumption; left; lia]. }
  assert (HO : exists o, (forall d, (-1 <= od o d <= 1)%Z) /\ (forall d, dim <= d -> d < 3 -> od o d = 0%Z) /\ forall d, d < dim -> exists s', period_shift g d (gnrb g d * 2 ^ Z.of_nat (level a - groot g)) s' /\ coord d P = (coord d a + od o d + s')%Z /\ (k = 1 -> (od o d = -1 -> myf (coord d b) = 1)%Z /\ (od o d = 1 -> myf (coord d b) = 0)%Z)).
  { pose proof (dim13 g Vg) as D13. destruct (HD 0 ltac:(lia)) as (o1 & s1 & H1).
    assert (H2 : exists o2, (-1 <= o2 <= 1)%Z /\ (dim <= 1 -> o2 = 0%Z) /\ (1 < dim -> exists s', period_shift g 1 (gnrb g 1 * 2 ^ Z.of_nat (level a - groot g)) s' /\ coord 1 P = (coord 1 a + o2 + s')%Z /\ (k = 1 -> (o2 = -1 -> myf (coord 1 b) = 1)%Z /\ (o2 = 1 -> myf (coord 1 b) = 0)%Z))).
    { destruct (Nat.lt_ge_cases 1 dim) as [Hd|Hd]; [destruct (HD 1 Hd) as (o2 & s2 & A & H2); exists o2; split; [exact A|]; split; [lia|intros _; exists s2; exact H2]|exists 0%Z; split; [lia|split; [reflexivity|lia]]]. }
    assert (H3 : exists o3, (-1 <= o3 <= 1)%Z /\ (dim <= 2 -> o3 = 0%Z) /\ (2 < dim -> exists s', period_shift g 2 (gnrb g 2 * 2 ^ Z.of_nat (level a - groot g)) s' /\ coord 2 P = (coord 2 a + o3 + s')%Z /\ (k = 1 -> (o3 = -1 -> myf (coord 2 b) = 1)%Z /\ (o3 = 1 -> myf (coord 2 b) = 0)%Z))).
    { destruct (Nat.lt_ge_cases 2 dim) as [Hd|Hd]; [destruct (HD 2 Hd) as (o3 & s3 & A & H3); exists o3; split; [exact A|]; split; [lia|intros _; exists s3; exact H3]|exists 0%Z; split; [lia|split; [reflexivity|lia]]]. }
    destruct H2 as (o2 & R2 & Z2 & H2). destruct H3 as (o3 & R3 & Z3 & H3). destruct H1 as (R1 & H1). exists (o1, o2, o3). split; [|split].
    - intros d. destruct d as [|[|d]]; assumption.
    - intros d Hd Hd3. destruct d as [|[|d]]; [lia|apply Z2, Hd|apply Z3; lia].
    - intros d Hd. destruct d as [|[|[|d]]]; [exists s1; exact H1|apply H2, Hd|apply H3, Hd|lia]. }
  destruct HO as (o & OR & OZ & HO).
  destruct (Z.eq_dec (od o 0) 0) as [E0|E0]; [destruct (Z.eq_dec (od o 1) 0) as [E1|E1]; [destruct (Z.eq_dec (od o 2) 0) as [E2|E2]|]|].
  { exfalso. assert (EP : P = a). { apply (coord_ext g); [exact LP|]. intros d Hd. destruct (Nat.lt_ge_cases d dim) as [Hdd|Hdd].
      - assert (Ez : od o d = 0%Z) by (destruct d as [|[|[|d]]]; assumption || lia). destruct (HO d Hdd) as (s' & S1 & S2 & _). pose proof (dom_inr g a d Ra Da Hd) as I1. pose proof (dom_inr g P d ltac:(lia) DP Hd) as I2. rewrite LP in I2. unfold inr, nmax in I1, I2. destruct (Nat.ltb_spec d dim); [|lia].
        set (N := (gnrb g d * 2 ^ Z.of_nat (level a - groot g))%Z) in *. clearbody N. destruct S1 as [->|(_ & _ & [->| ->])]; lia.
      - destruct (Da d Hd) as (_ & _ & A0). destruct (DP d Hd) as (_ & _ & P0). rewrite (A0 Hdd), (P0 Hdd). reflexivity. }
    destruct (Nat.eq_dec k 0) as [K0|K0].
    - apply Hne. rewrite <- EP. unfold P. rewrite K0. apply (coord_ext g); [cbn [anc level]; lia|intros d _; rewrite coord_anc; change (2 ^ Z.of_nat 0)%Z with 1%Z; rewrite Z.div_1_r; reflexivity].
    - assert (Kn : K t P = KNode) by (unfold P; apply K_anc; [lia|lia|congruence]). rewrite EP, Ka in Kn. discriminate Kn. }
  all: assert (Ho : okdir dim o) by (pose proof (OR 0); pose proof (OR 1); pose proof (OR 2); pose proof (OZ 1); pose proof (OZ 2); pose proof (dim13 g Vg); destruct o as [[o1 o2] o3]; cbn [od off3] in *; unfold okdir; repeat split; lia).
  all: assert (Hnb : nb g a (od o) P) by (apply nb_from_shift; try assumption; intros d Hd; destruct (HO d Hd) as (s' & S1 & S2 & _); exists s'; split; assumption).
  all: pose proof Ho as Hin; apply (dirs_iff dim o (dim13 g Vg)) in Hin.
  all: destruct (Nat.eq_dec k 0) as [K0|K0].
  all: try (assert (EP : P = b) by (unfold P; rewrite K0; apply (coord_ext g); [cbn [anc level]; lia|intros d _; rewrite coord_anc; change (2 ^ Z.of_nat 0)%Z with 1%Z; rewrite Z.div_1_r; reflexivity]);
    destruct (slot_ex0 g Vg ml o Ho) as (kk & Ek); exists (mkn b zb o kk (slot dim ml (opp3 o) 0 0) 0 0); split; [|apply mkn_fields]; exists o, P; split; [exact Hin|]; split; [exact Hnb|]; left; exists zb, kk; rewrite EP; repeat split; assumption).
  all: assert (K1 : k = 1) by lia; assert (EP : P = anc 1 b) by (unfold P; rewrite K1; reflexivity).
  all: assert (Hml : ml = true) by (apply (ml_true g t W ml ML b zb Cb Kb); unfold k in K1; lia).
  all: destruct (sub_range g Vg ml o Ho Hml b Db) as [S1 S2]; cbn [coord] in S1, S2.
  all: set (p1 := sub1 o (myf (lx1 b)) (myf (lx2 b)) (myf (lx3 b))) in *; set (p2 := sub2 o (myf (lx1 b)) (myf (lx2 b)) (myf (lx3 b))) in *.
  all: destruct (slot_ex g Vg ml o p1 p2 Ho S1 S2) as (kk & Ek).
  all: assert (Eb : b = getleaf P o false p1 p2) by (rewrite EP; apply (getleaf_self g b o Ho Db ltac:(unfold k in K1; lia)); intros d Hd Hnz; destruct (Nat.lt_ge_cases d dim) as [Hdd|Hdd]; [|contradiction (Hnz (OZ d Hdd Hd))];
      destruct (HO d Hdd) as (s' & _ & _ & Q); specialize (Q K1); specialize (OR d); unfold myo; assert (Hc : (od o d = -1 \/ od o d = 1)%Z) by lia; destruct Hc as [Hc|Hc]; [rewrite (proj1 Q Hc)|rewrite (proj2 Q Hc)]; lia).
  all: exists (mkn b zb o kk (slot dim ml (opp3 o) 0 0) p1 p2); split; [|apply mkn_fields]; exists o, P; split; [exact Hin|]; split; [exact Hnb|]; right; left; split; [rewrite EP; apply K_anc; [lia|unfold k in K1; lia|congruence]|]; exists p1, p2, zb, kk; rewrite <- Eb; repeat split; assumption.
Qed.
Lemma touch_listed : forall a b, In a (blocks t) -> In b (blocks t) -> a <> b -> touch g a b -> exists e, E a e /\ n_loc e = b.
Proof.
  intros a b Ha Hb Hne T. destruct (B_balanced g Vg NP t W Bt a b Ha Hb T) as [L1 L2]. destruct (Nat.le_gt_cases (level a) (level b)) as [Hle|Hgt]; [apply touch_listed_finer; try assumption; lia|].
  destruct (touch_listed_finer b a Hb Ha ltac:(congruence) ltac:(lia) (touch_sym g _ _ T)) as (e & He & Ee). pose proof Hb as Hb'. apply (in_blocks g t b W) in Hb' as [Cb (zb & Kb)].
  destruct (recip_ex g Vg NP t W Bt ml ML b zb e Cb Kb He) as (_ & _ & e' & He' & R). exists e'. rewrite Ee in He'. split; [exact He'|apply R].
Qed.
(** ** An entry is a block that touches *)
Lemma touch_from : forall a c m k, k <= 1 -> level c = level a + k -> groot g <= level a -> level m = level a ->
  (forall d, d < dim -> exists o s, period_shift g d (gnrb g d * 2 ^ Z.of_nat (level a - groot g)) s /\ coord d m = (coord d a + o + s)%Z /\ (-1 <= o <= 1)%Z /\
     exists bit, coord d c = (2 ^ Z.of_nat k * coord d m + bit)%Z /\ (0 <= bit <= 2 ^ Z.of_nat k - 1)%Z /\ (o = -1 -> bit = 2 ^ Z.of_nat k - 1)%Z /\ (o = 1 -> bit = 0)%Z) -> touch g a c.
Proof.
  intros a c m k Hk Lc Ra Lm H d Hd. destruct (H d Hd) as (o & s & Hs & Em & Ho & bit & Ec & Hb & B1 & B2). set (N := (gnrb g d * 2 ^ Z.of_nat (level a - groot g))%Z) in *.
  assert (EN : (gnrb g d * 2 ^ Z.of_nat (level a + level c - groot g) = N * 2 ^ Z.of_nat k * 2 ^ Z.of_nat (level a))%Z).
  { unfold N. rewrite <- !Z.mul_assoc, <- !Z.pow_add_r by lia. f_equal. f_equal. lia. }
  assert (El : (2 ^ Z.of_nat (level c) = 2 ^ Z.of_nat k * 2 ^ Z.of_nat (level a))%Z) by (rewrite <- Z.pow_add_r by lia; f_equal; lia).
  rewrite EN, El. pose proof (pow2_pos (level a)) as Hp. pose proof (pow2_pos k) as Hpk. exists (- s * 2 ^ Z.of_nat k * 2 ^ Z.of_nat (level a))%Z. set (u := (2 ^ Z.of_nat (level a))%Z) in *. set (w := (2 ^ Z.of_nat k)%Z) in *.
  split; [|split].
  - destruct Hs as [->|(P1 & P2 & [->| ->])]; [left; reflexivity|right; repeat split; try assumption; right; ring|right; repeat split; try assumption; left; ring].
  - rewrite Ec, Em. replace (coord d a * (w * u))%Z with (coord d a * w * u)%Z by ring. replace ((w * (coord d a + o + s) + bit + 1) * u + - s * w * u)%Z with ((coord d a * w + o * w + bit + 1) * u)%Z by ring. apply Z.mul_le_mono_nonneg_r; [lia|]. assert (Hc : (o = -1 \/ o = 0 \/ o = 1)%Z) by lia. destruct Hc as [->|[->| ->]]; [rewrite (B1 eq_refl)|..]; lia.
  - rewrite Ec, Em. replace ((coord d a + 1) * (w * u))%Z with ((coord d a * w + w) * u)%Z by ring. replace ((w * (coord d a + o + s) + bit) * u + - s * w * u)%Z with ((coord d a * w + o * w + bit) * u)%Z by ring. apply Z.mul_le_mono_nonneg_r; [lia|]. assert (Hc : (o = -1 \/ o = 0 \/ o = 1)%Z) by lia. destruct Hc as [->|[->| ->]]; [| |rewrite (B2 eq_refl)]; lia.
Qed.
Lemma entry_touch_finer : forall a e, In a (blocks t) -> E a e -> level a <= level (n_loc e) -> touch g a (n_loc e).
Proof.
  intros a e Ha (o & m & Hin & Hnb & HE) Hl. pose proof Hin as Ho. apply (dirs_iff dim o (dim13 g Vg)) in Ho. pose proof Ha as Ha'. apply (in_blocks g t a W) in Ha' as [Ca (za & Hk)]. destruct (leaf_level g t a za W Ca Hk) as [Da Ra].
  assert (Lm : level m = level a) by apply Hnb. pose proof (proj1 (spec_pos a o m Ha Ho) Hnb) as (_ & Dm & N3).
  destruct HE as [(z & k & Em & Ek & He)|[(Em & f1 & f2 & z & k & H1 & H2 & Ec & Ek & He)|(Em & Li & z & k & Eb & Ek & He)]].
  - destruct (mkn_fields m z o k (slot dim ml (opp3 o) 0 0) 0 0) as (F1 & _). rewrite He, F1. apply (touch_from a m m 0); try lia. intros d Hd. destruct (N3 d Hd) as (s & S1 & S2). exists (od o d), s. split; [exact S1|]. split; [exact S2|]. split; [apply (od_range g o d Ho)|]. exists 0%Z. change (2 ^ Z.of_nat 0)%Z with 1%Z. repeat split; lia.
  - destruct (mkn_fields (getleaf m o false f1 f2) z o k (slot dim ml (opp3 o) 0 0) f1 f2) as (F1 & _). rewrite He, F1. destruct (f_range g ml o f1 f2 H1 H2) as [G1 G2].
    apply (touch_from a (getleaf m o false f1 f2) m 1); try lia; [rewrite getleaf_level; lia|]. intros d Hd. destruct (N3 d Hd) as (s & S1 & S2). exists (od o d), s. split; [exact S1|]. split; [exact S2|]. pose proof (od_range g o d Ho) as Hr. split; [exact Hr|]. pose proof (dim13 g Vg). eexists. split; [change (2 ^ Z.of_nat 1)%Z with 2%Z; apply coord_getleaf; try assumption; lia|].
    change (2 ^ Z.of_nat 1)%Z with 2%Z. assert (Ht : (0 <= tang o f1 f2 d <= 1)%Z). { destruct o as [[o1 o2] o3]. unfold tang. destruct d as [|[|d]], (Z.eqb o1 0), (Z.eqb o2 0); cbn [orb]; lia. }
    destruct (Z.eqb_spec (od o d) 0), (Z.eqb_spec (od o d) (-1)); repeat split; lia.
  - destruct (mkn_fields (anc 1 m) z o k (slot dim ml (opp3 o) (sub1 o (myf (lx1 a)) (myf (lx2 a)) (myf (lx3 a))) (sub2 o (myf (lx1 a)) (myf (lx2 a)) (myf (lx3 a)))) 0 0) as (F1 & _). exfalso. rewrite He, F1 in Hl. unfold anc in Hl. cbn [level] in Hl.
    assert (groot g < level m); [|lia]. destruct (Nat.lt_ge_cases (groot g) (level m)); [assumption|]. contradiction (wf_root g t W m Dm ltac:(assumption)).
Qed.
Lemma entry_block : forall a e, In a (blocks t) -> E a e -> In (n_loc e) (blocks t) /\ touch g a (n_loc e).
Proof.
  intros a e Ha He. pose proof Ha as Ha'. apply (in_blocks g t a W) in Ha' as [Ca (za & Hk)]. destruct (recip_ex g Vg NP t W Bt ml ML a za e Ca Hk He) as (Cn & Kn & e' & He' & R).
  assert (Hn : In (n_loc e) (blocks t)) by (apply (in_blocks g t _ W); split; [exact Cn|exists (n_gid e); exact Kn]). split; [exact Hn|].
  destruct (Nat.le_gt_cases (level a) (level (n_loc e))) as [Hle|Hgt]; [apply entry_touch_finer; assumption|]. destruct R as (R1 & _). apply touch_sym. pose proof (entry_touch_finer (n_loc e) e' Hn He' ltac:(rewrite R1; lia)) as T. rewrite R1 in T. exact T.
Qed.
(** ** Finer neighbours as seen by CheckRefinementCondition *)
Lemma finer_iff : forall a, In a (blocks t) -> (finer_neighbour g t a = true <-> exists b, In b (blocks t) /\ touch g a b /\ level a < level b).
Proof.
  intros a Ha. pose proof Ha as Ha'. apply (in_blocks g t a W) in Ha' as [Ca (za & Hk)]. destruct (leaf_level g t a za W Ca Hk) as [Da Ra]. pose proof (dim13 g Vg) as D13. unfold finer_neighbour. rewrite existsb_exists. split.
  - intros ([[o1 o2] o3] & Hin & Hlt). apply Z.ltb_lt in Hlt. unfold nblevel in Hlt. destruct (Z.eqb o1 0 && Z.eqb o2 0 && Z.eqb o3 0) eqn:E0; [lia|].
    assert (Ho : okdir dim (o1, o2, o3)).
    { apply in_flat_map in Hin as (k & Hk3 & Hin). apply in_flat_map in Hin as (j & Hj & Hin). apply in_map_iff in Hin as (i & Ei & Hi). injection Ei as -> -> ->. cbn [In] in Hi. unfold offs in Hk3, Hj. unfold okdir.
      rewrite !andb_false_iff, !Z.eqb_neq in E0. destruct (Nat.ltb_spec 1 dim), (Nat.ltb_spec 2 dim); cbn [In] in Hj, Hk3; repeat split; lia. }
    destruct (dir_offs3 g Vg o1 o2 o3 Ho) as (O1 & O2 & O3). destruct (FindNeighborLoc g a o1 o2 o3) as [m|] eqn:EL; [|unfold FindNeighbor in Hlt; rewrite EL in Hlt; lia].
    apply (fnl_nb g Vg NP NS) in EL; try assumption. assert (Hnb : nb g a (od (o1, o2, o3)) m) by exact EL. assert (Lm : level m = level a) by apply Hnb.
    destruct (find_leaf g Vg NP t a za o1 o2 o3 m false W Bt Ca Hk EL) as (r & Er & [[-> Hm]|(Hgm & -> & (z' & Ez'))]); rewrite Er in Hlt.
    + destruct (K t m) as [|zm|] eqn:Em; [contradiction Hm; reflexivity|rewrite (find_kind t m zm Em) in Hlt; lia|].
      pose proof (cnt_pos dim ml (o1, o2, o3)) as [P1 P2]. pose proof (upto0 _ (proj1 P1)) as U1. pose proof (upto0 _ (proj1 P2)) as U2. destruct (finer_leaf g Vg NP t W Bt ml ML a za (o1, o2, o3) m 0%Z 0%Z Ho Ca Hk Hnb Em U1 U2) as (Cc & (zc & Kc) & _).
      destruct (slot_ex g Vg ml (o1, o2, o3) 0%Z 0%Z Ho U1 U2) as (kk & Ek). set (c := getleaf m (o1, o2, o3) false 0 0) in *.
      assert (He : E a (mkn c zc (o1, o2, o3) kk (slot dim ml (opp3 (o1, o2, o3)) 0 0) 0 0)). { exists (o1, o2, o3), m. split; [apply (dirs_iff dim _ D13), Ho|]. split; [exact Hnb|]. right. left. split; [exact Em|]. exists 0%Z, 0%Z, zc, kk. repeat split; assumption. }
      destruct (entry_block a _ Ha He) as [Hb T]. exists c. split; [exact Hb|]. split; [exact T|]. unfold c. rewrite getleaf_level. lia.
    + rewrite (find_kind t _ _ Ez') in Hlt. unfold anc in Hlt. cbn [level] in Hlt. lia.
  - intros (b & Hb & T & Hl). destruct (touch_listed a b Ha Hb ltac:(intros ->; lia) T) as (e & (o & m & Hin & Hnb & HE) & Ee). pose proof Hin as Ho. apply (dirs_iff dim o D13) in Ho. assert (Lm : level m = level a) by apply Hnb.
    destruct o as [[o1 o2] o3]. exists (o1, o2, o3). split.
    + destruct Ho as (R1 & R2 & R3 & D2 & D3 & _). apply in_flat_map. exists o3. split; [unfold offs; destruct (Nat.ltb_spec 2 dim); cbn [In]; lia|]. apply in_flat_map. exists o2. split; [unfold offs; destruct (Nat.ltb_spec 1 dim); cbn [In]; lia|]. apply in_map_iff. exists o1. split; [reflexivity|]. cbn [In]. lia.
    + apply Z.ltb_lt. unfold nblevel. destruct (Z.eqb o1 0 && Z.eqb o2 0 && Z.eqb o3 0) eqn:E0; [exfalso; rewrite !andb_true_iff, !Z.eqb_eq in E0; destruct Ho as (_ & _ & _ & _ & _ & Hn); lia|].
      destruct HE as [(z & k & Em & Ek & He)|[(Em & f1 & f2 & z & k & H1 & H2 & Ec & Ek & He)|(Em & Li & z & k & Eb & Ek & He)]].
      * exfalso. rewrite He in Ee. destruct (mkn_fields m z (o1, o2, o3) k (slot dim ml (opp3 (o1, o2, o3)) 0 0) 0 0) as (F1 & _). rewrite F1 in Ee. subst b. lia.
      * destruct (find_leaf g Vg NP t a za o1 o2 o3 m false W Bt Ca Hk Hnb) as (r & Er & [[-> Hm]|(Hgm & -> & (z' & Ez'))]).
        { rewrite Er. destruct (find_node t m Em) as (zz & ch & ->). lia. }
        { exfalso. assert (Hn : K t m <> KNull) by congruence. apply (K_anc t 1 m) in Hn; try lia; congruence. }
      * exfalso. rewrite He in Ee. assert (Eb' : b = anc 1 m) by (rewrite <- Ee; apply mkn_fields). rewrite Eb' in Hl. assert (Lb : level (anc 1 m) = level m - 1) by reflexivity. lia.
Qed.
End N.
