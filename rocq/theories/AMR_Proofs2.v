(** Transfers are the overlapping pairs; distinct tags. *)
From Coq Require Import List Arith NArith ZArith Bool Lia.
From Verif Require Import Loc Tags_Model Tags_Proofs LB_Spec AMR_Model AMR_Spec AMR_Proofs.
Import ListNotations.
Local Open Scope nat_scope.

Lemma transfers_app : forall dim ps qs o n, transfers dim o n (ps ++ qs) =
  transfers dim o n ps ++ transfers dim (o + length (old_blocks dim ps)) (n + length (new_blocks dim ps)) qs.
Proof.
  intros dim. induction ps as [|p ps IH]; intros qs o n; cbn [app transfers]; [cbn; f_equal; lia|].
  rewrite IH, <- app_assoc, old_len_cons, new_len_cons. f_equal. f_equal. f_equal; lia.
Qed.
Lemma piece_tr_range : forall dim o n p t, In t (piece_tr dim o n p) ->
  o <= fst t < o + olen dim p /\ n <= snd t < n + nlen dim p.
Proof.
  intros dim o n p t. pose proof (nleaf_ge dim). destruct p as [l|l|l]; cbn [piece_tr olen nlen]; intros Ht.
  - destruct Ht as [<-|[]]. cbn [fst snd]. lia.
  - apply in_map_iff in Ht as (j & <- & Hj). apply in_seq in Hj. cbn [fst snd]. lia.
  - apply in_map_iff in Ht as (j & <- & Hj). apply in_seq in Hj. cbn [fst snd]. lia.
Qed.
Lemma in_transfers : forall dim ps o n t, In t (transfers dim o n ps) -> exists ps1 p ps2, ps = ps1 ++ p :: ps2 /\
  In t (piece_tr dim (o + length (old_blocks dim ps1)) (n + length (new_blocks dim ps1)) p).
Proof.
  intros dim. induction ps as [|p ps IH]; intros o n t Ht; [destruct Ht|]. cbn [transfers] in Ht.
  apply in_app_or in Ht as [Ht|Ht].
  - exists [], p, ps. split; [reflexivity|]. cbn [old_blocks new_blocks flat_map length]. rewrite !Nat.add_0_r. exact Ht.
  - destruct (IH _ _ _ Ht) as (ps1 & q & ps2 & -> & Hin). exists (p :: ps1), q, ps2. split; [reflexivity|].
    rewrite old_len_cons, new_len_cons, !Nat.add_assoc. exact Hin.
Qed.
Lemma transfers_range : forall dim ps o n t, In t (transfers dim o n ps) ->
  o <= fst t < o + length (old_blocks dim ps) /\ n <= snd t < n + length (new_blocks dim ps).
Proof.
  intros dim ps o n t Ht. destruct (in_transfers _ _ _ _ _ Ht) as (ps1 & p & ps2 & -> & Hin).
  apply piece_tr_range in Hin. destruct (blocks_app dim ps1 (p :: ps2)) as [-> ->]. rewrite !app_length, old_len_cons, new_len_cons. lia.
Qed.
Lemma NoDup_app2 : forall {A} (l m : list A), NoDup l -> NoDup m -> (forall x, In x l -> ~ In x m) -> NoDup (l ++ m).
Proof.
  intros A l m Hl Hm H. induction Hl as [|x l Hx Hl IH]; [exact Hm|]. cbn. constructor.
  - intros Hin. apply in_app_or in Hin as [Hin|Hin]; [contradiction|]. apply (H x); [left; reflexivity|exact Hin].
  - apply IH. intros y Hy. apply H. right; exact Hy.
Qed.
Lemma NoDup_map_inj : forall {A B} (f : A -> B) l, NoDup l -> (forall x y, In x l -> In y l -> f x = f y -> x = y) -> NoDup (map f l).
Proof.
  intros A B f l Hl. induction Hl as [|x l Hx Hl IH]; intros H; [constructor|]. cbn. constructor.
  - intros Hin. apply in_map_iff in Hin as (y & E & Hy). apply H in E; [|right; exact Hy|left; reflexivity]. subst y. contradiction.
  - apply IH. intros y z Hy Hz. apply H; right; assumption.
Qed.
Lemma transfers_nodup : forall dim ps o n, NoDup (transfers dim o n ps).
Proof.
  intros dim. induction ps as [|p ps IH]; intros o n; [constructor|]. cbn [transfers]. apply NoDup_app2; [|apply IH|].
  - destruct p as [l|l|l]; cbn [piece_tr].
    + constructor; [intros []|constructor].
    + apply NoDup_map_inj; [apply seq_NoDup|]. intros x y _ _ E. injection E as E. lia.
    + apply NoDup_map_inj; [apply seq_NoDup|]. intros x y _ _ E. injection E as E. lia.
  - intros t Ht Ht'. apply piece_tr_range in Ht. apply transfers_range in Ht'. lia.
Qed.

(** ** Geometry *)
Lemma anc_0 : forall l, anc 0 l = l.
Proof. intros [v x y z]. unfold anc. cbn [level lx1 lx2 lx3]. rewrite Nat.sub_0_r. change (2 ^ Z.of_nat 0)%Z with 1%Z. rewrite !Z.div_1_r. reflexivity. Qed.
Lemma pow2_pos : forall k, (0 < 2 ^ Z.of_nat k)%Z.
Proof. intros k. apply Z.pow_pos_nonneg; lia. Qed.
Lemma anc_anc : forall k m l, anc k (anc m l) = anc (m + k) l.
Proof.
  intros k m l. unfold anc. cbn [level lx1 lx2 lx3]. pose proof (pow2_pos k). pose proof (pow2_pos m).
  f_equal; [lia| | |]; rewrite Z.div_div by lia; f_equal; rewrite <- Z.pow_add_r by lia; f_equal; lia.
Qed.
Lemma bit_range : forall n i, (0 <= bit n i < 2)%Z.
Proof. intros n i. unfold bit. destruct (Nat.testbit n i); lia. Qed.
Lemma anc_child : forall l j, anc 1 (child l j) = l.
Proof.
  intros [v x y z] j. unfold anc, child. cbn [level lx1 lx2 lx3]. change (2 ^ Z.of_nat 1)%Z with 2%Z.
  assert (H : forall w i, ((2 * w + bit j i) / 2 = w)%Z).
  { intros w i. pose proof (bit_range j i). symmetry. apply (Z.div_unique _ _ _ (bit j i)); lia. }
  rewrite !H. f_equal. lia.
Qed.
Lemma contains_refl : forall l, contains l l.
Proof. intros l. split; [lia|]. rewrite Nat.sub_diag, anc_0. reflexivity. Qed.
Lemma contains_trans : forall a b c, contains a b -> contains b c -> contains a c.
Proof.
  intros a b c [H1 E1] [H2 E2]. split; [lia|].
  transitivity (anc (level b - level a) (anc (level c - level b) c)); [rewrite <- E2; exact E1|]. rewrite anc_anc. f_equal. lia.
Qed.
Lemma contains_child : forall l j, contains l (child l j).
Proof. intros l j. split; [rewrite child_level; lia|]. rewrite child_level. replace (S (level l) - level l) with 1 by lia. symmetry. apply anc_child. Qed.
Lemma overlap_sym : forall a b, overlap a b -> overlap b a.
Proof. unfold overlap. tauto. Qed.
Lemma overlap_child : forall b l j, overlap b (child l j) -> overlap b l.
Proof.
  intros b l j [H|H].
  - destruct H as [H1 H2]. rewrite child_level in *.
    destruct (Nat.eq_dec (level b) (S (level l))) as [E|E].
    + rewrite E, Nat.sub_diag, anc_0 in H2. subst b. right. apply contains_child.
    + left. split; [lia|]. rewrite H2 at 1. replace (S (level l) - level b) with (1 + (level l - level b)) by lia.
      rewrite <- anc_anc, anc_child. reflexivity.
  - right. apply (contains_trans _ (child l j)); [apply contains_child|exact H].
Qed.
Lemma child_exists : forall dim c l, flat dim c -> level c = S (level l) -> anc 1 c = l -> exists j, j < nleaf dim /\ c = child l j.
Proof.
  intros dim [v x y z] l [F2 F3] Hv Hl. cbn [level lx1 lx2 lx3] in *. subst l. unfold anc in Hv |- *. cbn [level lx1 lx2 lx3] in *.
  change (2 ^ Z.of_nat 1)%Z with 2%Z in *.
  assert (D : forall w, (w = 2 * (w / 2) \/ w = 2 * (w / 2) + 1)%Z) by (intros w; pose proof (Z.div_mod w 2); pose proof (Z.mod_pos_bound w 2); lia).
  assert (B : forall w, (w mod 2 = 0 \/ w mod 2 = 1)%Z) by (intros w; pose proof (Z.mod_pos_bound w 2); lia).
  set (j := Z.to_nat (x mod 2 + 2 * (y mod 2) + 4 * (z mod 2))). exists j.
  assert (Hx := Z.div_mod x 2 ltac:(lia)). assert (Hy := Z.div_mod y 2 ltac:(lia)). assert (Hz := Z.div_mod z 2 ltac:(lia)).
  split.
  - destruct dim as [|[|[|dim]]]; cbn [nleaf].
    + specialize (F2 ltac:(lia)). specialize (F3 ltac:(lia)). subst y z. change (0 mod 2)%Z with 0%Z in j. destruct (B x) as [E|E]; unfold j; rewrite E; cbn; lia.
    + specialize (F2 ltac:(lia)). specialize (F3 ltac:(lia)). subst y z. change (0 mod 2)%Z with 0%Z in j. destruct (B x) as [E|E]; unfold j; rewrite E; cbn; lia.
    + specialize (F3 ltac:(lia)). subst z. change (0 mod 2)%Z with 0%Z in j.
      destruct (B x) as [E|E], (B y) as [E'|E']; unfold j; rewrite E, E'; cbn; lia.
    + destruct (B x) as [E|E], (B y) as [E'|E'], (B z) as [E''|E'']; unfold j; rewrite E, E', E''; cbn; lia.
  - unfold child. cbn [level lx1 lx2 lx3].
    assert (Hb : bit j 0 = (x mod 2)%Z /\ bit j 1 = (y mod 2)%Z /\ bit j 2 = (z mod 2)%Z).
    { destruct (B x) as [E|E], (B y) as [E'|E'], (B z) as [E''|E'']; unfold j; rewrite E, E', E''; repeat split; reflexivity. }
    destruct Hb as (-> & -> & ->). f_equal; lia.
Qed.
Lemma flat_anc : forall dim k l, flat dim l -> flat dim (anc k l).
Proof.
  intros dim k l [F2 F3]. unfold anc. split; cbn [lx2 lx3]; intros H; [rewrite F2|rewrite F3]; try exact H; apply Z.div_0_l; pose proof (pow2_pos k); lia.
Qed.

Lemma transfer_overlap : forall dim ps o n, In (o, n) (transfers dim 0 0 ps) -> exists ol nl,
  nth_error (old_blocks dim ps) o = Some ol /\ nth_error (new_blocks dim ps) n = Some nl /\
  (ol = nl \/ (exists j, j < nleaf dim /\ nl = child ol j) \/ (exists j, j < nleaf dim /\ ol = child nl j)).
Proof.
  intros dim ps o n H. destruct (in_transfers _ _ _ _ _ H) as (ps1 & p & ps2 & -> & Hin). cbn [plus] in Hin.
  destruct p as [l|l|l]; cbn [piece_tr] in Hin.
  - destruct Hin as [E|[]]. injection E as <- <-. exists l, l.
    pose proof (at_old dim ps1 (Keep l) ps2 0 l eq_refl) as E1. pose proof (at_new dim ps1 (Keep l) ps2 0 l eq_refl) as E2.
    rewrite Nat.add_0_r in E1, E2. auto.
  - apply in_map_iff in Hin as (j & E & Hj). injection E as <- <-. apply in_seq in Hj. exists l, (child l j).
    pose proof (at_old dim ps1 (Split l) ps2 0 l eq_refl) as E1. rewrite Nat.add_0_r in E1. split; [exact E1|].
    split; [apply at_new; cbn [piece_new]; apply nth_error_children; lia|]. right; left. exists j. split; [lia|reflexivity].
  - apply in_map_iff in Hin as (j & E & Hj). injection E as <- <-. apply in_seq in Hj. exists (child l j), l.
    pose proof (at_new dim ps1 (Merge l) ps2 0 l eq_refl) as E1. rewrite Nat.add_0_r in E1.
    split; [apply at_old; cbn [piece_old]; apply nth_error_children; lia|]. split; [exact E1|]. right; right. exists j. split; [lia|reflexivity].
Qed.
Lemma piece_in_transfers : forall dim ps1 p ps2 t,
  In t (piece_tr dim (length (old_blocks dim ps1)) (length (new_blocks dim ps1)) p) -> In t (transfers dim 0 0 (ps1 ++ p :: ps2)).
Proof. intros dim ps1 p ps2 t H. rewrite transfers_app. apply in_or_app. right. cbn [transfers plus]. apply in_or_app. left. exact H. Qed.
Theorem transfers_are_overlaps : forall dim ps, disjoint_blocks dim (old_blocks dim ps) ->
  forall o n ol nl, nth_error (old_blocks dim ps) o = Some ol -> nth_error (new_blocks dim ps) n = Some nl ->
  (In (o, n) (transfers dim 0 0 ps) <-> overlap ol nl).
Proof.
  intros dim ps [Hflat Hdis] o n ol nl Ho Hn. pose proof (nleaf_ge dim) as Hnl. split.
  - intros H. destruct (transfer_overlap _ _ _ _ H) as (ol' & nl' & E1 & E2 & Hc).
    rewrite Ho in E1. rewrite Hn in E2. injection E1 as <-. injection E2 as <-.
    destruct Hc as [->|[(j & _ & ->)|(j & _ & ->)]].
    + left. apply contains_refl.
    + left. apply contains_child.
    + right. apply contains_child.
  - intros Hov. assert (Hlt : n < length (new_blocks dim ps)) by (apply nth_error_Some; congruence).
    destruct (find_new dim ps n Hlt) as (ps1 & p & ps2 & j & -> & -> & Hj).
    destruct p as [l|l|l]; cbn [nlen] in Hj; apply piece_in_transfers; cbn [piece_tr].
    + destruct j; [|lia]. rewrite (at_new dim ps1 (Keep l) ps2 0 l eq_refl) in Hn. injection Hn as <-.
      pose proof (at_old dim ps1 (Keep l) ps2 0 l eq_refl) as E1. rewrite (Hdis _ _ _ _ Ho E1 Hov), !Nat.add_0_r. left. reflexivity.
    + rewrite (at_new dim ps1 (Split l) ps2 j (child l j)) in Hn by (cbn [piece_new]; apply nth_error_children; exact Hj). injection Hn as <-.
      pose proof (at_old dim ps1 (Split l) ps2 0 l eq_refl) as E1.
      rewrite (Hdis _ _ _ _ Ho E1 (overlap_child _ _ _ Hov)), Nat.add_0_r.
      apply in_map_iff. exists j. split; [reflexivity|]. apply in_seq. lia.
    + destruct j; [|lia]. rewrite (at_new dim ps1 (Merge l) ps2 0 l eq_refl) in Hn. injection Hn as <-.
      assert (Hc : forall j, j < nleaf dim -> overlap ol (child l j) -> In (o, length (new_blocks dim ps1) + 0)
        (map (fun l0 => (length (old_blocks dim ps1) + l0, length (new_blocks dim ps1))) (seq 0 (nleaf dim)))).
      { intros j Hjl Hovj. assert (E1 : nth_error (old_blocks dim (ps1 ++ Merge l :: ps2)) (length (old_blocks dim ps1) + j) = Some (child l j))
          by (apply at_old; cbn [piece_old]; apply nth_error_children; exact Hjl).
        apply in_map_iff. exists j. rewrite (Hdis _ _ _ _ Ho E1 Hovj), Nat.add_0_r. split; [reflexivity|]. apply in_seq. lia. }
      destruct Hov as [Hov|Hov].
      * apply (Hc 0); [lia|]. left. apply (contains_trans _ l); [exact Hov|apply contains_child].
      * destruct Hov as [Hlev E]. destruct (Nat.eq_dec (level l) (level ol)) as [El|El].
        { rewrite El, Nat.sub_diag, anc_0 in E. subst l. apply (Hc 0); [lia|]. left. apply contains_child. }
        { destruct (child_exists dim (anc (level ol - S (level l)) ol) l) as (j & Hjl & Ej).
          - apply flat_anc, Hflat. exact (nth_error_In _ _ Ho).
          - cbn [anc level]. lia.
          - rewrite anc_anc. rewrite E at 2. f_equal. lia.
          - apply (Hc j); [exact Hjl|]. right. split; [rewrite child_level; lia|]. rewrite child_level. symmetry. exact Ej. }
Qed.

(** ** Tags *)
Lemma odd_child : forall w b, (0 <= b < 2)%Z -> odd (2 * w + b) = Z.to_N b.
Proof.
  intros w b Hb. unfold odd. rewrite Z.land_comm. change 1%Z with (Z.ones 1) at 1. rewrite Z.land_comm, Z.land_ones by lia. change (2 ^ 1)%Z with 2%Z.
  replace (2 * w + b)%Z with (b + w * 2)%Z by lia. rewrite Z_mod_plus_full, Z.mod_small by lia.
  assert (b = 0 \/ b = 1)%Z as [->| ->] by lia; reflexivity.
Qed.
Lemma odd_lt : forall x, (odd x < 2)%N.
Proof. intros x. unfold odd. destruct (Z.eqb _ _); reflexivity. Qed.
Lemma child_bits_inj : forall j j', j < 8 -> j' < 8 -> bit j 0 = bit j' 0 -> bit j 1 = bit j' 1 -> bit j 2 = bit j' 2 -> j = j'.
Proof.
  intros j j' H H'. destruct j as [|[|[|[|[|[|[|[|j]]]]]]]]; try lia; destruct j' as [|[|[|[|[|[|[|[|j']]]]]]]]; try lia; cbn; intros; reflexivity || discriminate.
Qed.
Lemma nleaf_le : forall dim, nleaf dim <= 8.
Proof. intros [|[|[|]]]; cbn; lia. Qed.
Lemma oxtag_child_inj : forall l l' j j' k k', j < 8 -> j' < 8 -> oxtag k (child l j) = oxtag k' (child l' j') -> k = k' /\ j = j'.
Proof.
  intros l l' j j' k k' Hj Hj' H. unfold oxtag, child in H. cbn [lx1 lx2 lx3] in H. rewrite !odd_child in H by apply bit_range.
  assert (Hb : forall n i, (Z.to_N (bit n i) < 2)%N) by (intros n i; pose proof (bit_range n i); lia).
  apply amr_tag_inj in H; try apply Hb. destruct H as (E0 & E1 & E2 & E3). split; [lia|].
  pose proof (bit_range j 0). pose proof (bit_range j 1). pose proof (bit_range j 2).
  pose proof (bit_range j' 0). pose proof (bit_range j' 1). pose proof (bit_range j' 2).
  apply child_bits_inj; try assumption; lia.
Qed.

Section Tags.
Variables (nr : nat) (ps : list piece) (a : amr).
Hypothesis HR : redistribution nr ps a.
Variable me : nat.
Hypothesis Hme : me < nr.

Lemma lid_inj : forall n n', n < length (newloc a) -> n' < length (newloc a) -> at_ (newrank a) n = me -> at_ (newrank a) n' = me ->
  n - nslist a me = n' - nslist a me -> n = n'.
Proof.
  intros n n' Hn Hn' Er Er' E. destruct HR as (_ & _ & _ & _ & _ & _ & _ & (Hl & Ht & Hr & Hm & Ho)).
  destruct (Ho me Hme) as (s & c & Es & Hc & Hsn & Hown). unfold nslist in E. rewrite (nth_error_nth _ _ _ Es) in E. cbn [fst] in E.
  unfold at_ in *. rewrite (nth_indep _ 0 nr) in Er by lia. rewrite (nth_indep _ 0 nr) in Er' by lia. apply Hown in Er; [|exact Hn]. apply Hown in Er'; [|exact Hn']. lia.
Qed.
Definition mine (t : nat * nat) : Prop := In t (transfers (a_dim a) 0 0 ps) /\ at_ (newrank a) (snd t) = me.
Lemma tag_inj : forall t t', mine t -> mine t' -> m_tag (mk a t) = m_tag (mk a t') -> t = t'.
Proof.
  intros [o n] [o' n'] [Hin Er] [Hin' Er'] E. cbn [snd] in Er, Er'. pose proof HR as HR'. destruct HR' as (Hd & _ & Hdis & Ho & Hnl & _).
  pose proof (transfers_range _ _ _ _ _ Hin) as [_ R1]. pose proof (transfers_range _ _ _ _ _ Hin') as [_ R2]. cbn [snd plus] in R1, R2.
  assert (Hn : n = n').
  { apply lid_inj; try assumption; try (rewrite Hnl; lia).
    cbn [mk m_tag] in E. rewrite Er, Er' in E. unfold zerotag, oxtag in E.
    destruct (Nat.ltb _ _) in E; destruct (Nat.ltb _ _) in E; apply amr_tag_inj in E; try apply odd_lt; try reflexivity; lia. }
  subst n'. f_equal.
  destruct (transfer_overlap _ _ _ _ Hin) as (ol & nl & E1 & E2 & C1). destruct (transfer_overlap _ _ _ _ Hin') as (ol' & nl' & E1' & E2' & C2).
  rewrite E2 in E2'. injection E2' as <-. rewrite <- Ho in E1, E1'. rewrite <- Hnl in E2.
  assert (Hcmp : forall x x', nth_error (oldloc a) o = Some x -> nth_error (oldloc a) o' = Some x' -> overlap x x' -> o = o')
    by (intros x x' Hx Hx'; apply (proj2 Hdis) with (1 := Hx) (2 := Hx')).
  destruct C1 as [->|[(j & Hj & ->)|(j & Hj & ->)]], C2 as [->|[(j' & Hj' & E3)|(j' & Hj' & ->)]].
  - apply (Hcmp nl nl); try assumption. left. apply contains_refl.
  - subst nl. apply (Hcmp _ _ E1 E1'). right. apply contains_child.
  - apply (Hcmp _ _ E1 E1'). left. apply contains_child.
  - apply (Hcmp _ _ E1 E1'). left. apply contains_child.
  - apply (Hcmp _ _ E1 E1'). apply overlap_sym, (overlap_child _ _ j). rewrite E3. left. apply contains_child.
  - apply (Hcmp _ _ E1 E1'). left. apply (contains_trans _ (child ol j)); apply contains_child.
  - apply (Hcmp _ _ E1 E1'). right. apply contains_child.
  - subst nl. apply (Hcmp _ _ E1 E1'). right. apply (contains_trans _ (child ol' j')); apply contains_child.
  - cbn [mk m_tag] in E. rewrite (locs_at_nth _ _ _ E1), (locs_at_nth _ _ _ E1'), (locs_at_nth _ _ _ E2), !child_level in E.
    destruct (Nat.ltb_spec (level nl) (S (level nl))); [|lia].
    apply oxtag_child_inj in E; [|pose proof (nleaf_le (a_dim a)); lia|pose proof (nleaf_le (a_dim a)); lia]. destruct E as [_ <-].
    apply (Hcmp _ _ E1 E1'). left. apply contains_refl.
Qed.

Lemma ffc_pairs_shape : forall g t, In t (ffc_pairs a g) -> exists d fl, snd t = N.to_nat (odd (lxd d (locs_at (newloc a) (snd (fst t))))) + 2 * d /\
  d < a_dim a /\ floc g d (locs_at (newloc a) (snd (fst t))) = Some fl /\ find_loc (g_root g) fl (oldloc a) 0 None = Some (fst (fst t)) /\
  In (snd (fst t)) (refined (oldloc a) (newloc a) (newtoold a)).
Proof.
  intros g t Ht. unfold ffc_pairs in Ht. apply in_flat_map in Ht as (n & Hn & Ht). apply in_flat_map in Ht as (d & Hd & Ht). apply in_seq in Hd.
  destruct (floc g d (locs_at (newloc a) n)) as [fl|] eqn:Ef; [|destruct Ht].
  destruct (find_loc (g_root g) fl (oldloc a) 0 None) as [i|] eqn:Ei; [|destruct Ht]. destruct Ht as [<-|[]].
  exists d, fl. cbn [fst snd]. repeat split; try assumption. lia.
Qed.
Lemma flat_map_nodup : forall {A B} (f : A -> list B) (k : B -> A) l, NoDup l -> (forall x y, In x l -> In y (f x) -> k y = x) ->
  (forall x, In x l -> NoDup (f x)) -> NoDup (flat_map f l).
Proof.
  intros A B f k l Hl. induction Hl as [|x l Hx Hl IH]; intros Hk Hf; [constructor|]. cbn. apply NoDup_app2.
  - apply Hf. left; reflexivity.
  - apply IH; intros; [apply Hk|apply Hf]; try (right; assumption); assumption.
  - intros y Hy Hy'. apply in_flat_map in Hy' as (x' & Hx' & Hy'). pose proof (Hk x y (or_introl eq_refl) Hy). pose proof (Hk x' y (or_intror Hx') Hy').
    subst x'. congruence.
Qed.
Lemma face_dir : forall x d, (N.to_nat (odd x) + 2 * d) / 2 = d.
Proof.
  intros x d. pose proof (odd_lt x) as H. assert (N.to_nat (odd x) < 2) by lia.
  symmetry. apply (Nat.div_unique _ _ _ (N.to_nat (odd x))); lia.
Qed.
Lemma ffc_pairs_nodup : forall g, NoDup (ffc_pairs a g).
Proof.
  intros g. unfold ffc_pairs. apply (flat_map_nodup _ (fun t => snd (fst t))).
  - apply NoDup_filter, seq_NoDup.
  - intros n t _ Ht. apply in_flat_map in Ht as (d & _ & Ht). destruct (floc _ _ _); [|destruct Ht]. destruct (find_loc _ _ _ _ _); [|destruct Ht].
    destruct Ht as [<-|[]]. reflexivity.
  - intros n _. apply (flat_map_nodup _ (fun t => snd t / 2)); [apply seq_NoDup| |].
    + intros d t _ Ht. destruct (floc _ _ _); [|destruct Ht]. destruct (find_loc _ _ _ _ _); [|destruct Ht].
      destruct Ht as [<-|[]]. cbn [snd]. apply face_dir.
    + intros d _. destruct (floc _ _ _); [|constructor]. destruct (find_loc _ _ _ _ _); [|constructor]. constructor; [intros []|constructor].
Qed.
Lemma ffc_face_lt : forall g t, In t (ffc_pairs a g) -> (N.of_nat (snd t) < 8)%N.
Proof.
  intros g t Ht. destruct (ffc_pairs_shape g t Ht) as (d & fl & E & Hd & _). destruct HR as ((_ & H3) & _).
  pose proof (odd_lt (lxd d (locs_at (newloc a) (snd (fst t))))). lia.
Qed.
Lemma ffc_tag_injective : forall g t t', In t (ffc_pairs a g) -> In t' (ffc_pairs a g) -> at_ (newrank a) (snd (fst t)) = me -> at_ (newrank a) (snd (fst t')) = me ->
  m_tag (mkf a t) = m_tag (mkf a t') -> t = t'.
Proof.
  intros g t t' Ht Ht' Er Er' E. pose proof (ffc_face_lt g t Ht) as F. pose proof (ffc_face_lt g t' Ht') as F'.
  destruct (ffc_pairs_shape g t Ht) as (d & fl & E1 & Hd & E2 & E3 & Hr). destruct (ffc_pairs_shape g t' Ht') as (d' & fl' & E1' & Hd' & E2' & E3' & Hr').
  destruct t as [[i n] fc], t' as [[i' n'] fc']. cbn [fst snd mkf m_tag] in *. rewrite Er, Er' in E. unfold ffctag in E.
  apply ffc_tag_inj in E; [|exact F|exact F']. destruct E as [El Ef].
  apply filter_In in Hr as [Hr _]. apply filter_In in Hr' as [Hr' _]. apply in_seq in Hr, Hr'.
  pose proof HR as HR'. destruct HR' as (_ & _ & _ & _ & Hnl & Hno & _).
  rewrite Hno, new2old_len, <- Hnl in Hr, Hr'.
  assert (n = n') by (apply lid_inj; try assumption; lia). subst n'. assert (Efc : fc = fc') by lia.
  assert (d = d') by (rewrite <- (face_dir (lxd d (locs_at (newloc a) n)) d), <- (face_dir (lxd d' (locs_at (newloc a) n)) d'), <- E1, <- E1', Efc; reflexivity).
  subst d'. rewrite E2 in E2'. injection E2' as <-. rewrite E3 in E3'. injection E3' as <-. rewrite Efc. reflexivity.
Qed.
Theorem recv_tags_distinct : forall g, NoDup (map m_tag (all_recvs a g me)).
Proof.
  intros g. unfold all_recvs. rewrite map_app, (recvs_eq nr ps a HR me Hme), ffc_recvs_eq, !map_map. apply NoDup_app2.
  - apply NoDup_map_inj; [apply NoDup_filter, transfers_nodup|].
    intros t t' Ht Ht'. apply filter_In in Ht as [Ht E], Ht' as [Ht' E']. apply andb_true_iff in E as [E _], E' as [E' _].
    apply tag_inj; split; try assumption; apply Nat.eqb_eq; assumption.
  - apply NoDup_map_inj; [apply NoDup_filter, ffc_pairs_nodup|].
    intros t t' Ht Ht'. apply filter_In in Ht as [Ht E], Ht' as [Ht' E']. apply andb_true_iff in E as [E _], E' as [E' _].
    apply (ffc_tag_injective g); try assumption; apply Nat.eqb_eq; assumption.
  - intros x Hx Hx'. apply in_map_iff in Hx as (t & E & Ht), Hx' as (t' & E' & Ht'). apply filter_In in Ht' as [Ht' _].
    pose proof (ffc_face_lt g t' Ht') as F. destruct t as [o n], t' as [[i n'] fc]. cbn [mk mkf m_tag snd] in *. rewrite <- E in E'. clear E.
    unfold ffctag in E'. destruct (Nat.ltb _ _) in E'; [unfold oxtag in E'|unfold zerotag in E'];
      apply ffc_amr_disjoint in E'; try exact E'; try exact F; try apply odd_lt; reflexivity.
Qed.
End Tags.
