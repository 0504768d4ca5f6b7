(** What arrives, and the value of an electromotive force after all messages. *)
From Coq Require Import List Arith NArith ZArith Bool Lia Permutation Reals Lra.
From Verif Require Fv_Spec Fv_Proofs2.
From Verif Require Import Loc LB_Spec Tags_Model Tags_Spec Tags_Proofs AMR_Model AMR_Spec AMR_Proofs AMR_Proofs2 Tree_Model Tree_Spec Tree_Proofs1 Tree_Proofs2 Tree_Proofs3 Tree_Proofs4 Tree_Proofs5 Tree_Proofs6 Tree_Proofs7 Tree_Proofs8 Tree_Restart Tree_Proofs9 Tree_Proofs10 Nbr_Model Nbr_Spec Nbr_Proofs Nbr_Proofs2 Nbr_Proofs3 Buf_Model Gho_Model Gho_Spec Gho_Proofs Gho_Proofs2 Con_Model Con_Spec Con_Proofs Emf_Model Emf_Spec Emf_Proofs Emf_Proofs2.
Import ListNotations.
Local Open Scope Z_scope.

Lemma map_ints : forall r r' (h : Z -> Z), (forall n, h (fst r + n) = h (fst r) + n) -> fst r' = h (fst r) -> snd r' - fst r' = snd r - fst r -> ints r' = map h (ints r).
Proof. intros [u v] [u' v'] h H1 H2 H3. cbn [fst snd] in *. unfold ints. cbn [fst snd]. replace (v' - u' + 1) with (v - u + 1) by lia. rewrite map_map. apply map_ext. intros n. rewrite H1, <- H2. reflexivity. Qed.
Lemma map_evens : forall r r' (h : Z -> Z), (forall n, h (fst r + n) = h (fst r) + 2 * n) -> fst r' = h (fst r) -> (snd r' - fst r') / 2 = snd r - fst r -> evens r' = map h (ints r).
Proof. intros [u v] [u' v'] h H1 H2 H3. cbn [fst snd] in *. unfold ints, evens. cbn [fst snd]. rewrite H3. rewrite map_map. apply map_ext. intros n. rewrite H1, <- H2. reflexivity. Qed.
Lemma evens_one : forall f, evens (f, f) = [f].
Proof. intros f. unfold evens. cbn [fst snd]. rewrite Z.sub_diag. change (Z.to_nat (0 / 2 + 1)) with 1%nat. cbn [seq map]. f_equal. lia. Qed.
Lemma ints_one : forall f, ints (f, f) = [f].
Proof. intros f. unfold ints. cbn [fst snd]. rewrite Z.sub_diag. change (Z.to_nat (0 + 1)) with 1%nat. cbn [seq map]. f_equal. lia. Qed.

Section N.
Variable g : grid.
Hypothesis Vg : valid_grid g.
Hypothesis NP : no_pole g.
Hypothesis NS : no_shear g.
Variable t : tree.
Hypothesis W : wf g t.
Hypothesis Bt : B g t.
Variable ml : bool.
Hypothesis ML : declared g ml (blocks t).
Variable Bz : bsz.
Hypothesis FT : fitting g Bz ml.
Local Notation dim := (gdim g).
Local Notation E := (E g t ml).
Local Notation D13 := (dim13 g Vg).
Local Notation bs := (blocks t).
Local Notation first := (first Bz dim).
Local Notation nn := (cells_in Bz).
Variables (L F : loc -> emf).

(** ** Ranges *)
Lemma rng_facts : forall d, (d < 3)%nat -> ((d < dim)%nat /\ actv Bz d = true /\ s_ Bz d = first d /\ e_ Bz d = first d + nn d - 1 /\ nx_ Bz d = nn d /\ 2 <= nn d /\ (ml = true -> nn d = 2 * (nn d / 2))) \/
  ((dim <= d)%nat /\ actv Bz d = false /\ s_ Bz d = 0 /\ e_ Bz d = 0 /\ first d = 0).
Proof using Vg FT.
  intros d Hd. pose proof FT as (F1 & F2 & F3). pose proof D13 as V.
  assert (P : edge_of g Bz 0 (first 2%nat, first 1%nat, first 0%nat)). { intros e He. assert (X : index (first 2%nat, first 1%nat, first 0%nat) e = first e) by (destruct e as [|[|[|e]]]; try reflexivity; lia). rewrite X. destruct (F2 e He) as [G1 G2]. unfold size. destruct (Nat.ltb_spec e dim); [destruct (G1 ltac:(assumption)); destruct (true && negb (Nat.eqb e 0)); lia|cbn [andb]; lia]. }
  destruct (dir_facts g Bz ml V FT 0%nat _ d P Hd) as [(A0 & A1 & A2 & A3 & A4 & A5 & _)|(A0 & A1 & A2 & A3 & A4 & _)]; [left|right; repeat (split; [assumption|]); assumption].
  repeat (split; [assumption|]). intros Hm. destruct (F3 Hm) as (_ & F4). destruct (F4 d A0) as [X _]. apply Z.even_spec in X as [k ->]. rewrite (Z.mul_comm 2 k), Z.div_mul by lia. lia.
Qed.
Definition sh (o : dirt) (d : nat) (z : Z) : Z := z - dd o d * nn d.
Lemma whole_opp : forall o c, odir g o -> whole Bz (opp3 o) c = map (via (sh o)) (whole Bz o c).
Proof using Vg FT.
  intros o c [O1 O2]. unfold whole. apply grid3_map. intros d Hd. unfold whole_rng. rewrite dd_opp. destruct (Z.eqb_spec (dd o d) 0) as [Z0|Z0].
  - rewrite Z0. cbn [Z.opp Z.eqb]. symmetry. erewrite map_ext; [apply map_id|]. intros z. unfold sh. rewrite Z0. lia.
  - destruct (Z.eqb_spec (- dd o d) 0); [lia|]. rewrite !ints_one. cbn [map]. f_equal. unfold sh, fixed. rewrite dd_opp. specialize (O1 d). destruct (rng_facts d Hd) as [(A0 & A1 & A2 & A3 & A4 & A5 & _)|(A0 & _)]; [|contradiction Z0; apply O2; assumption]. rewrite A2, A3. assert (X : dd o d = 1 \/ dd o d = -1) by lia. destruct X as [-> | ->]; cbn [Z.opp Z.ltb Z.compare]; lia.
Qed.
Lemma LoadSame_opp : forall f o, odir g o -> LoadSame Bz f (opp3 o) = map (fun x => get f (via (sh o) x)) (flat_map (whole Bz o) (comps o)).
Proof using Vg FT.
  intros f o Ho. unfold LoadSame. rewrite comps_opp, map_flat_map. apply flat_map_ext. intros c. rewrite whole_opp by exact Ho. rewrite map_map. reflexivity.
Qed.
(** The first of the finer edges on an edge. *)
Definition hf (e : nblock) (d : nat) (z : Z) : Z := if Z.eqb (dd (entry_dir e) d) 0 then if actv Bz d then s_ Bz d + 2 * (z - s_ Bz d - fsel e d * (nx_ Bz d / 2)) else z else fixed Bz (opp3 (entry_dir e)) d.
Lemma every_opp : forall e c, ml = true -> (forall d, fsel e d = 0 \/ fsel e d = 1) -> every_other Bz (opp3 (entry_dir e)) c = map (via (hf e)) (half_of Bz e c).
Proof using Vg FT.
  intros e c Hm Hf. unfold every_other, half_of. apply grid3_map. intros d Hd. unfold whole_rng, half_rng, hf. rewrite dd_opp. destruct (Z.eqb_spec (dd (entry_dir e) d) 0) as [Z0|Z0].
  - rewrite Z0. cbn [Z.opp Z.eqb]. destruct (rng_facts d Hd) as [(A0 & A1 & A2 & A3 & A4 & A5 & A6)|(A0 & A1 & A2 & A3 & A4)].
    + rewrite A1, A2, A3, A4. specialize (A6 Hm). rewrite andb_true_r. set (m := nn d / 2) in *. clearbody m. destruct (Hf d) as [X|X]; rewrite X; cbn [Z.eqb]; destruct (Nat.eqb d c); cbn [negb]; apply map_evens; cbn [fst snd]; try lia; rewrite A6.
      * replace (first d + 2 * m - 1 + 0 - first d) with (m * 2 + (-1)) by lia. rewrite Z.div_add_l by lia. change (-1 / 2) with (-1). lia.
      * replace (first d + 2 * m - 1 + 1 - first d) with (m * 2) by lia. rewrite Z.div_mul by lia. lia.
      * replace (first d + 2 * m - 1 + 0 - first d) with (m * 2 + (-1)) by lia. rewrite Z.div_add_l by lia. change (-1 / 2) with (-1). lia.
      * replace (first d + 2 * m - 1 + 1 - first d) with (m * 2) by lia. rewrite Z.div_mul by lia. lia.
    + rewrite A1, A2, A3. rewrite andb_false_r. cbn [Z.add]. rewrite evens_one, ints_one. reflexivity.
  - destruct (Z.eqb_spec (- dd (entry_dir e) d) 0); [lia|]. rewrite evens_one, ints_one. reflexivity.
Qed.
Definition comp_of (x : epos) : nat := let '(n, _, _, _) := x in Z.to_nat n.
Lemma LoadCoarser_opp : forall l f e, ml = true -> (forall d, fsel e d = 0 \/ fsel e d = 1) ->
  LoadCoarser Bz l f (opp3 (entry_dir e)) = map (fun x => restrict_emf Bz l f (comp_of x) (via (hf e) x)) (flat_map (half_of Bz e) (comps (entry_dir e))).
Proof using Vg FT.
  intros l f e Hm Hf. unfold LoadCoarser. rewrite comps_opp, map_flat_map. apply flat_map_ext. intros c. rewrite every_opp by assumption. rewrite map_map. apply map_ext_in. intros [[[n k] j] i] Hx. f_equal. unfold half_of in Hx. apply in_grid3 in Hx as (-> & _). cbn [comp_of]. lia.
Qed.

(** ** Entries *)
Definition entries (a : loc) : list nblock := emf_loop (nbrs g ml t a).
Lemma entries_in : forall a, In a bs -> (forall e, In e (entries a) <-> E a e /\ is_corner e = false) /\ NoDup (map n_bufid (entries a)) /\ NoDup (entries a).
Proof using Vg NP NS W Bt ML.
  intros a Ha. destruct (lists g Vg NP NS t W Bt ml ML a Ha) as (za & ns & _ & _ & Es & Hin & ND). unfold entries, nbrs. rewrite Es, (emf_loop_filter g Vg ml t a ns Es).
  split; [intros e; rewrite filter_In, Hin, negb_true_iff; reflexivity|]. assert (ND' : NoDup (map n_bufid (filter (fun e => negb (is_corner e)) ns))).
  { clear -ND. induction ns as [|x l IH]; [constructor|]. cbn [map] in ND. apply NoDup_cons_iff in ND as [N1 N2]. cbn [filter]. destruct (negb (is_corner x)); [|apply IH, N2]. cbn [map]. constructor; [|apply IH, N2]. intros H. apply N1. apply in_map_iff in H as (y & Ey & Hy). apply filter_In in Hy as [Hy _]. rewrite <- Ey. apply in_map, Hy. }
  split; [exact ND'|apply (NoDup_map_inv n_bufid), ND'].
Qed.
Lemma entries_search : forall a, In a bs -> SearchAndSetNeighbors g ml t a = Some (nbrs g ml t a).
Proof using Vg NP NS W Bt ML. intros a Ha. destruct (lists g Vg NP NS t W Bt ml ML a Ha) as (za & ns & _ & _ & Es & _). unfold nbrs. rewrite Es. reflexivity. Qed.
Definition msg_of (a : loc) (e : nblock) : list R :=
  if Nat.eqb (level (n_loc e)) (level a) then LoadSame Bz (F (n_loc e)) (opp3 (entry_dir e)) else LoadCoarser Bz (L (n_loc e)) (F (n_loc e)) (opp3 (entry_dir e)).
Lemma emf_arr : forall a e, In a bs -> In e (entries a) -> (level (n_loc e) = level a /\ exchanged g t a e = true) \/ level (n_loc e) = S (level a) -> emf_arriving g ml t Bz L F a e = Some (msg_of a e).
Proof using Vg NP NS W Bt ML.
  intros a e Ha Hea Hx. pose proof Hea as He. apply (entries_in a Ha) in He as [He Hfc]. destruct (entry_block g Vg NP t W Bt ml ML a e Ha He) as [Hb _]. set (b := n_loc e) in *.
  pose proof Ha as Ha'. apply (in_blocks g t a W) in Ha' as [Ca (za & Ka)]. pose proof Hb as Hb'. apply (in_blocks g t b W) in Hb' as [Cb (zb & Kb)].
  destruct (recip_ex g Vg NP t W Bt ml ML a za e Ca Ka He) as (_ & _ & e0 & He0 & (Q1 & Q2 & Q3 & Q4 & Q5 & Q6)). fold b in He0.
  unfold emf_arriving. fold b. rewrite (entries_search b Hb). fold (entries b).
  assert (H0 : In e0 (entries b)) by (apply (entries_in b Hb); split; [exact He0|unfold is_corner in *; rewrite Q6; exact Hfc]).
  destruct (find (targets a (n_bufid e)) (entries b)) as [e'|] eqn:Ef.
  - apply find_some in Ef as [Hi Ht]. unfold targets in Ht. apply andb_prop in Ht as [Ht1 Ht2]. destruct (loc_eqb_spec (n_loc e') a) as [El|]; [|discriminate Ht1]. destruct (n_target e') as [k|] eqn:Ek; [|discriminate Ht2]. apply Nat.eqb_eq in Ht2. subst k.
    pose proof Hi as Hi'. apply (entries_in b Hb) in Hi' as [He' Hfc'].
    destruct (recip_ex g Vg NP t W Bt ml ML b zb e' Cb Kb He') as (_ & _ & e2 & He2 & (P1 & P2 & P3 & P4 & P5 & P6)). rewrite El in He2.
    assert (Eb : n_bufid e2 = n_bufid e) by congruence.
    assert (H2 : In e2 (entries a)) by (apply (entries_in a Ha); split; [exact He2|unfold is_corner in *; rewrite P6; exact Hfc']).
    assert (e2 = e) by (apply (bufid_inj (entries a)); [apply (entries_in a Ha)|exact H2|exact Hea|exact Eb]). subst e2.
    assert (Hopp : entry_dir e' = opp3 (entry_dir e)). { apply dirt_ext. intros d Hd. rewrite dd_opp. change (entry_dir e) with (edir e). rewrite P5, dd_opp. change (edir e') with (entry_dir e'). ring. }
    unfold SendEmf, msg_of. fold b. rewrite El, Hopp. destruct Hx as [[Hl Hex]|Hl].
    + rewrite Hl, Nat.eqb_refl. assert (Hex' : exchanged g t b e' = true). { unfold exchanged in *. apply orb_prop in Hex as [H|H]; [apply orb_true_intro; left; unfold is_face in *; rewrite <- P6; exact H|]. apply orb_true_intro. right. apply (flag_sym g Vg NP NS t W Bt ml ML a e b e' Ha He); try assumption; try reflexivity. apply (same_level_of g Vg NP NS t W Bt ml ML a Ha e He Hl). }
      rewrite Hex'. reflexivity.
    + rewrite Hl, Nat.eqb_refl. destruct (Nat.eqb_spec (level a) (S (level a))); [lia|]. destruct (Nat.eqb_spec (S (level a)) (level a)); [lia|]. reflexivity.
  - exfalso. pose proof (find_none _ _ Ef e0 H0) as Hf. unfold targets in Hf. rewrite Q1, Q4 in Hf. rewrite Nat.eqb_refl in Hf. destruct (loc_eqb_spec a a); [discriminate Hf|contradiction].
Qed.

(** ** Sums over the messages *)
Definition fitsb (c : nat) (p : fpos) (o : dirt) : bool := if in_dec dirt_dec o (around (sg g Bz c p)) then true else false.
Lemma fitsb_iff : forall c p o, fitsb c p o = true <-> fits g Bz o c p.
Proof using . intros c p o. unfold fitsb. rewrite fits_around. destruct (in_dec dirt_dec o (around (sg g Bz c p))); split; intros H; try reflexivity; try assumption; [discriminate H|contradiction]. Qed.
Definition finpos (e : nblock) (c : nat) (p : fpos) : bool := if in_dec epos_dec (at_pos c p) (flat_map (half_of Bz e) (comps (entry_dir e))) then true else false.
Definition sameb (a : loc) (c : nat) (p : fpos) (e : nblock) : bool := Nat.eqb (level (n_loc e)) (level a) && exchanged g t a e && fitsb c p (entry_dir e).
Definition fineb (a : loc) (c : nat) (p : fpos) (e : nblock) : bool := Nat.eqb (level (n_loc e)) (S (level a)) && finpos e c p.
Definition sames (a : loc) (c : nat) (p : fpos) : list nblock := filter (sameb a c p) (entries a).
Definition fines (a : loc) (c : nat) (p : fpos) : list nblock := filter (fineb a c p) (entries a).
Definition same_val (c : nat) (p : fpos) (e : nblock) : R := get (F (n_loc e)) (via (sh (entry_dir e)) (at_pos c p)).
Definition fine_val (c : nat) (p : fpos) (e : nblock) : R := restrict_emf Bz (L (n_loc e)) (F (n_loc e)) c (via (hf e) (at_pos c p)).
Lemma entry_odir : forall a e, In a bs -> In e (entries a) -> okdir dim (entry_dir e) /\ odir g (entry_dir e).
Proof using Vg NP NS W Bt ML. intros a e Ha He. apply (entries_in a Ha) in He as [He _]. destruct (entry_dir_ok g Vg t W ml a Ha e He) as (Ho & _). split; [exact Ho|]. apply (okdir_odir g Vg), Ho. Qed.
Lemma receive_same : forall a, In a bs -> forall es f, (forall e, In e es -> In e (entries a)) ->
  exists f', ReceiveSame g ml t Bz L F a es f = Some f' /\ forall x, (forall c' p', (c' < 3)%nat -> edge_of g Bz c' p' -> x = at_pos c' p' -> get f' x = (get f x + Fv_Spec.sum (map (same_val c' p') (filter (sameb a c' p') es)))%R).
Proof using Vg NP NS W Bt ML FT.
  intros a Ha es. induction es as [|e es IH]; intros f Hes.
  - exists f. split; [reflexivity|]. intros x c' p' _ _ _. cbn. lra.
  - assert (He := Hes e (or_introl eq_refl)). cbn [ReceiveSame]. destruct (entry_odir a e Ha He) as [Ok Od]. destruct (Nat.eqb (level (n_loc e)) (level a) && exchanged g t a e) eqn:Ex.
    + apply andb_prop in Ex as [E1 E2]. pose proof E1 as E1'. apply Nat.eqb_eq in E1'. rewrite (emf_arr a e Ha He (or_introl (conj E1' E2))). unfold msg_of. rewrite E1. rewrite LoadSame_opp by exact Od.
      destruct (IH (SetSame Bz (entry_dir e) (map (fun x => get (F (n_loc e)) (via (sh (entry_dir e)) x)) (flat_map (whole Bz (entry_dir e)) (comps (entry_dir e)))) f) (fun e' H => Hes e' (or_intror H))) as (f' & Hf' & Hv).
      exists f'. split; [exact Hf'|]. intros x c' p' Hc' Hp' ->. rewrite (Hv _ c' p' Hc' Hp' eq_refl). unfold SetSame. rewrite Add_get by (unfold whole; apply NoDup_parts). cbn [filter].
      pose proof (in_message g Bz ml D13 FT (entry_dir e) c' p' Hc' Hp' Od) as IM. assert (Esb : sameb a c' p' e = fitsb c' p' (entry_dir e)) by (unfold sameb; rewrite E1, E2; reflexivity). rewrite Esb.
      destruct (in_dec epos_dec (at_pos c' p') (flat_map (whole Bz (entry_dir e)) (comps (entry_dir e)))) as [Hi|Hi].
      * rewrite (proj2 (fitsb_iff c' p' (entry_dir e)) (proj1 IM Hi)). cbn [map]. rewrite sum_cons'. unfold same_val at 2. lra.
      * destruct (fitsb c' p' (entry_dir e)) eqn:Ef; [contradiction Hi; apply IM, fitsb_iff, Ef|]. lra.
    + destruct (IH f (fun e' H => Hes e' (or_intror H))) as (f' & Hf' & Hv). exists f'. split; [exact Hf'|]. intros x c' p' Hc' Hp' Hx. rewrite (Hv x c' p' Hc' Hp' Hx). cbn [filter]. unfold sameb at 2. rewrite Ex. reflexivity.
Qed.
Lemma receive_finer : forall a, In a bs -> forall es f, (forall e, In e es -> In e (entries a)) ->
  exists f', ReceiveFiner g ml t Bz L F a es f = Some f' /\ forall x, (forall c' p', (c' < 3)%nat -> edge_of g Bz c' p' -> x = at_pos c' p' -> get f' x = (get f x + Fv_Spec.sum (map (fine_val c' p') (filter (fineb a c' p') es)))%R).
Proof using Vg NP NS W Bt ML FT.
  intros a Ha es. induction es as [|e es IH]; intros f Hes.
  - exists f. split; [reflexivity|]. intros x c' p' _ _ _. cbn. lra.
  - assert (He := Hes e (or_introl eq_refl)). cbn [ReceiveFiner]. destruct (Nat.eqb (level (n_loc e)) (S (level a))) eqn:Ex.
    + pose proof Ex as E1. apply Nat.eqb_eq in E1. rewrite (emf_arr a e Ha He (or_intror E1)). pose proof He as He'. apply (entries_in a Ha) in He' as [HE _]. destruct (finer_level_of g Vg NP NS t W Bt ml ML a Ha e HE E1) as (_ & (_ & Hf01 & _) & Hm).
      unfold msg_of. destruct (Nat.eqb_spec (level (n_loc e)) (level a)) as [X|X]; [lia|]. rewrite LoadCoarser_opp by assumption.
      destruct (IH (SetFiner Bz e (map (fun x => restrict_emf Bz (L (n_loc e)) (F (n_loc e)) (comp_of x) (via (hf e) x)) (flat_map (half_of Bz e) (comps (entry_dir e)))) f) (fun e' H => Hes e' (or_intror H))) as (f' & Hf' & Hv).
      exists f'. split; [exact Hf'|]. intros x c' p' Hc' Hp' ->. rewrite (Hv _ c' p' Hc' Hp' eq_refl). unfold SetFiner. rewrite Add_get by (unfold half_of; apply NoDup_parts). cbn [filter].
      assert (Esb : fineb a c' p' e = finpos e c' p') by (unfold fineb; rewrite Ex; reflexivity). rewrite Esb. unfold finpos. assert (Hco : comp_of (at_pos c' p') = c') by (destruct p' as [[k j] i]; cbn [comp_of at_pos]; lia). rewrite Hco.
      destruct (in_dec epos_dec (at_pos c' p') (flat_map (half_of Bz e) (comps (entry_dir e)))) as [Hi|Hi]; [|lra].
      cbn [map]. rewrite sum_cons'. unfold fine_val at 2. lra.
    + destruct (IH f (fun e' H => Hes e' (or_intror H))) as (f' & Hf' & Hv). exists f'. split; [exact Hf'|]. intros x c' p' Hc' Hp' Hx. rewrite (Hv x c' p' Hc' Hp' Hx). cbn [filter]. unfold fineb at 2. rewrite Ex. reflexivity.
Qed.
End N.

Definition nonzeros (x : dirt) : nat := ((if Z.eqb (dd x 0) 0 then 0 else 1) + (if Z.eqb (dd x 1) 0 then 0 else 1) + (if Z.eqb (dd x 2) 0 then 0 else 1))%nat.
Lemma across_spec : forall c, (c < 3)%nat -> forall o', nonzeros o' = 1%nat -> dd o' c = 0 -> (across o' c < 3)%nat /\ across o' c <> c /\ dd o' (across o' c) = 0 /\ forall d, (d < 3)%nat -> d <> c -> d <> across o' c -> dd o' d <> 0.
Proof.
  intros c Hc o' Hn Oc. unfold nonzeros in Hn. unfold across. assert (Ec : (c = 0 \/ c = 1 \/ c = 2)%nat) by lia.
  destruct (Z.eqb_spec (dd o' 0%nat) 0) as [Z0|Z0], (Z.eqb_spec (dd o' 1%nat) 0) as [Z1|Z1], (Z.eqb_spec (dd o' 2%nat) 0) as [Z2|Z2]; cbn in Hn; try discriminate Hn;
    destruct Ec as [->|[->| ->]]; try contradiction; cbn [filter]; 
    repeat match goal with |- context [Z.eqb ?u 0] => destruct (Z.eqb_spec u 0); [|contradiction] || (destruct (Z.eqb_spec u 0); [contradiction|]) end; cbn [Nat.eqb negb andb]; (split; [lia|]; split; [lia|]; split; [assumption|]; intros d Hd N1 N2; assert (d = 0 \/ d = 1 \/ d = 2)%nat as [->|[->| ->]] by lia; (assumption || lia)).
Qed.

(** ** Clearing and averaging *)
Section C.
Variable g : grid.
Hypothesis Vg : valid_grid g.
Variable ml : bool.
Variable Bz : bsz.
Hypothesis FT : fitting g Bz ml.
Local Notation dim := (gdim g).
Local Notation D13 := (dim13 g Vg).
Variables (t : tree) (a : loc).
Variables (c : nat) (p : fpos).
Hypothesis Hc : (c < 3)%nat.
Hypothesis Hp : edge_of g Bz c p.
Local Notation o := (sg g Bz c p).
Lemma actv_dim : forall d, (d < 3)%nat -> actv Bz d = Nat.ltb d dim.
Proof using Vg FT. intros d Hd. destruct (rng_facts g Vg ml Bz FT d Hd) as [(A0 & A1 & _)|(A0 & A1 & _)]; rewrite A1; symmetry; [apply Nat.ltb_lt, A0|apply Nat.ltb_ge, A0]. Qed.
Lemma face_dirs_in : forall x, In x (face_dirs Bz) <-> odir g x /\ nonzeros x = 1%nat.
Proof using Vg FT.
  clear Hp Hc. intros [[x1 x2] x3]. unfold face_dirs. rewrite !actv_dim by lia. pose proof D13 as V. unfold odir, nonzeros. cbn [dd]. split.
  - intros H. rewrite !in_app_iff in H. split; [split|].
    + intros [|[|d]]; destruct (Nat.ltb 1 dim), (Nat.ltb 2 dim); cbn in H |- *; repeat match type of H with _ \/ _ => destruct H as [H|H] | False => contradiction end; injection H as <- <- <-; lia.
    + intros [|[|[|d]]] H1 H2; destruct (Nat.ltb_spec 1 dim), (Nat.ltb_spec 2 dim); cbn in H |- *; repeat match type of H with _ \/ _ => destruct H as [H|H] | False => contradiction end; injection H as <- <- <-; lia.
    + destruct (Nat.ltb 1 dim), (Nat.ltb 2 dim); cbn in H; repeat match type of H with _ \/ _ => destruct H as [H|H] | False => contradiction end; injection H as <- <- <-; reflexivity.
  - intros [[O1 O2] Hn]. pose proof (O1 0%nat) as P0. pose proof (O1 1%nat) as P1. pose proof (O1 2%nat) as P2. pose proof (O2 1%nat) as Q1. pose proof (O2 2%nat) as Q2. cbn [dd] in *. assert (X : forall z, -1 <= z <= 1 -> z <> 0 -> In z pm) by (intros z Hz1 Hz2; cbn; lia).
    rewrite !in_app_iff. destruct (Z.eqb_spec x1 0) as [->|N1], (Z.eqb_spec x2 0) as [->|N2], (Z.eqb_spec x3 0) as [->|N3]; cbn in Hn; try lia.
    + right. right. destruct (Nat.ltb_spec 2 dim); [apply (in_map (fun z => (0, 0, z))), X; assumption|lia].
    + right. left. destruct (Nat.ltb_spec 1 dim); [apply (in_map (fun z => (0, z, 0))), X; assumption|lia].
    + left. apply (in_map (fun z => (z, 0, 0))), X; assumption.
Qed.
Lemma edge_dirs_in : forall x, In x (edge_dirs Bz) <-> odir g x /\ nonzeros x = 2%nat.
Proof using Vg FT.
  clear Hp Hc. intros [[x1 x2] x3]. unfold edge_dirs. rewrite !actv_dim by lia. pose proof D13 as V. unfold odir, nonzeros. cbn [dd]. split.
  - intros H. split; [split|].
    + intros [|[|d]]; destruct (Nat.ltb 1 dim), (Nat.ltb 2 dim); cbn in H |- *; repeat match type of H with _ \/ _ => destruct H as [H|H] | False => contradiction end; injection H as <- <- <-; lia.
    + intros [|[|[|d]]] H1 H2; destruct (Nat.ltb_spec 1 dim), (Nat.ltb_spec 2 dim); cbn in H |- *; repeat match type of H with _ \/ _ => destruct H as [H|H] | False => contradiction end; injection H as <- <- <-; lia.
    + destruct (Nat.ltb 1 dim), (Nat.ltb 2 dim); cbn in H; repeat match type of H with _ \/ _ => destruct H as [H|H] | False => contradiction end; injection H as <- <- <-; reflexivity.
  - intros [[O1 O2] Hn]. pose proof (O1 0%nat) as P0. pose proof (O1 1%nat) as P1. pose proof (O1 2%nat) as P2. pose proof (O2 1%nat) as Q1. pose proof (O2 2%nat) as Q2. cbn [dd] in *. assert (X : forall z, -1 <= z <= 1 -> z <> 0 -> z = -1 \/ z = 1) by (intros z Hz1 Hz2; lia).
    destruct (Z.eqb_spec x1 0) as [->|N1], (Z.eqb_spec x2 0) as [->|N2], (Z.eqb_spec x3 0) as [->|N3]; cbn in Hn; try lia; destruct (Nat.ltb_spec 1 dim), (Nat.ltb_spec 2 dim); try lia; cbn;
      repeat match goal with N : ?z <> 0, P : -1 <= ?z <= 1 |- _ => destruct (X z P N) as [->| ->]; clear N end; tauto.
Qed.
Lemma nodup_faces : NoDup (face_dirs Bz).
Proof using . unfold face_dirs. destruct (actv Bz 1), (actv Bz 2); cbn; repeat constructor; cbn; intuition congruence. Qed.
Lemma nodup_edges : NoDup (edge_dirs Bz).
Proof using . unfold edge_dirs. destruct (actv Bz 1), (actv Bz 2); cbn; repeat constructor; cbn; intuition congruence. Qed.
(** Inner loops over the components. *)
Lemma comp_fold : forall (f : nat -> emf -> emf) (h : R -> R) o' E', (forall c' G, c' <> c -> get (f c' G) (at_pos c p) = get G (at_pos c p)) -> (dd o' c = 0 -> forall G, get (f c G) (at_pos c p) = h (get G (at_pos c p))) ->
  get (fold_left (fun G c' => f c' G) (comps o') E') (at_pos c p) = if Z.eqb (dd o' c) 0 then h (get E' (at_pos c p)) else get E' (at_pos c p).
Proof using Hc.
  intros f h o' E' H1 H2. rewrite (fold_point nat Nat.eq_dec (fun G c' => f c' G) (at_pos c p) h c (comps o') E' (NoDup_comps o') (fun G c' _ N => H1 c' G N)).
  - destruct (in_dec Nat.eq_dec c (comps o')) as [Hi|Hi], (Z.eqb_spec (dd o' c) 0) as [Z0|Z0]; try reflexivity; [apply in_comps in Hi; lia|contradiction Hi; apply in_comps; split; assumption].
  - intros Hi G. apply H2. apply in_comps in Hi. apply Hi.
Qed.
Local Notation lev := (Z.of_nat (level a)).
Local Notation nl := (nblevel g t a).
Lemma edge_others : forall o', nonzeros o' = 2%nat -> dd o' c = 0 -> forall d, (d < 3)%nat -> d <> c -> dd o' d <> 0.
Proof using Hc.
  clear Hp. intros o' Hn Oc d Hd Hdc Z0. unfold nonzeros in Hn. destruct (Z.eqb_spec (dd o' 0%nat) 0), (Z.eqb_spec (dd o' 1%nat) 0), (Z.eqb_spec (dd o' 2%nat) 0); cbn in Hn; try discriminate Hn; destruct c as [|[|[|c']]], d as [|[|[|d']]]; try lia; contradiction.
Qed.
Lemma clear_value : forall G, get (ClearCoarse g t Bz a G) (at_pos c p) =
  if (Nat.eqb (nonzeros o) 1 && Z.ltb lev (nl o)) || (Nat.eqb (nonzeros o) 2 && negb (edge_flag g t a o)) then 0%R else get G (at_pos c p).
Proof using Vg FT Hc Hp.
  intros G. unfold ClearCoarse.
  rewrite (fold_point dirt dirt_dec (clear_edge g t Bz a) (at_pos c p) (fun r => if edge_flag g t a o then r else 0%R) o (edge_dirs Bz) _ nodup_edges).
  - rewrite (fold_point dirt dirt_dec (clear_face g t Bz a) (at_pos c p) (fun r => if Z.ltb lev (nl o) then 0%R else r) o (face_dirs Bz) _ nodup_faces).
    + destruct (in_dec dirt_dec o (edge_dirs Bz)) as [He|He], (in_dec dirt_dec o (face_dirs Bz)) as [Hf|Hf].
      * apply edge_dirs_in in He. apply face_dirs_in in Hf. lia.
      * apply edge_dirs_in in He. rewrite (proj2 He). cbn [Nat.eqb andb orb]. destruct (edge_flag g t a o); reflexivity.
      * apply face_dirs_in in Hf. rewrite (proj2 Hf). cbn [Nat.eqb andb]. rewrite orb_false_r. reflexivity.
      * destruct (Nat.eqb_spec (nonzeros o) 1) as [X|X]; [contradiction Hf; apply face_dirs_in; split; [apply odir_sg|exact X]|]. destruct (Nat.eqb_spec (nonzeros o) 2) as [Y|Y]; [contradiction He; apply edge_dirs_in; split; [apply odir_sg|exact Y]|]. reflexivity.
    + intros G' o' Hi Hn. unfold clear_face. destruct (Z.ltb lev (nl o')); [|reflexivity]. apply face_dirs_in in Hi as [Od _]. rewrite (comp_fold (fun c' => Zero (inner Bz o' c')) (fun r => r)); [destruct (Z.eqb (dd o' c) 0); reflexivity| |].
      * intros c' G0 Nc. rewrite Zero_get. destruct (in_dec epos_dec _ _) as [Hx|Hx]; [|reflexivity]. exfalso. apply (other_comp c c' p _ (fun X => Nc (eq_sym X)) Hx).
      * intros Oc G0. rewrite Zero_get. destruct (in_dec epos_dec _ _) as [Hx|Hx]; [|reflexivity]. exfalso. apply Hn. apply (in_inner g Bz ml D13 FT o' c p Hc Hp Od Oc), Hx.
    + intros Hi G'. apply face_dirs_in in Hi as [Od _]. unfold clear_face. destruct (Z.ltb lev (nl o)); [|reflexivity]. rewrite (comp_fold (fun c' => Zero (inner Bz o c')) (fun r => 0%R)); [rewrite (sg_along g Bz c p Hc); reflexivity| |].
      * intros c' G0 Nc. rewrite Zero_get. destruct (in_dec epos_dec _ _) as [Hx|Hx]; [|reflexivity]. exfalso. apply (other_comp c c' p _ (fun X => Nc (eq_sym X)) Hx).
      * intros Oc G0. rewrite Zero_get. destruct (in_dec epos_dec _ _) as [Hx|Hx]; [reflexivity|]. contradiction Hx. apply (in_inner g Bz ml D13 FT o c p Hc Hp Od Oc). reflexivity.
  - intros G' o' Hi Hn. unfold clear_edge. destruct (edge_flag g t a o'); [reflexivity|]. apply edge_dirs_in in Hi as [Od N2]. rewrite (comp_fold (fun c' => Zero (whole Bz o' c')) (fun r => r)); [destruct (Z.eqb (dd o' c) 0); reflexivity| |].
    + intros c' G0 Nc. rewrite Zero_get. destruct (in_dec epos_dec _ _) as [Hx|Hx]; [|reflexivity]. exfalso. apply (other_comp c c' p _ (fun X => Nc (eq_sym X)) Hx).
    + intros Oc G0. rewrite Zero_get. destruct (in_dec epos_dec _ _) as [Hx|Hx]; [|reflexivity]. exfalso. apply Hn. apply (in_block_edge g Bz ml D13 FT o' c p Hc Hp Od Oc (edge_others o' N2 Oc)), Hx.
  - intros Hi G'. apply edge_dirs_in in Hi as [Od N2]. unfold clear_edge. destruct (edge_flag g t a o); [reflexivity|]. rewrite (comp_fold (fun c' => Zero (whole Bz o c')) (fun r => 0%R)); [rewrite (sg_along g Bz c p Hc); reflexivity| |].
    + intros c' G0 Nc. rewrite Zero_get. destruct (in_dec epos_dec _ _) as [Hx|Hx]; [|reflexivity]. exfalso. apply (other_comp c c' p _ (fun X => Nc (eq_sym X)) Hx).
    + intros Oc G0. rewrite Zero_get. destruct (in_dec epos_dec _ _) as [Hx|Hx]; [reflexivity|]. contradiction Hx. apply (in_block_edge g Bz ml D13 FT o c p Hc Hp Od Oc (edge_others o N2 Oc)). reflexivity.
Qed.
(** In the middle of the face. *)
Definition midb : bool := Nat.ltb (across o c) dim && Z.eqb (index p (across o c)) (first Bz dim (across o c) + cells_in Bz (across o c) / 2).
Definition factor : R :=
  if Nat.eqb (nonzeros o) 1 then if Z.eqb (nl o) lev then / 2 else if Z.ltb lev (nl o) then if midb then / 2 else 1 else 1
  else if Nat.eqb (nonzeros o) 2 then if Nat.eqb (nedge_fine g t a o) 1 then 1 else / INR (nedge_fine g t a o) else 1.
Lemma average_value : forall G, get (Average g t Bz a G) (at_pos c p) = (get G (at_pos c p) * factor)%R.
Proof using Vg FT Hc Hp.
  intros G. unfold Average.
  rewrite (fold_point dirt dirt_dec (average_edge g t Bz a) (at_pos c p) (fun r => if Nat.eqb (nedge_fine g t a o) 1 then r else (r * / INR (nedge_fine g t a o))%R) o (edge_dirs Bz) _ nodup_edges).
  - rewrite (fold_point dirt dirt_dec (average_face g t Bz a) (at_pos c p) (fun r => if Z.eqb (nl o) lev then (r * / 2)%R else if Z.ltb lev (nl o) then if midb then (r * / 2)%R else r else r) o (face_dirs Bz) _ nodup_faces).
    + unfold factor. destruct (in_dec dirt_dec o (edge_dirs Bz)) as [He|He], (in_dec dirt_dec o (face_dirs Bz)) as [Hf|Hf].
      * apply edge_dirs_in in He. apply face_dirs_in in Hf. lia.
      * apply edge_dirs_in in He. rewrite (proj2 He). cbn [Nat.eqb]. destruct (Nat.eqb (nedge_fine g t a o) 1); lra.
      * apply face_dirs_in in Hf. rewrite (proj2 Hf). cbn [Nat.eqb]. destruct (Z.eqb (nl o) lev); [lra|]. destruct (Z.ltb lev (nl o)); [destruct midb; lra|lra].
      * destruct (Nat.eqb_spec (nonzeros o) 1) as [X|X]; [contradiction Hf; apply face_dirs_in; split; [apply odir_sg|exact X]|]. destruct (Nat.eqb_spec (nonzeros o) 2) as [Y|Y]; [contradiction He; apply edge_dirs_in; split; [apply odir_sg|exact Y]|]. lra.
    + intros G' o' Hi Hn. unfold average_face. apply face_dirs_in in Hi as [Od N1]. destruct (Z.eqb (nl o') lev).
      * rewrite (comp_fold (fun c' => Scale (/ 2) (inner Bz o' c')) (fun r => r)); [destruct (Z.eqb (dd o' c) 0); reflexivity| |].
        -- intros c' G0 Nc. rewrite Scale_get by (apply NoDup_grid3; intros; apply NoDup_ints). destruct (in_dec epos_dec _ _) as [Hx|Hx]; [|reflexivity]. exfalso. apply (other_comp c c' p _ (fun X => Nc (eq_sym X)) Hx).
        -- intros Oc G0. rewrite Scale_get by (apply NoDup_grid3; intros; apply NoDup_ints). destruct (in_dec epos_dec _ _) as [Hx|Hx]; [|reflexivity]. exfalso. apply Hn. apply (in_inner g Bz ml D13 FT o' c p Hc Hp Od Oc), Hx.
      * destruct (Z.ltb lev (nl o')); [|reflexivity]. rewrite (comp_fold (fun c' G0 => if actv Bz (across o' c') then Scale (/ 2) (middle Bz o' c') G0 else G0) (fun r => r)); [destruct (Z.eqb (dd o' c) 0); reflexivity| |].
        -- intros c' G0 Nc. destruct (actv Bz (across o' c')); [|reflexivity]. rewrite Scale_get by (apply NoDup_grid3; intros; apply NoDup_ints). destruct (in_dec epos_dec _ _) as [Hx|Hx]; [|reflexivity]. exfalso. apply (other_comp c c' p _ (fun X => Nc (eq_sym X)) Hx).
        -- intros Oc G0. destruct (across_spec c Hc o' N1 Oc) as (X1 & X2 & X3 & X4). destruct (actv Bz (across o' c)) eqn:Ea; [|reflexivity]. rewrite Scale_get by (apply NoDup_grid3; intros; apply NoDup_ints). destruct (in_dec epos_dec _ _) as [Hx|Hx]; [|reflexivity]. exfalso. apply Hn.
           rewrite (in_middle g Bz ml D13 FT o' c p Hc Hp Od Oc) in Hx. apply dirt_ext. intros d Hd. rewrite dd_sg by exact Hd. specialize (Hx d Hd). destruct (Z.eqb_spec (dd o' d) 0) as [Z0|Z0]; [|exact Hx]. destruct Hx as [->|Hx]; [rewrite <- dd_sg by exact Hd; rewrite sg_along by exact Hd; exact Oc|].
           destruct (Nat.eq_dec d c) as [->|Ndc]; [rewrite <- dd_sg by exact Hd; rewrite sg_along by exact Hd; exact Oc|]. destruct (Nat.eq_dec d (across o' c)) as [->|Ndx]; [|contradiction (X4 d Hd Ndc Ndx)].
           destruct (dir_facts g Bz ml D13 FT c p (across o' c) Hp X1) as [(B0 & B1 & B2 & B3 & B4 & B5 & B6 & B7 & B8)|(B0 & B1 & _)]; [|congruence]. rewrite B2, B4 in Hx. assert (Y : 0 < cells_in Bz (across o' c) / 2 < cells_in Bz (across o' c)) by (split; [apply Z.div_str_pos; lia|apply Z.div_lt; lia]). rewrite Z0. destruct (B8 (proj2 (Nat.eqb_neq _ _) X2)) as [[? ?]|[[? ?]|[? ?]]]; lia.
    + intros Hi G'. apply face_dirs_in in Hi as [Od N1]. unfold average_face. pose proof (sg_along g Bz c p Hc) as Oc. destruct (Z.eqb (nl o) lev).
      * rewrite (comp_fold (fun c' => Scale (/ 2) (inner Bz o c')) (fun r => (r * / 2)%R)); [rewrite Oc; reflexivity| |].
        -- intros c' G0 Nc. rewrite Scale_get by (apply NoDup_grid3; intros; apply NoDup_ints). destruct (in_dec epos_dec _ _) as [Hx|Hx]; [|reflexivity]. exfalso. apply (other_comp c c' p _ (fun X => Nc (eq_sym X)) Hx).
        -- intros _ G0. rewrite Scale_get by (apply NoDup_grid3; intros; apply NoDup_ints). destruct (in_dec epos_dec _ _) as [Hx|Hx]; [reflexivity|]. contradiction Hx. apply (in_inner g Bz ml D13 FT o c p Hc Hp Od Oc). reflexivity.
      * destruct (Z.ltb lev (nl o)); [|reflexivity]. rewrite (comp_fold (fun c' G0 => if actv Bz (across o c') then Scale (/ 2) (middle Bz o c') G0 else G0) (fun r => if midb then (r * / 2)%R else r)); [rewrite Oc; reflexivity| |].
        -- intros c' G0 Nc. destruct (actv Bz (across o c')); [|reflexivity]. rewrite Scale_get by (apply NoDup_grid3; intros; apply NoDup_ints). destruct (in_dec epos_dec _ _) as [Hx|Hx]; [|reflexivity]. exfalso. apply (other_comp c c' p _ (fun X => Nc (eq_sym X)) Hx).
        -- intros _ G0. destruct (across_spec c Hc o N1 Oc) as (X1 & X2 & X3 & X4). unfold midb. rewrite <- (actv_dim (across o c) X1). destruct (actv Bz (across o c)) eqn:Ea; [|reflexivity]. cbn [andb]. rewrite Scale_get by (apply NoDup_grid3; intros; apply NoDup_ints). pose proof (in_middle g Bz ml D13 FT o c p Hc Hp Od Oc) as IM.
           destruct (dir_facts g Bz ml D13 FT c p (across o c) Hp X1) as [(B0 & B1 & B2 & B3 & B4 & B5 & B6 & B7 & B8)|(B0 & B1 & _)]; [|congruence].
           destruct (in_dec epos_dec _ _) as [Hx|Hx], (Z.eqb_spec (index p (across o c)) (first Bz dim (across o c) + cells_in Bz (across o c) / 2)) as [Y|Y]; try reflexivity; exfalso.
           ++ apply Y. pose proof (proj1 IM Hx (across o c) X1) as Z0. rewrite X3 in Z0. cbn [Z.eqb] in Z0. rewrite B2, B4 in Z0. destruct Z0 as [Z0|Z0]; [contradiction|exact Z0].
           ++ apply Hx. apply IM. intros d Hd. destruct (Z.eqb_spec (dd o d) 0) as [Z0|Z0]; [|rewrite dd_sg by exact Hd; reflexivity]. destruct (Nat.eq_dec d c) as [->|Ndc]; [left; reflexivity|]. destruct (Nat.eq_dec d (across o c)) as [->|Ndx]; [right; rewrite B2, B4; exact Y|contradiction (X4 d Hd Ndc Ndx)].
  - intros G' o' Hi Hn. unfold average_edge. destruct (Nat.eqb (nedge_fine g t a o') 1); [reflexivity|]. apply edge_dirs_in in Hi as [Od N2]. rewrite (comp_fold (fun c' => Scale (/ INR (nedge_fine g t a o')) (whole Bz o' c')) (fun r => r)); [destruct (Z.eqb (dd o' c) 0); reflexivity| |].
    + intros c' G0 Nc. rewrite Scale_get by (apply NoDup_grid3; intros; apply NoDup_ints). destruct (in_dec epos_dec _ _) as [Hx|Hx]; [|reflexivity]. exfalso. apply (other_comp c c' p _ (fun X => Nc (eq_sym X)) Hx).
    + intros Oc G0. rewrite Scale_get by (apply NoDup_grid3; intros; apply NoDup_ints). destruct (in_dec epos_dec _ _) as [Hx|Hx]; [|reflexivity]. exfalso. apply Hn. apply (in_block_edge g Bz ml D13 FT o' c p Hc Hp Od Oc (edge_others o' N2 Oc)), Hx.
  - intros Hi G'. apply edge_dirs_in in Hi as [Od N2]. unfold average_edge. destruct (Nat.eqb (nedge_fine g t a o) 1); [reflexivity|]. rewrite (comp_fold (fun c' => Scale (/ INR (nedge_fine g t a o)) (whole Bz o c')) (fun r => (r * / INR (nedge_fine g t a o))%R)); [rewrite (sg_along g Bz c p Hc); reflexivity| |].
    + intros c' G0 Nc. rewrite Scale_get by (apply NoDup_grid3; intros; apply NoDup_ints). destruct (in_dec epos_dec _ _) as [Hx|Hx]; [|reflexivity]. exfalso. apply (other_comp c c' p _ (fun X => Nc (eq_sym X)) Hx).
    + intros Oc G0. rewrite Scale_get by (apply NoDup_grid3; intros; apply NoDup_ints). destruct (in_dec epos_dec _ _) as [Hx|Hx]; [reflexivity|]. contradiction Hx. apply (in_block_edge g Bz ml D13 FT o c p Hc Hp Od Oc (edge_others o N2 Oc)). reflexivity.
Qed.
End C.
