(** Corrected fluxes and the sum over the mesh. *)
From Coq Require Import List Arith NArith ZArith Bool Lia Permutation Reals Lra.
From Verif Require Import Fv_Model Fv_Spec Fv_Proofs2 Fv_Proofs3 Loc LB_Spec Tags_Model Tags_Spec Tags_Proofs AMR_Model AMR_Spec AMR_Proofs AMR_Proofs2 Tree_Model Tree_Spec Tree_Proofs1 Tree_Proofs2 Tree_Proofs3 Tree_Proofs4 Tree_Proofs5 Tree_Proofs6 Tree_Proofs7 Tree_Proofs8 Tree_Restart Tree_Proofs9 Tree_Proofs10 Nbr_Model Nbr_Spec Nbr_Proofs Nbr_Proofs2 Nbr_Proofs3 Buf_Model Gho_Model Gho_Spec Gho_Proofs Gho_Proofs2 Con_Model Con_Spec Con_Proofs Con_Proofs2 Con_Proofs3.
Import ListNotations.
Local Open Scope Z_scope.

Lemma sum_flat : forall (X Y : Type) (phi : X -> Y -> R) (h : X -> list Y) l, Fv_Spec.sum (map (fun p => phi (fst p) (snd p)) (flat_map (fun x => map (pair x) (h x)) l)) = Fv_Spec.sum (map (fun x => Fv_Spec.sum (map (phi x) (h x))) l).
Proof. intros X Y phi h l. induction l as [|x l IH]; [reflexivity|]. cbn [flat_map map]. rewrite map_app, sum_app', sum_cons', IH, map_map. reflexivity. Qed.
Lemma sum_split : forall (X : Type) (phi : X -> R) (b : X -> bool) l, Fv_Spec.sum (map phi l) = (Fv_Spec.sum (map phi (filter b l)) + Fv_Spec.sum (map (fun x => if b x then 0%R else phi x) l))%R.
Proof. intros X phi b l. induction l as [|x l IH]; [cbn; lra|]. cbn [map filter]. rewrite sum_cons', IH. destruct (b x); cbn [map]; rewrite ?sum_cons'; lra. Qed.
Lemma recip_swap : forall a b e e', reciprocal a b e e' -> reciprocal b a e' e.
Proof. intros a b e e' (R1 & R2 & R3 & R4 & R5 & R6). repeat split; try assumption; [|symmetry; exact R6]. intros d. rewrite R5. lia. Qed.

Section N.
Variable g : grid.
Hypothesis Vg : valid_grid g.
Hypothesis NP : no_pole g.
Hypothesis NS : no_shear g.
Variable t : tree.
Hypothesis W : wf g t.
Hypothesis Bt : B g t.
Variable ml : bool.
Hypothesis ML : declared g ml (blocks t).
Variable Bz : bsz.
Hypothesis FT : fitting g Bz ml.
Local Notation dim := (gdim g).
Local Notation E := (E g t ml).
Local Notation D := (block_dims Bz).
Variables (G : loc -> geom) (F : loc -> vec).
Hypothesis GO : geometry_ok g Bz (blocks t) G.
Hypothesis FA : fluxes_agree g Bz (blocks t) F.

Definition faces (a : loc) : list nblock := face_loop (nbrs g ml t a).
Lemma faces_in : forall a, In a (blocks t) -> (forall e, In e (faces a) <-> E a e /\ is_face e = true) /\ NoDup (map n_bufid (faces a)) /\ NoDup (faces a) /\ forall fid, on_side fid (nbrs g ml t a) = filter (fun e => Nat.eqb (face_id e) fid) (faces a).
Proof using Vg NP NS W Bt ML.
  intros a Ha. destruct (lists g Vg NP NS t W Bt ml ML a Ha) as (za & ns & _ & _ & Es & Hin & ND). unfold faces, nbrs. rewrite Es, (face_loop_filter g Vg ml t a ns Es).
  split; [intros e; rewrite filter_In, Hin; reflexivity|]. assert (ND' : NoDup (map n_bufid (filter is_face ns))).
  { clear -ND. induction ns as [|x l IH]; [constructor|]. cbn [map] in ND. apply NoDup_cons_iff in ND as [N1 N2]. cbn [filter]. destruct (is_face x); [|apply IH, N2]. cbn [map]. constructor; [|apply IH, N2]. intros H. apply N1. apply in_map_iff in H as (y & Ey & Hy). apply filter_In in Hy as [Hy _]. rewrite <- Ey. apply in_map, Hy. }
  split; [exact ND'|]. split; [apply (NoDup_map_inv n_bufid), ND'|reflexivity].
Qed.
Lemma faces_search : forall a, In a (blocks t) -> SearchAndSetNeighbors g ml t a = Some (nbrs g ml t a).
Proof using Vg NP NS W Bt ML. intros a Ha. destruct (lists g Vg NP NS t W Bt ml ML a Ha) as (za & ns & _ & _ & Es & _). unfold nbrs. rewrite Es. reflexivity. Qed.
Definition finerb (a : loc) (e : nblock) : bool := Nat.ltb (level a) (level (n_loc e)).
Definition corr (e : nblock) : correction := mkC (face_id e) (Z.to_nat (n_f1 e)) (Z.to_nat (n_f2 e)) D (G (n_loc e)) (F (n_loc e)).
(** Finer neighbours. *)
Lemma finer_case : forall a e, In a (blocks t) -> In e (faces a) -> finerb a e = true -> ml = true /\ finer_nb g a e /\ wall g a (face_id e) = false /\ (n_f1 e = 0 \/ n_f1 e = 1) /\ (n_f2 e = 0 \/ n_f2 e = 1) /\
  In (Part (face_id e) (Z.to_nat (n_f1 e)) (Z.to_nat (n_f2 e))) (parts D (face_id e)) /\ Permutation (map (fun e => (n_f1 e, n_f2 e)) (on_side (face_id e) (nbrs g ml t a))) (halves dim) /\ (forall e', In e' (on_side (face_id e) (nbrs g ml t a)) -> level (n_loc e') = S (level a)).
Proof using Vg NP NS W Bt ML FT.
  intros a e Ha He Hf. destruct (faces_in a Ha) as (Hi & _ & _ & Hon). pose proof He as He'. apply Hi in He' as [HE Hfc]. destruct (face_entry g Vg t W ml ML a e Ha HE Hfc) as (Lf & _ & _). apply Nat.ltb_lt in Hf.
  assert (Hos : In e (on_side (face_id e) (nbrs g ml t a))) by (rewrite Hon; apply filter_In; split; [exact He|apply Nat.eqb_refl]).
  destruct (side_cases g Vg NP NS t W Bt ml ML a (nbrs g ml t a) (face_id e) Ha (faces_search a Ha) Lf) as [[_ X]|[(_ & x & X & Lx)|(Hw & Hm & P & Lv)]].
  - rewrite X in Hos. contradiction Hos.
  - rewrite X in Hos. destruct Hos as [->|[]]. lia.
  - split; [exact Hm|]. split.
    { destruct (kinds g Vg NP NS t W Bt ml ML a e Ha HE) as [[L _]|[[_ H]|[_ (L & _)]]]; [lia|exact H|lia]. }
    split; [exact Hw|]. assert (Hh : In (n_f1 e, n_f2 e) (halves dim)) by (apply (Permutation_in _ P); apply in_map_iff; exists e; split; [reflexivity|exact Hos]).
    assert (H01 : (n_f1 e = 0 \/ n_f1 e = 1) /\ (n_f2 e = 0 \/ n_f2 e = 1)).
    { clear -Hh Vg. pose proof (dim13 g Vg) as D13. unfold halves in Hh. assert (Ed : dim = 1%nat \/ dim = 2%nat \/ dim = 3%nat) by lia. destruct Ed as [Ed|[Ed|Ed]]; rewrite Ed in Hh; cbn in Hh; decompose [or] Hh; try contradiction; match goal with X : _ = (n_f1 e, n_f2 e) |- _ => injection X as X1 X2; rewrite <- X1, <- X2; lia end. }
    split; [apply H01|]. split; [apply H01|]. split; [|split; [exact P|exact Lv]]. rewrite (D_parts_map g Vg ml Bz FT). apply in_map_iff. exists (n_f1 e, n_f2 e). split; [reflexivity|exact Hh].
Qed.
Lemma corr_ok : forall a e, In a (blocks t) -> In e (faces a) -> finerb a e = true -> good_corr D (corr e) /\ forall p, In p (slots D (c_fid (corr e)) (c_fi1 (corr e)) (c_fi2 (corr e))) ->
  Fv_Spec.at_ (areas (c_fid (corr e)) (G a)) p = area_of (c_g (corr e)) (c_fid (corr e)) (fine_faces D (c_d (corr e)) (c_fid (corr e)) (c_fi1 (corr e)) (c_fi2 (corr e)) p) /\ Fv_Spec.at_ (areas (c_fid (corr e)) (G a)) p <> 0%R.
Proof using Vg NP NS W Bt ML FT GO.
  intros a e Ha He Hf. destruct (finer_case a e Ha He Hf) as (Hm & Hn & _ & H1 & H2 & Hp & _). apply (faces_in a Ha) in He as [HE Hfc]. destruct (face_entry g Vg t W ml ML a e Ha HE Hfc) as (Lf & _ & _). destruct (entry_block g Vg NP t W Bt ml ML a e Ha HE) as [Hb _].
  unfold corr, good_corr; cbn [c_fid c_fi1 c_fi2 c_d c_g c_f]. split.
  - split; [split; [reflexivity|]; split; reflexivity|]. split; [apply (D_sides g Vg ml Bz FT), Lf|exact Hp].
  - intros p Hq. apply (finer_area g Vg t W ml ML Bz FT G a e p GO Ha Hb HE Hfc Hm Hn H1 H2 Hq).
Qed.
(** What arrives. *)
Lemma flux_arr : forall a e, In a (blocks t) -> In e (faces a) -> flux_arriving g ml t Bz G F a e = Some (if finerb a e then LoadFlux D (G (n_loc e)) (F (n_loc e)) (opposite (face_id e)) else []).
Proof using Vg NP NS W Bt ML.
  intros a e Ha Hea. pose proof Hea as He. apply (faces_in a Ha) in He as [He Hfc]. destruct (entry_block g Vg NP t W Bt ml ML a e Ha He) as [Hb _]. set (b := n_loc e) in *. pose proof (dim13 g Vg) as D13.
  pose proof Ha as Ha'. apply (in_blocks g t a W) in Ha' as [Ca (za & Ka)]. pose proof Hb as Hb'. apply (in_blocks g t b W) in Hb' as [Cb (zb & Kb)].
  destruct (recip_ex g Vg NP t W Bt ml ML a za e Ca Ka He) as (_ & _ & e0 & He0 & (Q1 & Q2 & Q3 & Q4 & Q5 & Q6)). fold b in He0.
  unfold flux_arriving. fold b. rewrite (faces_search b Hb). fold (faces b).
  assert (H0 : In e0 (faces b)) by (apply (faces_in b Hb); split; [exact He0|unfold is_face in *; rewrite Q6; exact Hfc]).
  destruct (find (targets a (n_bufid e)) (faces b)) as [e'|] eqn:Ef.
  - apply find_some in Ef as [Hi Ht]. unfold targets in Ht. apply andb_prop in Ht as [Ht1 Ht2]. destruct (loc_eqb_spec (n_loc e') a) as [El|]; [|discriminate Ht1]. destruct (n_target e') as [k|] eqn:Ek; [|discriminate Ht2]. apply Nat.eqb_eq in Ht2. subst k.
    pose proof Hi as Hi'. apply (faces_in b Hb) in Hi' as [He' Hfc'].
    destruct (recip_ex g Vg NP t W Bt ml ML b zb e' Cb Kb He') as (_ & _ & e2 & He2 & (P1 & P2 & P3 & P4 & P5 & P6)). rewrite El in He2.
    assert (Eb : n_bufid e2 = n_bufid e) by congruence.
    assert (H2 : In e2 (faces a)) by (apply (faces_in a Ha); split; [exact He2|unfold is_face in *; rewrite P6; exact Hfc']).
    assert (e2 = e) by (apply (bufid_inj (faces a)); [apply (faces_in a Ha)|exact H2|exact Hea|exact Eb]). subst e2.
    assert (Hopp : face_id e' = opposite (face_id e)).
    { destruct (entry_facts g Vg t W ml ML a e Ha He) as (_ & _ & _ & Ho & Ht & _). destruct (entry_facts g Vg t W ml ML b e' Hb He') as (_ & _ & _ & Ho' & Ht' & _).
      assert (T1 : dtype (edir e) = face) by (unfold is_face in Hfc; rewrite Ht in Hfc; destruct (dtype (edir e)); [reflexivity|discriminate Hfc|discriminate Hfc]).
      assert (T2 : dtype (edir e') = face) by (unfold is_face in Hfc'; rewrite Ht' in Hfc'; destruct (dtype (edir e')); [reflexivity|discriminate Hfc'|discriminate Hfc']).
      apply (face_id_opposite dim); try assumption. intros d Hd. rewrite P5, od_opp. ring. }
    unfold SendFlux. rewrite El, Hopp. reflexivity.
  - exfalso. pose proof (find_none _ _ Ef e0 H0) as Hf. unfold targets in Hf. rewrite Q1, Q4 in Hf. rewrite Nat.eqb_refl in Hf. destruct (loc_eqb_spec a a); [discriminate Hf|contradiction].
Qed.
Lemma receive : forall a es f, In a (blocks t) -> (forall e, In e es -> In e (faces a)) -> ReceiveFlux g ml t Bz G F a es f = Some (fold_left (correct D) (map corr (filter (finerb a) es)) f).
Proof using Vg NP NS W Bt ML.
  intros a es. induction es as [|e es IH]; intros f Ha H; [reflexivity|]. cbn [ReceiveFlux]. rewrite (flux_arr a e Ha (H e (or_introl eq_refl))). cbn [filter]. fold (finerb a e).
  destruct (finerb a e) eqn:Ef; rewrite IH by (try exact Ha; intros x Hx; apply H; right; exact Hx); reflexivity.
Qed.

(** Receiving first does not change what is sent. *)
Lemma send_after : forall a es f1 e, In a (blocks t) -> (forall x, In x es -> In x (faces a)) -> ReceiveFlux g ml t Bz G F a es (F a) = Some f1 -> In e (faces a) -> SendFlux Bz G (fun l => if loc_eqb l a then f1 else F l) a e = SendFlux Bz G F a e.
Proof using Vg NP NS W Bt ML FT.
  intros a es f1 e Ha Hes HR He. unfold SendFlux. destruct (Nat.ltb_spec (level (n_loc e)) (level a)) as [L|L]; [|reflexivity]. destruct (loc_eqb_spec a a) as [_|X]; [|contradiction X; reflexivity]. rewrite (receive a es (F a) Ha Hes) in HR. injection HR as <-.
  destruct (faces_in a Ha) as (Hi & _ & _ & Hon). pose proof He as He'. apply Hi in He' as [HE Hfc]. destruct (face_entry g Vg t W ml ML a e Ha HE Hfc) as (Lf & _ & _).
  destruct (filter (finerb a) es) as [|x0 l0] eqn:El; [reflexivity|]. assert (Hm : ml = true). { assert (Hx : In x0 (filter (finerb a) es)) by (rewrite El; left; reflexivity). apply filter_In in Hx as [X1 X2]. apply (finer_case a x0 Ha (Hes x0 X1) X2). }
  rewrite <- El. destruct (D_even g Vg ml Bz FT Hm) as (E1 & E2 & E3). pose proof (D_nonempty g Vg ml Bz FT) as NE. pose proof (proj2 (D_sides g Vg ml Bz FT (face_id e)) Lf) as Hsd. apply load_ext; try assumption.
  intros p Hp. apply keep_values; try assumption; [exact (G a)|]. intros c Hc. apply in_map_iff in Hc as (e' & <- & He2). apply filter_In in He2 as [He2 Hf2]. specialize (Hes e' He2). destruct (finer_case a e' Ha Hes Hf2) as (_ & _ & _ & _ & _ & Hpp & _ & Hlv). pose proof Hes as Hes'. apply Hi in Hes' as [HE2 Hfc2]. destruct (face_entry g Vg t W ml ML a e' Ha HE2 Hfc2) as (Lf2 & _ & _). split.
  - unfold corr, good_corr; cbn [c_fid c_fi1 c_fi2 c_d c_g c_f]. split; [split; [reflexivity|]; split; reflexivity|]. split; [apply (D_sides g Vg ml Bz FT), Lf2|exact Hpp].
  - cbn [corr c_fid]. intros Ef. specialize (Hlv e). rewrite Ef in Hlv. assert (Hos : In e (on_side (face_id e) (nbrs g ml t a))) by (rewrite Hon; apply filter_In; split; [exact He|apply Nat.eqb_refl]). specialize (Hlv Hos). lia.
Qed.
(** The corrected fluxes. *)
Variable es : loc -> list nblock.
Hypothesis Pes : forall a, In a (blocks t) -> Permutation (faces a) (es a).
Definition cs (a : loc) : list correction := map corr (filter (finerb a) (es a)).
Definition F' (a : loc) : vec := fold_left (correct D) (cs a) (F a).
Lemma es_in : forall a e, In a (blocks t) -> (In e (es a) <-> In e (faces a)).
Proof using Pes. intros a e Ha. split; apply Permutation_in; [apply Permutation_sym|]; apply Pes, Ha. Qed.
Lemma received : forall a, In a (blocks t) -> ReceiveFlux g ml t Bz G F a (es a) (F a) = Some (F' a).
Proof using Vg NP NS W Bt ML Pes. intros a Ha. apply receive; [exact Ha|]. intros e He. apply (es_in a e Ha), He. Qed.
Lemma cs_in : forall a c, In a (blocks t) -> In c (cs a) -> exists e, In e (faces a) /\ finerb a e = true /\ c = corr e.
Proof using Pes. intros a c Ha Hc. apply in_map_iff in Hc as (e & <- & He). apply filter_In in He as [He1 He2]. exists e. split; [apply (es_in a e Ha), He1|]. split; [exact He2|reflexivity]. Qed.
Lemma cs_nodup : forall a, In a (blocks t) -> NoDup (map key (cs a)).
Proof using Vg NP NS W Bt ML FT Pes.
  intros a Ha. unfold cs. rewrite map_map. apply NoDup_map_inj.
  - apply NoDup_filter. apply (Permutation_NoDup (Pes a Ha)). apply (faces_in a Ha).
  - intros x y Hx Hy Exy. apply filter_In in Hx as [Hx Fx]. apply filter_In in Hy as [Hy Fy]. apply (es_in a x Ha) in Hx. apply (es_in a y Ha) in Hy. unfold key, corr in Exy. cbn [c_fid c_fi1 c_fi2] in Exy. injection Exy as Ei E1 E2.
    destruct (finer_case a x Ha Hx Fx) as (_ & _ & _ & X1 & X2 & _ & P & _). destruct (finer_case a y Ha Hy Fy) as (_ & _ & _ & Y1 & Y2 & _). assert (n_f1 x = n_f1 y /\ n_f2 x = n_f2 y) by lia.
    destruct (faces_in a Ha) as (_ & _ & _ & Hon). assert (Ox : In x (on_side (face_id x) (nbrs g ml t a))) by (rewrite Hon; apply filter_In; split; [exact Hx|apply Nat.eqb_refl]). assert (Oy : In y (on_side (face_id x) (nbrs g ml t a))) by (rewrite Hon, Ei; apply filter_In; split; [exact Hy|apply Nat.eqb_refl]).
    assert (NDh : NoDup (map (fun e => (n_f1 e, n_f2 e)) (on_side (face_id x) (nbrs g ml t a)))). { apply (Permutation_NoDup (Permutation_sym P)). unfold halves. pose proof (dim13 g Vg) as D13. assert (Ed : dim = 1%nat \/ dim = 2%nat \/ dim = 3%nat) by lia. destruct Ed as [->|[->| ->]]; cbn; repeat constructor; cbn; intuition congruence. }
    revert NDh Ox Oy. generalize (on_side (face_id x) (nbrs g ml t a)). intros l. induction l as [|z l IH]; intros NDh Ox Oy; [contradiction Ox|]. cbn [map] in NDh. apply NoDup_cons_iff in NDh as [N1 N2].
    destruct Ox as [->|Ox], Oy as [->|Oy]; [reflexivity| | |apply IH; assumption]; exfalso; apply N1; apply in_map_iff; [exists y|exists x]; (split; [f_equal; lia|assumption]).
Qed.
Lemma kept_side : forall a fid, In a (blocks t) -> (fid < 2 * dim)%nat -> (forall e, In e (faces a) -> face_id e = fid -> finerb a e = false) -> patch_flow D (G a) (F' a) (Whole fid) = patch_flow D (G a) (F a) (Whole fid).
Proof using Vg NP NS W Bt ML FT GO Pes.
  intros a fid Ha Hf H. unfold F'. destruct (cs a) as [|c l] eqn:Ec; [reflexivity|]. rewrite <- Ec. assert (Hc : In c (cs a)) by (rewrite Ec; left; reflexivity). destruct (cs_in a c Ha Hc) as (e & He & Hfe & _). destruct (finer_case a e Ha He Hfe) as (Hm & _).
  destruct (D_even g Vg ml Bz FT Hm) as (E1 & E2 & E3). apply keep_side; try assumption; [apply (D_nonempty g Vg ml Bz FT)|apply (D_sides g Vg ml Bz FT), Hf|]. intros c' Hc'. destruct (cs_in a c' Ha Hc') as (e' & He' & Hfe' & ->). split; [apply (corr_ok a e' Ha He' Hfe')|]. intros X. cbn [corr c_fid] in X. rewrite (H e' He' X) in Hfe'. discriminate Hfe'.
Qed.
Definition psi (a : loc) (e : nblock) : R := patch_flow D (G a) (F' a) (if finerb a e then Part (face_id e) (Z.to_nat (n_f1 e)) (Z.to_nat (n_f2 e)) else Whole (face_id e)).
Lemma side_sum : forall a fid, In a (blocks t) -> (fid < 2 * dim)%nat -> wall g a fid = false -> Fv_Spec.sum (map (psi a) (on_side fid (nbrs g ml t a))) = patch_flow D (G a) (F' a) (Whole fid).
Proof using Vg NP NS W Bt ML FT.
  intros a fid Ha Hf Hw. destruct (faces_in a Ha) as (_ & _ & _ & Hon).
  destruct (side_cases g Vg NP NS t W Bt ml ML a (nbrs g ml t a) fid Ha (faces_search a Ha) Hf) as [[X _]|[(_ & e & X & Lx)|(_ & Hm & P & Lv)]]; [congruence| |].
  - rewrite X. cbn [map]. rewrite sum_cons', sum_nil'. assert (He : In e (on_side fid (nbrs g ml t a))) by (rewrite X; left; reflexivity). rewrite Hon in He. apply filter_In in He as [_ He]. apply Nat.eqb_eq in He. unfold psi, finerb. rewrite (proj2 (Nat.ltb_ge _ _) Lx), He. lra.
  - destruct (D_even g Vg ml Bz FT Hm) as (E1 & E2 & E3). rewrite <- parts_whole; try assumption; [|apply (D_nonempty g Vg ml Bz FT)|apply (D_sides g Vg ml Bz FT), Hf]. rewrite (D_parts_map g Vg ml Bz FT), map_map.
    rewrite <- (sum_perm _ _ (Permutation_map (fun x => patch_flow D (G a) (F' a) (Part fid (Z.to_nat (fst x)) (Z.to_nat (snd x)))) P)), map_map. apply Fv_Proofs2.sum_ext. intros e He. specialize (Lv e He). rewrite Hon in He. apply filter_In in He as [_ He]. apply Nat.eqb_eq in He.
    unfold psi, finerb. rewrite (proj2 (Nat.ltb_lt (level a) (level (n_loc e)))) by lia. rewrite He. reflexivity.
Qed.
Lemma block_sum : forall a, In a (blocks t) -> Fv_Spec.sum (map (whole D (G a) (F' a)) (sides D)) =
  (Fv_Spec.sum (map (fun fid => flow (G a) (F a) fid (Fv_Spec.side D fid)) (filter (wall g a) (sides D))) + Fv_Spec.sum (map (psi a) (faces a)))%R.
Proof using Vg NP NS W Bt ML FT GO Pes.
  intros a Ha. destruct (faces_in a Ha) as (Hi & _ & _ & Hon). rewrite (sum_split _ _ (wall g a)). f_equal.
  - apply Fv_Proofs2.sum_ext. intros fid Hf. apply filter_In in Hf as [Hf Hw]. apply (D_sides g Vg ml Bz FT) in Hf. change (patch_flow D (G a) (F' a) (Whole fid) = patch_flow D (G a) (F a) (Whole fid)). apply kept_side; [exact Ha|exact Hf|]. intros e He Ee.
    destruct (finerb a e) eqn:Fe; [|reflexivity]. destruct (finer_case a e Ha He Fe) as (_ & _ & X & _). congruence.
  - rewrite (sum_key _ (psi a) face_id (sides D) (faces a)).
    + apply Fv_Proofs2.sum_ext. intros fid Hf. apply (D_sides g Vg ml Bz FT) in Hf. rewrite <- Hon. destruct (wall g a fid) eqn:Hw; [|symmetry; apply side_sum; assumption].
      destruct (side_cases g Vg NP NS t W Bt ml ML a (nbrs g ml t a) fid Ha (faces_search a Ha) Hf) as [[_ X]|[(X & _)|(X & _)]]; [rewrite X; reflexivity|congruence|congruence].
    + apply D_sides_nodup.
    + intros e He. apply Hi in He as [HE Hfc]. apply (D_sides g Vg ml Bz FT). apply (face_entry g Vg t W ml ML a e Ha HE Hfc).
Qed.
(** What leaves a block through a patch enters the neighbour. *)
Lemma opposite_psi : forall a b e e', In a (blocks t) -> In b (blocks t) -> In e (faces a) -> In e' (faces b) -> reciprocal a b e e' -> (level a <= level b)%nat -> psi b e' = (- psi a e)%R.
Proof using Vg NP NS W Bt ML FT GO FA Pes.
  intros a b e e' Ha Hb He He' (R1 & R2 & R3 & R4 & R5 & R6) L. pose proof (dim13 g Vg) as D13. pose proof He as HE. apply (faces_in a Ha) in HE as [HE Hfc]. pose proof He' as HE'. apply (faces_in b Hb) in HE' as [HE' Hfc'].
  destruct (face_entry g Vg t W ml ML a e Ha HE Hfc) as (Lf & Ho & _). destruct (face_entry g Vg t W ml ML b e' Hb HE' Hfc') as (Lf' & Ho' & _).
  assert (Hopp : face_id e' = opposite (face_id e)).
  { destruct (entry_facts g Vg t W ml ML a e Ha HE) as (_ & _ & _ & Od & Ht & _). destruct (entry_facts g Vg t W ml ML b e' Hb HE') as (_ & _ & _ & Od' & Ht' & _).
    assert (T1 : dtype (edir e) = face) by (unfold is_face in Hfc; rewrite Ht in Hfc; destruct (dtype (edir e)); [reflexivity|discriminate Hfc|discriminate Hfc]).
    assert (T2 : dtype (edir e') = face) by (unfold is_face in Hfc'; rewrite Ht' in Hfc'; destruct (dtype (edir e')); [reflexivity|discriminate Hfc'|discriminate Hfc']).
    apply (face_id_opposite dim); try assumption. intros d Hd. rewrite <- !off_dir. apply R5. }
  (* the side of b: no finer neighbour there *)
  assert (Wb : psi b e' = patch_flow D (G b) (F b) (Whole (opposite (face_id e)))).
  { unfold psi, finerb. rewrite R2, (proj2 (Nat.ltb_ge _ _) L), Hopp. apply kept_side; [exact Hb|rewrite <- Hopp; exact Lf'|]. intros x Hx Ex. destruct (finerb b x) eqn:Fx; [|reflexivity]. exfalso. destruct (finer_case b x Hb Hx Fx) as (_ & _ & _ & _ & _ & _ & _ & X).
    destruct (faces_in b Hb) as (_ & _ & _ & Hon). specialize (X e'). rewrite Ex, <- Hopp, Hon in X. rewrite R2 in X. specialize (X ltac:(apply filter_In; split; [exact He'|apply Nat.eqb_refl])). lia. }
  rewrite Wb. unfold psi. destruct (finerb a e) eqn:Fe.
  - destruct (finer_case a e Ha He Fe) as (Hm & _). destruct (D_even g Vg ml Bz FT Hm) as (E1 & E2 & E3).
    pose proof (all_corrections D (G a) (F a) (cs a) (D_nonempty g Vg ml Bz FT) E1 E2 E3 (cs_nodup a Ha)) as AC. rewrite <- R1.
    assert (Hc : In (corr e) (cs a)) by (apply in_map_iff; exists e; split; [reflexivity|]; apply filter_In; split; [apply (es_in a e Ha), He|exact Fe]).
    specialize (AC ltac:(intros c Hc'; destruct (cs_in a c Ha Hc') as (x & Hx & Fx & ->); destruct (corr_ok a x Ha Hx Fx) as ((G1 & G2 & G3) & G4); split; [exact G1|]; split; [exact G2|]; split; [exact G3|exact G4]) (corr e) Hc).
    unfold corr in AC; cbn [c_fid c_fi1 c_fi2 c_d c_g c_f] in AC. fold (F' a) in AC. rewrite AC. lra.
  - assert (Lab : level b = level a) by (unfold finerb in Fe; apply Nat.ltb_ge in Fe; rewrite R1 in Fe; lia).
    assert (Sn : same_nb g a e). { destruct (kinds g Vg NP NS t W Bt ml ML a e Ha HE) as [X|[[_ (X & _)]|[_ (X & _)]]]; [exact X|rewrite R1 in X; lia|rewrite R1 in X; lia]. }
    assert (Wa : patch_flow D (G a) (F' a) (Whole (face_id e)) = patch_flow D (G a) (F a) (Whole (face_id e))).
    { apply kept_side; [exact Ha|exact Lf|]. intros x Hx Ex. destruct (finerb a x) eqn:Fx; [|reflexivity]. exfalso. destruct (finer_case a x Ha Hx Fx) as (_ & _ & _ & _ & _ & _ & _ & X). destruct (faces_in a Ha) as (_ & _ & _ & Hon). specialize (X e). rewrite Ex, Hon, R1 in X.
      specialize (X ltac:(apply filter_In; split; [exact He|apply Nat.eqb_refl])). lia. }
    rewrite Wa. apply opposite_flow; [lia|]. intros p Hp. destruct (flip_same g Vg t W ml ML Bz FT a e p Ha HE Hfc Sn Hp) as [Q1 Q2]. rewrite R1 in Q2. pose proof (side_face_of g Vg ml Bz FT (face_id e) p Lf Hp) as Q0.
    split; [apply (go_same _ _ _ _ GO a b); try assumption; [congruence|apply div2_lt, Lf]|apply (FA a b); try assumption; [congruence|apply div2_lt, Lf]].
Qed.
Lemma all_psi : Fv_Spec.sum (map (fun a => Fv_Spec.sum (map (psi a) (faces a))) (blocks t)) = 0%R.
Proof using Vg NP NS W Bt ML FT GO FA Pes.
  rewrite <- (sum_flat _ _ psi faces (blocks t)). set (P := flat_map (fun x => map (pair x) (faces x)) (blocks t)).
  assert (HP : forall a e, In (a, e) P <-> In a (blocks t) /\ In e (faces a)).
  { intros a e. unfold P. rewrite in_flat_map. split; [intros (x & Hx & H); apply in_map_iff in H as (y & Ey & Hy); injection Ey as -> ->; split; assumption|intros [H1 H2]; exists a; split; [exact H1|]; apply in_map_iff; exists e; split; [reflexivity|exact H2]]. }
  apply (sum_pairing _ _ (fun p q => reciprocal (fst p) (fst q) (snd p) (snd q)) (length P) P (le_n _)).
  - apply NoDup_pairs; [apply (blocks_nodup g t W)|]. intros a Ha. apply (faces_in a Ha).
  - intros [a e] Hp. apply HP in Hp as [Ha He]. pose proof He as HE. apply (faces_in a Ha) in HE as [HE Hfc]. destruct (entry_block g Vg NP t W Bt ml ML a e Ha HE) as [Hb _]. pose proof Ha as Ha'. apply (in_blocks g t a W) in Ha' as [Ca (za & Ka)].
    destruct (recip_ex g Vg NP t W Bt ml ML a za e Ca Ka HE) as (_ & _ & e0 & He0 & (Q1 & Q2 & Q3 & Q4 & Q5 & Q6)). exists (n_loc e, e0). split.
    + apply HP. split; [exact Hb|]. apply (faces_in _ Hb). split; [exact He0|unfold is_face in *; rewrite Q6; exact Hfc].
    + cbn [fst snd]. split; [reflexivity|]. split; [exact Q1|]. split; [exact Q3|]. split; [exact Q4|]. split; [|exact Q6]. intros d. rewrite !off_dir, Q5, od_opp. reflexivity.
  - intros [a e] [b e'] _ _ H. apply recip_swap; exact H.
  - intros [a e] [b e'] [b2 e2] _ H1 H2 (R1 & _ & R3 & _) (S1 & _ & S3 & _). cbn [fst snd] in *. apply HP in H1 as [Hb H1]. apply HP in H2 as [Hb2 H2]. assert (Eb : b2 = b) by congruence. clear S1 R1. subst b2. f_equal. apply (bufid_inj (faces b)); [apply (faces_in b Hb)|exact H1|exact H2|congruence].
  - intros [a e] [b e'] H1 H2 R. cbn [fst snd] in *. apply HP in H1 as [Ha H1]. apply HP in H2 as [Hb H2]. destruct (Nat.le_ge_cases (level a) (level b)) as [L|L].
    + apply opposite_psi; assumption.
    + rewrite (opposite_psi b a e' e Hb Ha H2 H1 (recip_swap _ _ _ _ R) L). lra.
Qed.
Lemma conserved : forall U w, content Bz (blocks t) G (fun a => AddFluxDivergence D (G a) (F' a) w (U a)) = (content Bz (blocks t) G U - w * outflow g Bz (blocks t) G F)%R.
Proof using Vg NP NS W Bt ML FT GO FA Pes.
  intros U w. pose proof all_psi as AP. unfold content, outflow.
  assert (X : forall l, incl l (blocks t) -> Fv_Spec.sum (map (fun a => total D (G a) (AddFluxDivergence D (G a) (F' a) w (U a))) l) = (Fv_Spec.sum (map (fun a => total D (G a) (U a)) l) - w * (Fv_Spec.sum (map (fun a => Fv_Spec.sum (map (fun fid => flow (G a) (F a) fid (Fv_Spec.side D fid)) (filter (wall g a) (sides D)))) l) + Fv_Spec.sum (map (fun a => Fv_Spec.sum (map (psi a) (faces a))) l)))%R).
  { induction l as [|a l IH]; intros Hl; [cbn [map]; rewrite !sum_nil'; lra|]. cbn [map]. rewrite !sum_cons', IH by (intros x Hx; apply Hl; right; exact Hx). assert (Ha : In a (blocks t)) by (apply Hl; left; reflexivity).
    rewrite block_change; [|apply (D_nonempty g Vg ml Bz FT)|intros k j i Hk; apply (go_volume _ _ _ _ GO a k j i Ha Hk)]. rewrite (block_sum a Ha). ring. }
  rewrite (X (blocks t) (incl_refl _)), AP. ring.
Qed.
End N.
