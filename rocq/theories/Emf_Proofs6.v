(** The electromotive forces after the correction. *)
From Coq Require Import List Arith NArith ZArith Bool Lia Permutation Reals Lra.
From Verif Require Fv_Spec Fv_Proofs2.
From Verif Require Import Loc LB_Spec Tags_Model Tags_Spec Tags_Proofs AMR_Model AMR_Spec AMR_Proofs AMR_Proofs2 Tree_Model Tree_Spec Tree_Proofs1 Tree_Proofs2 Tree_Proofs3 Tree_Proofs4 Tree_Proofs5 Tree_Proofs6 Tree_Proofs7 Tree_Proofs8 Tree_Restart Tree_Proofs9 Tree_Proofs10 Nbr_Model Nbr_Spec Nbr_Proofs Nbr_Proofs2 Nbr_Proofs3 Buf_Model Gho_Model Gho_Spec Gho_Proofs Gho_Proofs2 Con_Model Con_Spec Con_Proofs Emf_Model Emf_Spec Emf_Proofs Emf_Proofs2 Emf_Proofs3 Emf_Proofs4 Emf_Proofs5.
Import ListNotations.
Local Open Scope Z_scope.

Lemma sum_permutation : forall l l', Permutation l l' -> Fv_Spec.sum l = Fv_Spec.sum l'.
Proof. intros l l' H. induction H as [|x l l' H IH|x y l|l l' l'' H1 IH1 H2 IH2]; rewrite ?sum_cons'; [reflexivity|rewrite IH; reflexivity|lra|congruence]. Qed.
Lemma place_nx : forall g B b c q d, (d < 3)%nat -> place g B b (nx c q) d = place g B b q d + (if Nat.eqb d c then 1 else 0).
Proof. intros g B b c q d Hd. unfold place. rewrite index_nx by exact Hd. destruct (Nat.eqb d c); lia. Qed.

Section P.
Variable g : grid.
Hypothesis Vg : valid_grid g.
Hypothesis NP : no_pole g.
Hypothesis NS : no_shear g.
Variable t : tree.
Hypothesis W : wf g t.
Hypothesis Bt : B g t.
Variable ml : bool.
Hypothesis ML : declared g ml (blocks t).
Variable Bz : bsz.
Hypothesis FT : fitting g Bz ml.
Local Notation dim := (gdim g).
Local Notation E := (E g t ml).
Local Notation D13 := (dim13 g Vg).
Local Notation bs := (blocks t).
Local Notation first := (first Bz dim).
Local Notation nn := (cells_in Bz).
Local Notation edge_of := (edge_of g Bz).
Variables L F : loc -> emf.
Hypothesis LO : lengths_ok g Bz bs L.

Section C.
Variable a : loc.
Hypothesis Ha : In a bs.
Variables (c : nat) (p : fpos).
Hypothesis Hc : (c < 3)%nat.
Hypothesis Hp : edge_of c p.
Local Notation o := (sg g Bz c p).
Local Notation entries := (entries g t ml).
Local Notation sames := (sames g t ml Bz a c p).
Local Notation fines := (fines g t ml Bz a c p).
Local Notation in_fines := (in_fines g Vg NP NS t W Bt ml ML Bz FT a Ha c p Hc Hp).
Local Notation fineish := (fineish g t Bz a c p).
Local Notation pieces := (pieces g Bz c p).
Local Notation fine_pos := (fine_pos Bz p).

Lemma fine_copies : forall e1 e2, In e1 fines -> In e2 fines -> copy g Bz bs c (n_loc e1) (fine_pos e1) (n_loc e2, fine_pos e2) /\ ((c < dim)%nat -> copy g Bz bs c (n_loc e1) (nx c (fine_pos e1)) (n_loc e2, nx c (fine_pos e2))).
Proof using Vg NP NS W Bt ML FT Ha Hc Hp.
  intros e1 e2 H1 H2. apply in_fines in H1 as (H1 & L1 & F1 & C1), H2 as (H2 & L2 & F2 & C2). pose proof D13 as V.
  destruct (entry_block g Vg NP t W Bt ml ML a e1 Ha H1) as [B1 _]. destruct (entry_block g Vg NP t W Bt ml ML a e2 Ha H2) as [B2 _].
  destruct (fine_edge g Vg NP NS t W Bt ml ML Bz FT a Ha c p Hc Hp e1 H1 L1 F1 C1) as [P1 Q1]. destruct (fine_edge g Vg NP NS t W Bt ml ML Bz FT a Ha c p Hc Hp e2 H2 L2 F2 C2) as [P2 Q2].
  pose proof (fine_place g Vg NP NS t W Bt ml ML Bz FT a Ha c p Hc Hp e1 H1 L1 F1) as S1. pose proof (fine_place g Vg NP NS t W Bt ml ML Bz FT a Ha c p Hc Hp e2 H2 L2 F2) as S2.
  assert (R : forall e, In (n_loc e) bs -> edge_of c (fine_pos e) -> forall d, (d < dim)%nat -> 0 <= place g Bz (n_loc e) (fine_pos e) d <= domain_cells g Bz (level (n_loc e)) d).
  { intros e Be Pe d Hd. pose proof (block_range g Vg t W (n_loc e) d Be Hd) as X. pose proof (pos_in g Vg Bz c _ d Pe Hd) as Y. unfold place, domain_cells. assert (Y' : 0 <= index (fine_pos e) d - first d <= nn d) by (destruct (Nat.eqb d c); lia). nia. }
  assert (S : same_edge g Bz (n_loc e1) (fine_pos e1) (n_loc e2) (fine_pos e2)).
  { intros d Hd. destruct (S1 d Hd) as (s1 & X1 & Y1). destruct (S2 d Hd) as (s2 & X2 & Y2). specialize (R e1 B1 P1 d Hd) as R1. specialize (R e2 B2 P2 d Hd) as R2. rewrite L1 in *. rewrite L2 in *. exists (s2 - s1). split; [|lia].
    assert (PP : 0 < domain_cells g Bz (Datatypes.S (level a)) d). { pose proof (block_range g Vg t W _ d B1 Hd) as X. pose proof (nn2 g Vg ml Bz FT d Hd). rewrite L1 in X. unfold domain_cells. nia. }
    unfold period_shift in *. destruct X1 as [->|(A1 & A2 & [->| ->])], X2 as [->|(D1 & D2 & [->| ->])]; try (left; lia); try lia; right; (split; [assumption|]; split; [assumption|]; lia). }
  split; [split; [exact B2|]; split; [cbn [fst]; congruence|]; split; [exact P2|exact S]|]. intros Hd. split; [exact B2|]. split; [cbn [fst]; congruence|]. split; [exact (Q2 Hd)|]. intros d Hdd. destruct (S d Hdd) as (s & X & Y). exists s. split; [exact X|]. cbn [fst snd]. rewrite !place_nx by lia. lia.
Qed.
Definition lam (e : nblock) : R := Fv_Spec.sum (map (fun x => at_edge (L (fst x)) c (snd x)) (pieces e)).
Lemma lam_eq : forall e1 e2, In e1 fines -> In e2 fines -> lam e1 = lam e2.
Proof using Vg NP NS W Bt ML FT Ha Hc Hp LO.
  intros e1 e2 H1 H2. destruct (fine_copies e1 e2 H1 H2) as [X Y]. apply in_fines in H1 as (H1 & L1 & F1 & C1). destruct (entry_block g Vg NP t W Bt ml ML a e1 Ha H1) as [B1 _]. destruct (fine_edge g Vg NP NS t W Bt ml ML Bz FT a Ha c p Hc Hp e1 H1 L1 F1 C1) as [P1 Q1]. destruct LO as [_ LE]. unfold lam, Emf_Proofs4.pieces.
  pose proof (LE _ c _ _ B1 Hc P1 X) as E1. cbn [fst snd] in E1. destruct (Nat.ltb_spec c dim) as [Hd|Hd]; cbn [map]; rewrite !sum_cons'; cbn [fst snd]; rewrite E1; [|reflexivity]. pose proof (LE _ c _ _ B1 Hc (Q1 Hd) (Y Hd)) as E2. cbn [fst snd] in E2. rewrite E2. reflexivity.
Qed.
Lemma lam_val : forall e, In e fines -> (0 < lam e /\ fine_val Bz L F c p e * lam e = Fv_Spec.sum (map (fun x => at_edge (L (fst x)) c (snd x) * at_edge (F (fst x)) c (snd x)) (pieces e)))%R.
Proof using Vg NP NS W Bt ML FT Ha Hc Hp LO.
  intros e H1. apply in_fines in H1 as (H1 & L1 & F1 & C1). destruct (entry_block g Vg NP t W Bt ml ML a e Ha H1) as [B1 _]. destruct (fine_edge g Vg NP NS t W Bt ml ML Bz FT a Ha c p Hc Hp e H1 L1 F1 C1) as [P1 Q1]. destruct LO as [LP _].
  pose proof (LP _ c _ B1 Hc P1) as X1. unfold lam, fine_val, restrict_emf. rewrite (actv_dim g Vg ml Bz FT c Hc), via_at, next_at by exact Hc. change (mv (hf Bz e) p) with (fine_pos e). rewrite <- !at_edge_get. unfold Emf_Proofs4.pieces. destruct (Nat.ltb_spec c dim) as [Hd|Hd]; cbn [map]; rewrite !sum_cons'; cbn [fst snd]; change (Fv_Spec.sum []) with 0%R.
  - pose proof (LP _ c _ B1 Hc (Q1 Hd)) as X2. split; [lra|]. field. lra.
  - split; [lra|]. ring.
Qed.
Lemma fine_mean : fineish = true -> forall v, v = (Fv_Spec.sum (map (fine_val Bz L F c p) fines) * factor g Bz t a c p)%R ->
  exists l, lists_all l (part g Bz bs c a p) /\ l <> [] /\
     (v * Fv_Spec.sum (map (fun x => at_edge (L (fst x)) c (snd x)) l) = Fv_Spec.sum (map (fun x => at_edge (L (fst x)) c (snd x) * at_edge (F (fst x)) c (snd x)) l))%R.
Proof using Vg NP NS W Bt ML FT Ha Hc Hp LO.
  intros Hn v Hv. destruct (factor_fine g Vg NP NS t W Bt ml ML Bz FT a Ha c p Hc Hp Hn) as [Ff Fn]. exists (flat_map pieces fines). split; [apply (pieces_all g Vg NP NS t W Bt ml ML Bz FT a Ha c p Hc Hp)|]. rewrite Ff in Hv.
  destruct fines as [|e0 l0] eqn:Ef; [cbn in Fn; lia|]. rewrite <- Ef in *. assert (I0 : In e0 fines) by (rewrite Ef; left; reflexivity). split; [rewrite Ef; cbn [flat_map]; unfold Emf_Proofs4.pieces; cbn [app]; discriminate|].
  assert (G1 : forall l, (forall e, In e l -> In e fines) -> Fv_Spec.sum (map (fun x => at_edge (L (fst x)) c (snd x)) (flat_map pieces l)) = (INR (length l) * lam e0)%R).
  { intros l. induction l as [|e l IH]; intros Hl; [cbn; lra|]. cbn [flat_map length]. rewrite map_app, sum_app', S_INR. rewrite IH by (intros x Hx; apply Hl; right; exact Hx). fold (lam e). rewrite (lam_eq e e0 (Hl e (or_introl eq_refl)) I0). lra. }
  assert (G2 : forall l, (forall e, In e l -> In e fines) -> Fv_Spec.sum (map (fun x => at_edge (L (fst x)) c (snd x) * at_edge (F (fst x)) c (snd x))%R (flat_map pieces l)) = (Fv_Spec.sum (map (fine_val Bz L F c p) l) * lam e0)%R).
  { intros l. induction l as [|e l IH]; intros Hl; [cbn; lra|]. cbn [flat_map map]. rewrite map_app, sum_app', sum_cons'. rewrite IH by (intros x Hx; apply Hl; right; exact Hx). rewrite <- (proj2 (lam_val e (Hl e (or_introl eq_refl)))). rewrite (lam_eq e e0 (Hl e (or_introl eq_refl)) I0). lra. }
  rewrite (G1 fines), (G2 fines) by (intros x Hx; exact Hx). rewrite Hv. assert (0 < INR (length fines))%R by (apply lt_0_INR; exact Fn). field. lra.
Qed.
Lemma same_mean : fineish = false -> forall v, v = ((at_edge (F a) c p + Fv_Spec.sum (map (same_val Bz F c p) sames)) * factor g Bz t a c p)%R ->
  (forall x, ~ part g Bz bs c a p x) /\ exists l, lists_all l (copy g Bz bs c a p) /\ l <> [] /\ (v * INR (length l) = Fv_Spec.sum (map (fun x => at_edge (F (fst x)) c (snd x)) l))%R.
Proof using Vg NP NS W Bt ML FT Ha Hc Hp.
  intros Hn v Hv. split.
  - intros x Hx. apply (proj2 (pieces_all g Vg NP NS t W Bt ml ML Bz FT a Ha c p Hc Hp)) in Hx. apply in_flat_map in Hx as (e & He & _). pose proof (fines_fineish g Vg NP NS t W Bt ml ML Bz FT a Ha c p Hc Hp e He). congruence.
  - exists ((a, p) :: map (fun e => (n_loc e, same_pos Bz p e)) sames). split; [apply (copies_all g Vg NP NS t W Bt ml ML Bz FT a Ha c p Hc Hp Hn)|]. split; [discriminate|]. rewrite Hv, (factor_same g Vg NP NS t W Bt ml ML Bz a Ha c p Hc Hn). cbn [length map]. rewrite map_length, sum_cons', map_map. cbn [fst snd].
    replace (map (same_val Bz F c p) sames) with (map (fun e => at_edge (F (n_loc e)) c (same_pos Bz p e)) sames) by (apply map_ext; intros e; unfold same_val; rewrite via_at, at_edge_get; reflexivity). assert (0 < INR (S (length sames)))%R by (apply lt_0_INR; lia). field. lra.
Qed.
End C.

Theorem receive_mean : forall a es es', In a bs -> Permutation es (entries g t ml a) -> Permutation es' (entries g t ml a) -> exists f', ReceiveEmf g ml t Bz L F a es es' = Some f' /\ forall c p, (c < 3)%nat -> edge_of c p ->
  (exists l, lists_all l (part g Bz bs c a p) /\ l <> [] /\
     (at_edge f' c p * Fv_Spec.sum (map (fun x => at_edge (L (fst x)) c (snd x)) l) = Fv_Spec.sum (map (fun x => at_edge (L (fst x)) c (snd x) * at_edge (F (fst x)) c (snd x)) l))%R) \/
  ((forall x, ~ part g Bz bs c a p x) /\ exists l, lists_all l (copy g Bz bs c a p) /\ l <> [] /\ (at_edge f' c p * INR (length l) = Fv_Spec.sum (map (fun x => at_edge (F (fst x)) c (snd x)) l))%R).
Proof using Vg NP NS W Bt ML FT LO.
  intros a es es' Ha Pe Pe'. destruct (receive_same g Vg NP NS t W Bt ml ML Bz FT L F a Ha es (F a)) as (f1 & R1 & V1); [intros e He; apply (Permutation_in _ Pe), He|]. destruct (receive_finer g Vg NP NS t W Bt ml ML Bz FT L F a Ha es' (ClearCoarse g t Bz a f1)) as (f2 & R2 & V2); [intros e He; apply (Permutation_in _ Pe'), He|].
  unfold ReceiveEmf. rewrite R1.
  assert (V1' : forall c p, (c < 3)%nat -> edge_of c p -> get f1 (at_pos c p) = (at_edge (F a) c p + Fv_Spec.sum (map (same_val Bz F c p) (sames g t ml Bz a c p)))%R).
  { intros c p Hc Hp. rewrite (V1 _ c p Hc Hp eq_refl), at_edge_get. f_equal. apply sum_permutation, Permutation_map. unfold sames. apply perm_filter, Pe. }
  assert (X : exists f3, (if ml then ReceiveFiner g ml t Bz L F a es' (ClearCoarse g t Bz a f1) else Some f1) = Some f3 /\ forall c p, (c < 3)%nat -> edge_of c p -> get f3 (at_pos c p) = ((if fineish g t Bz a c p then 0 else get f1 (at_pos c p)) + Fv_Spec.sum (map (fine_val Bz L F c p) (fines g t ml Bz a c p)))%R).
  { destruct (Bool.bool_dec ml true) as [Em|Em].
    - exists f2. split; [rewrite R2, Em; reflexivity|]. intros c p Hc Hp. rewrite (V2 _ c p Hc Hp eq_refl), (clear_value g Vg ml Bz FT t a c p Hc Hp f1), (cleared_fine g Vg NP NS t W Bt Bz a Ha c p Hc). f_equal. apply sum_permutation, Permutation_map. unfold fines. apply perm_filter, Pe'.
    - exists f1. split; [apply Bool.not_true_is_false in Em; rewrite Em; reflexivity|]. intros c p Hc Hp. assert (Fe : fines g t ml Bz a c p = []). { destruct (fines g t ml Bz a c p) as [|e l] eqn:Ef; [reflexivity|]. exfalso. apply Em. assert (He : In e (fines g t ml Bz a c p)) by (rewrite Ef; left; reflexivity). apply (in_fines g Vg NP NS t W Bt ml ML Bz FT a Ha c p Hc Hp) in He as (He & Hl & _). apply (finer_level_of g Vg NP NS t W Bt ml ML a Ha e He Hl). }
      rewrite Fe. destruct (fineish g t Bz a c p) eqn:Hn; [|cbn; lra]. destruct (factor_fine g Vg NP NS t W Bt ml ML Bz FT a Ha c p Hc Hp Hn) as [_ Y]. rewrite Fe in Y. cbn in Y. lia. }
  destruct X as (f3 & -> & V3). eexists. split; [reflexivity|]. intros c p Hc Hp. specialize (V3 c p Hc Hp). specialize (V1' c p Hc Hp).
  pose proof (average_value g Vg ml Bz FT t a c p Hc Hp f3) as Av. rewrite <- at_edge_get in Av. rewrite V3 in Av. destruct (fineish g t Bz a c p) eqn:Hn.
  - left. apply (fine_mean a Ha c p Hc Hp Hn). rewrite Av. lra.
  - right. apply (same_mean a Ha c p Hc Hp Hn). rewrite Av, V1'. replace (fines g t ml Bz a c p) with (@nil nblock); [cbn; lra|]. destruct (fines g t ml Bz a c p) as [|e l] eqn:Ef; [reflexivity|]. assert (He : In e (fines g t ml Bz a c p)) by (rewrite Ef; left; reflexivity). pose proof (fines_fineish g Vg NP NS t W Bt ml ML Bz FT a Ha c p Hc Hp e He). congruence.
Qed.
End P.
