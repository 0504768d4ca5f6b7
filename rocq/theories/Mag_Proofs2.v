(** Averages of fields; uniform Cartesian meshes. *)
From Coq Require Import List Arith NArith ZArith Bool Lia Permutation Reals Lra.
From Verif Require Import Fv_Model.
From Verif Require Fv_Spec Fv_Proofs.
From Verif Require Import Loc LB_Spec Tags_Model Tags_Spec Tags_Proofs AMR_Model AMR_Spec AMR_Proofs AMR_Proofs2 Tree_Model Tree_Spec Tree_Proofs1 Tree_Proofs2 Tree_Proofs3 Tree_Proofs4 Tree_Proofs5 Tree_Proofs6 Tree_Proofs7 Tree_Proofs8 Tree_Restart Tree_Proofs9 Tree_Proofs10 Nbr_Model Nbr_Spec Nbr_Proofs Nbr_Proofs2 Nbr_Proofs3 Buf_Model Gho_Model Gho_Spec Gho_Proofs Gho_Proofs2 Con_Model Con_Spec Con_Proofs Emf_Model Emf_Spec Emf_Proofs Emf_Proofs2 Emf_Proofs3 Emf_Proofs4 Emf_Proofs5 Emf_Proofs6 Emf_Proofs7 Mag_Spec Mag_Proofs.
Import ListNotations.
Local Open Scope Z_scope.

Section P.
Variable g : grid.
Hypothesis Vg : valid_grid g.
Hypothesis NP : no_pole g.
Hypothesis NS : no_shear g.
Variable t : tree.
Hypothesis W : wf g t.
Hypothesis Bt : B g t.
Variable ml : bool.
Hypothesis ML : declared g ml (blocks t).
Variable Bz : bsz.
Hypothesis FT : fitting g Bz ml.
Local Notation dim := (gdim g).
Local Notation D13 := (dim13 g Vg).
Local Notation bs := (blocks t).
Local Notation first := (first Bz dim).
Local Notation nn := (cells_in Bz).
Local Notation edge_of := (edge_of g Bz).
Local Notation face_of := (face_of g Bz).
Local Notation dc := (domain_cells g Bz).
Local Notation place := (place g Bz).
Local Notation part := (part g Bz bs).
Local Notation D := (block_dims Bz).


Lemma dims_ok : Fv_Spec.nonempty D /\ (nx3 D = 1 \/ 1 < nx3 D).
Proof using Vg FT.
  pose proof D13 as V.
  assert (X : forall d, (d < 3)%nat -> (s_ Bz d <= e_ Bz d) /\ (e_ Bz d - s_ Bz d + 1 = if Nat.ltb d dim then nn d else 1) /\ ((d < dim)%nat -> 2 <= nn d)).
  { intros d Hd. destruct (rng_facts g Vg ml Bz FT d Hd) as [(A0 & _ & A2 & A3 & _ & A5 & _)|(A0 & _ & A2 & A3 & _)]; [rewrite (proj2 (Nat.ltb_lt _ _) A0)|rewrite (proj2 (Nat.ltb_ge _ _) A0)]; split; try split; try lia. }
  destruct (X 0%nat ltac:(lia)) as (X0 & _). destruct (X 1%nat ltac:(lia)) as (X1 & Y1 & Z1). destruct (X 2%nat ltac:(lia)) as (X2 & Y2 & Z2). split; [split; [split; [exact X0|split; [exact X1|exact X2]]|]|].
  - change (nx2 D) with (e_ Bz 1 - s_ Bz 1 + 1). change (nx3 D) with (e_ Bz 2 - s_ Bz 2 + 1). rewrite Y1, Y2. destruct (Nat.ltb_spec 1 dim) as [H1|H1], (Nat.ltb_spec 2 dim) as [H2|H2]; intros H; try reflexivity; lia.
  - change (nx3 D) with (e_ Bz 2 - s_ Bz 2 + 1). rewrite Y2. destruct (Nat.ltb_spec 2 dim) as [H2|H2]; lia.
Qed.
Lemma update_flux : forall G E w b k j i, Fv_Spec.good_geom D G -> Fv_Spec.is_active D k j i -> Fv_Spec.net_flux G (CT D G (edge_fields D E) w b) k j i = Fv_Spec.net_flux G b k j i.
Proof using Vg FT.
  intros G E w b k j i GG A. destruct dims_ok as [N N3]. apply Fv_Proofs.CT_net; [exact N|exact GG| |exact A]. apply Fv_Proofs.copies_good; [exact N|]. destruct N3 as [N3|N3]; [left; exact N3|right]. assert (N2 : nx2 D <> 1) by (intros X; destruct N as [_ N]; specialize (N X); lia). split; try (intros; lia); intros X; discriminate X.
Qed.
Lemma average_at : forall w o a b c e dir p, Fv_Spec.sound_weights w -> (dir < dim)%nat -> face_of dir p ->
  normal (WeightedAve D w o a b c e) dir p = (w0 w * normal o dir p + w1 w * normal a dir p + w2 w * normal b dir p + w3 w * normal c dir p + w4 w * normal e dir p)%R.
Proof using Vg FT.
  intros w o a b c e dir [[k j] i] SW Hr Hp. pose proof D13 as V.
  assert (WI : forall d x, (d < 3)%nat -> index (k, j, i) d = x -> within (s_ Bz d) (e_ Bz d + (if Nat.eqb d dir then 1 else 0)) x = true).
  { intros d x Hd <-. unfold within. specialize (Hp d Hd). unfold size in Hp. destruct (rng_facts g Vg ml Bz FT d Hd) as [(A0 & _ & A2 & A3 & _)|(A0 & _ & A2 & A3 & A4)]; rewrite A2, A3; [rewrite (proj2 (Nat.ltb_lt _ _) A0) in Hp|rewrite (proj2 (Nat.ltb_ge _ _) A0) in Hp]; apply andb_true_intro; split; apply Z.leb_le; lia. }
  pose proof (WI 0%nat i ltac:(lia) eq_refl) as W0. pose proof (WI 1%nat j ltac:(lia) eq_refl) as W1. pose proof (WI 2%nat k ltac:(lia) eq_refl) as W2. clear WI Hp.
  (destruct dir as [|[|[|dir]]]; [| | |exfalso; lia]); cbn [Nat.eqb] in *; rewrite ?Z.add_0_r in *; unfold normal, flux, Fv_Spec.at_, WeightedAve; cbn [x1 x2 x3];
    change (Fv_Model.is_ D) with (s_ Bz 0); change (ie D) with (e_ Bz 0); change (js D) with (s_ Bz 1); change (je D) with (e_ Bz 1); change (ks D) with (s_ Bz 2); change (ke D) with (e_ Bz 2); change (pole_in D) with false; change (pole_out D) with false; cbn iota;
    rewrite W0, W1, W2; cbn [andb]; rewrite Fv_Proofs.ave_sum; try reflexivity.
  destruct (isR (w0 w) 1) eqn:I0; [|reflexivity]. apply Fv_Proofs.isR_true in I0. destruct (isR (w4 w) 0) eqn:I4; [reflexivity|]. destruct SW as [X|[X|X]]; [contradiction|exfalso|rewrite X; cbn [andb negb]; ring]. rewrite X in I4. unfold isR in I4. destruct (Req_EM_T 0 0) as [_|N]; [discriminate I4|apply N; reflexivity].
Qed.

(** Uniform meshes. *)
Lemma edge_base : forall a b c p qx, In a bs -> (c < 3)%nat -> part c a p (b, qx) ->
  exists q, (forall d, (d < dim)%nat -> exists s, period_shift g d (dc (S (level a)) d) s /\ place b q d = 2 * place a p d + s) /\ edge_of c q /\ ((c < dim)%nat -> index q c + 1 < first c + nn c).
Proof using Vg W ML FT.
  intros a b c p qx Ha Hc (Hb & Hl & Fx & Ox). cbn [fst snd] in *. pose proof D13 as V.
  assert (Hm : ml = true). { destruct (Bool.bool_dec ml true) as [X|X]; [exact X|]. apply Bool.not_true_is_false in X. pose proof (ML X b Hb). pose proof (block_root g t W a Ha). lia. }
  pose (q0 := mv (fun d z => if Nat.ltb d dim && Nat.eqb d c then first d + 2 * ((z - first d) / 2) else z) qx).
  assert (I0 : forall d, (d < 3)%nat -> index q0 d = if Nat.ltb d dim && Nat.eqb d c then first d + 2 * ((index qx d - first d) / 2) else index qx d) by (intros d Hd; unfold q0; rewrite index_mv by exact Hd; reflexivity).
  assert (R : (c < dim)%nat -> first c <= index q0 c /\ index q0 c + 1 < first c + nn c).
  { intros Hd. rewrite (I0 c Hc), (proj2 (Nat.ltb_lt _ _) Hd), Nat.eqb_refl. cbn [andb]. pose proof (pos_in g Vg Bz c qx c Fx Hd) as X. rewrite Nat.eqb_refl in X. pose proof (even_half g Vg ml Bz FT c Hm Hd) as Ev. assert (0 <= (index qx c - first c) / 2) by (apply Z.div_pos; lia). assert ((index qx c - first c) / 2 < nn c / 2) by (apply Z.div_lt_upper_bound; lia). lia. }
  exists q0. split; [|split; [|intros Hd; apply (R Hd)]].
  - intros d Hd. destruct (Ox d Hd) as (s & S1 & S2). rewrite Hl in S1. exists s. split; [exact S1|]. pose proof (I0 d ltac:(lia)) as I. rewrite (proj2 (Nat.ltb_lt _ _) Hd) in I. cbn [andb] in I. unfold Con_Spec.place in *. rewrite I. destruct (Nat.eqb_spec d c) as [Ed|Ed]; [|exact S2].
    pose proof (even_half g Vg ml Bz FT d Hm Hd) as Ev. assert (Sv : exists k, s = 2 * k). { pose proof (dc_succ g Vg t W Bz a d Ha) as D2. destruct S1 as [->|(_ & _ & [->| ->])]; [exists 0; lia|exists (dc (level a) d); lia|exists (- dc (level a) d); lia]. }
    destruct Sv as (k & ->). set (h := nn d / 2) in *. clearbody h. rewrite Ev in *. clear -S2. set (x := index qx d - first d) in *. set (y := index p d - first d) in *. assert (0 <= x - 2 * (2 * coord d a * h + y + k - coord d b * h) <= 1) by lia. assert (Ex : x / 2 = 2 * coord d a * h + y + k - coord d b * h) by (symmetry; apply (Z.div_unique x 2 _ (x - 2 * (2 * coord d a * h + y + k - coord d b * h))); lia). rewrite Ex. lia.
  - apply mk_edge; [intros d Hd; destruct (Nat.eqb_spec d c) as [->|N]; [specialize (R Hd); lia|]; pose proof (pos_in g Vg Bz c qx d Fx Hd) as X; destruct (Nat.eqb_spec d c); [contradiction|]; rewrite (I0 d ltac:(lia)), (proj2 (Nat.ltb_lt _ _) Hd); destruct (Nat.eqb_spec d c); [contradiction|]; exact X|]. intros d Hd H3. rewrite (I0 d H3), (proj2 (Nat.ltb_ge _ _) Hd). cbn [andb]. apply (pos_out g Bz c qx d Fx Hd H3).
Qed.
Lemma uniform_edge : forall dx a c p, (c < 3)%nat -> at_edge (edge_lengths (uniform g dx a)) c p = cell_length g dx (level a) c.
Proof using . intros dx a c [[k j] i] Hc. destruct c as [|[|[|c]]]; [reflexivity|reflexivity|reflexivity|lia]. Qed.
Lemma uniform_area : forall dx a dir p, (forall d, (d < 3)%nat -> (0 < dx d)%R) -> (dir < 3)%nat -> (0 < area (uniform g dx a) dir p)%R.
Proof using .
  intros dx a dir [[k j] i] Hdx Hd. assert (P : forall d, (d < 3)%nat -> (0 < cell_length g dx (level a) d)%R) by (intros d H; unfold cell_length; specialize (Hdx d H); destruct (Nat.ltb d dim); [apply Rdiv_lt_0_compat; [exact Hdx|apply pow_lt; lra]|exact Hdx]).
  destruct dir as [|[|[|dir]]]; [| | |lia]; unfold area, Fv_Spec.at_, uniform; cbn [A1 A2 A3]; apply Rmult_lt_0_compat; apply P; lia.
Qed.
Lemma uniform_mg : forall dx, (forall d, (d < 3)%nat -> (0 < dx d)%R) -> magnetic_geometry g Bz bs (uniform g dx).
Proof using Vg W ML FT.
  intros dx Hdx. pose proof D13 as V. split.
  - intros a dir p Ha Hd Hp X. pose proof (uniform_area dx a dir p Hdx ltac:(lia)). lra.
  - intros a b dir [[k j] i] [[k' j'] i'] Ha Hb Hl Hd _ _ _. destruct dir as [|[|dir]]; unfold area, Fv_Spec.at_, uniform; cbn [A1 A2 A3]; rewrite Hl; reflexivity.
  - split; [intros a c p Ha Hc Hp; rewrite uniform_edge by exact Hc; unfold cell_length; specialize (Hdx c Hc); destruct (Nat.ltb c dim); [apply Rdiv_lt_0_compat; [exact Hdx|apply pow_lt; lra]|exact Hdx]|]. intros a c p x Ha Hc Hp (_ & Hl & _). rewrite !uniform_edge by exact Hc. rewrite Hl. reflexivity.
  - intros a b c p qs Ha Hc Hp Ne Hq. destruct qs as [|qx qs'] eqn:Eq; [contradiction Ne; reflexivity|]. rewrite <- Eq in *. assert (Px : part c a p (b, qx)) by (apply (proj2 Hq); rewrite Eq; left; reflexivity). clear Eq qs' Ne. destruct (edge_base a b c p qx Ha Hc Px) as (q & Q1 & Q2 & Q3). destruct Px as (Hb & Hl & _). cbn [fst snd] in *.
    pose proof (edge_parts g Vg t W ml Bz FT a b c p q Ha Hb Hl Hc Hp Q2 Q3 Q1) as X. pose proof (lists_perm _ _ _ _ _ Hq X (fun _ => iff_refl _)) as Pm. rewrite (sum_permutation _ _ (Permutation_map (at_edge (edge_lengths (uniform g dx b)) c) Pm)). pose proof (block_root g t W a Ha) as Rt.
    destruct (Nat.ltb c dim) eqn:Lc; cbn [map]; rewrite ?sum_cons'; change (Fv_Spec.sum []) with 0%R; rewrite !uniform_edge by exact Hc; unfold cell_length; rewrite Lc; [|lra]. rewrite Hl. replace (S (level a) - groot g)%nat with (S (level a - groot g)) by lia. cbn [pow]. field. apply pow_nonzero. lra.
Qed.
Lemma uniform_good : forall dx a, (forall d, (d < 3)%nat -> (0 < dx d)%R) -> Fv_Spec.good_geom D (uniform g dx a).
Proof using .
  intros dx a Hdx. pose proof (fun dir k j i => uniform_area dx a dir (k, j, i) Hdx) as A. unfold area, Fv_Spec.at_ in A. split.
  - intros k j i _ X. specialize (A 0%nat k j i ltac:(lia)). cbn in A, X. lra.
  - intros k j i _. right. right. intros X. specialize (A 1%nat k j i ltac:(lia)). cbn in A, X. lra.
  - intros k j i _ X. specialize (A 2%nat k j i ltac:(lia)). cbn in A, X. lra.
  - intros X. discriminate X.
  - intros X. discriminate X.
  - reflexivity.
  - split; reflexivity.
Qed.
End P.
