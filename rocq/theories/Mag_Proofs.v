(** Constrained transport on refined meshes. *)
From Coq Require Import List Arith NArith ZArith Bool Lia Permutation Reals Lra.
From Verif Require Import Fv_Model.
From Verif Require Fv_Spec Fv_Proofs.
From Verif Require Import Loc LB_Spec Tags_Model Tags_Spec Tags_Proofs AMR_Model AMR_Spec AMR_Proofs AMR_Proofs2 Tree_Model Tree_Spec Tree_Proofs1 Tree_Proofs2 Tree_Proofs3 Tree_Proofs4 Tree_Proofs5 Tree_Proofs6 Tree_Proofs7 Tree_Proofs8 Tree_Restart Tree_Proofs9 Tree_Proofs10 Nbr_Model Nbr_Spec Nbr_Proofs Nbr_Proofs2 Nbr_Proofs3 Buf_Model Gho_Model Gho_Spec Gho_Proofs Gho_Proofs2 Con_Model Con_Spec Con_Proofs Emf_Model Emf_Spec Emf_Proofs Emf_Proofs2 Emf_Proofs3 Emf_Proofs4 Emf_Proofs5 Emf_Proofs6 Emf_Proofs7 Mag_Spec.
Import ListNotations.
Local Open Scope Z_scope.

(** The two edges a face has across direction m. *)
Definition le (L E : emf) (c : nat) (p : fpos) : R := (at_edge L c p * at_edge E c p)%R.
Definition third (dir c : nat) : nat := (3 - dir - c)%nat.
Definition orient (dir c : nat) : R := if Nat.eqb ((dir + 1) mod 3) c then 1%R else (-1)%R.
Definition pair (L E : emf) (c m : nat) (p : fpos) : R := (le L E c (nx m p) - le L E c p)%R.
Definition circ (dim : nat) (L E : emf) (dir : nat) (p : fpos) : R :=
  Fv_Spec.sum (map (fun c => (orient dir c * pair L E c (third dir c) p)%R) (filter (fun c => negb (Nat.eqb c dir) && Nat.ltb (third dir c) dim) [0; 1; 2]%nat)).
Lemma nx_comm : forall c m q, nx c (nx m q) = nx m (nx c q).
Proof. intros c m q. apply fpos_ext. intros d Hd. rewrite !index_nx by exact Hd. destruct (Nat.eqb d c), (Nat.eqb d m); lia. Qed.

Section P.
Variable g : grid.
Hypothesis Vg : valid_grid g.
Hypothesis NP : no_pole g.
Hypothesis NS : no_shear g.
Variable t : tree.
Hypothesis W : wf g t.
Hypothesis Bt : B g t.
Variable ml : bool.
Hypothesis ML : declared g ml (blocks t).
Variable Bz : bsz.
Hypothesis FT : fitting g Bz ml.
Local Notation dim := (gdim g).
Local Notation D13 := (dim13 g Vg).
Local Notation bs := (blocks t).
Local Notation first := (first Bz dim).
Local Notation nn := (cells_in Bz).
Local Notation edge_of := (edge_of g Bz).
Local Notation face_of := (face_of g Bz).
Local Notation dc := (domain_cells g Bz).
Local Notation place := (place g Bz).
Local Notation part := (part g Bz bs).
Local Notation D := (block_dims Bz).

Lemma face_in : forall dir q d, face_of dir q -> (d < dim)%nat -> first d <= index q d < first d + nn d + (if Nat.eqb d dir then 1 else 0).
Proof using Vg. intros dir q d H Hd. pose proof D13. specialize (H d ltac:(lia)). unfold size in H. rewrite (proj2 (Nat.ltb_lt _ _) Hd) in H. exact H. Qed.
Lemma face_out : forall dir q d, face_of dir q -> (dir < dim)%nat -> (dim <= d)%nat -> (d < 3)%nat -> index q d = 0.
Proof using . intros dir q d H Hr Hd H3. specialize (H d H3). unfold size, Gho_Spec.first in H. rewrite (proj2 (Nat.ltb_ge _ _) Hd) in H. destruct (Nat.eqb_spec d dir); lia. Qed.
Lemma mk_face : forall dir q, (dir < dim)%nat -> (forall d, (d < dim)%nat -> first d <= index q d < first d + nn d + (if Nat.eqb d dir then 1 else 0)) -> (forall d, (dim <= d)%nat -> (d < 3)%nat -> index q d = 0) -> face_of dir q.
Proof using . intros dir q Hr H1 H2 d Hd. unfold size. destruct (Nat.ltb_spec d dim) as [L|L]; [exact (H1 d L)|]. rewrite (H2 d L Hd). unfold Gho_Spec.first. rewrite (proj2 (Nat.ltb_ge _ _) L). destruct (Nat.eqb_spec d dir); lia. Qed.
Lemma face_edge : forall dir c m p, (dir < dim)%nat -> (m < dim)%nat -> c <> dir -> m <> dir -> c <> m -> face_of dir p -> edge_of c p /\ edge_of c (nx m p).
Proof using Vg.
  intros dir c m p Hr Hm N1 N2 N3 Hp. pose proof D13 as V. split; (apply mk_edge; [intros d Hd; pose proof (face_in dir p d Hp Hd)|intros d Hd H3; pose proof (face_out dir p d Hp Hr Hd H3)]); rewrite ?index_nx by lia; destruct (Nat.eqb_spec d c), (Nat.eqb_spec d dir), (Nat.eqb_spec d m); lia.
Qed.
Lemma CT_at : forall G E w b dir p, (dir < dim)%nat -> face_of dir p -> normal (CT D G (edge_fields D E) w b) dir p = (normal b dir p + w / area G dir p * circ dim (edge_lengths G) E dir p)%R.
Proof using Vg FT.
  intros G E w b dir [[k j] i] Hr Hp. pose proof D13 as V. assert (Ed : dim = 1%nat \/ dim = 2%nat \/ dim = 3%nat) by lia.
  assert (WI : forall d x, (d < 3)%nat -> index (k, j, i) d = x -> within (s_ Bz d) (e_ Bz d + (if Nat.eqb d dir then 1 else 0)) x = true).
  { intros d x Hd <-. unfold within. specialize (Hp d Hd). unfold size in Hp. destruct (rng_facts g Vg ml Bz FT d Hd) as [(A0 & _ & A2 & A3 & _)|(A0 & _ & A2 & A3 & A4)]; rewrite A2, A3; [rewrite (proj2 (Nat.ltb_lt _ _) A0) in Hp|rewrite (proj2 (Nat.ltb_ge _ _) A0) in Hp]; apply andb_true_intro; split; apply Z.leb_le; lia. }
  pose proof (WI 0%nat i ltac:(lia) eq_refl) as W0. pose proof (WI 1%nat j ltac:(lia) eq_refl) as W1. pose proof (WI 2%nat k ltac:(lia) eq_refl) as W2. clear WI.
  assert (N2 : Z.ltb 1 (nx2 D) = Nat.ltb 1 dim /\ Z.eqb (nx2 D) 1 = negb (Nat.ltb 1 dim)). { change (nx2 D) with (e_ Bz 1 - s_ Bz 1 + 1). destruct (rng_facts g Vg ml Bz FT 1%nat ltac:(lia)) as [(A0 & _ & A2 & A3 & _ & A5 & _)|(A0 & _ & A2 & A3 & _)]; rewrite A2, A3; [rewrite (proj2 (Nat.ltb_lt _ _) A0)|rewrite (proj2 (Nat.ltb_ge _ _) A0)]; (split; [|cbn [negb]]); [apply Z.ltb_lt; lia|apply Z.eqb_neq; lia|reflexivity|reflexivity]. }
  assert (N3 : Z.ltb 1 (nx3 D) = Nat.ltb 2 dim /\ Z.eqb (nx3 D) 1 = negb (Nat.ltb 2 dim)). { change (nx3 D) with (e_ Bz 2 - s_ Bz 2 + 1). destruct (rng_facts g Vg ml Bz FT 2%nat ltac:(lia)) as [(A0 & _ & A2 & A3 & _ & A5 & _)|(A0 & _ & A2 & A3 & _)]; rewrite A2, A3; [rewrite (proj2 (Nat.ltb_lt _ _) A0)|rewrite (proj2 (Nat.ltb_ge _ _) A0)]; (split; [|cbn [negb]]); [apply Z.ltb_lt; lia|apply Z.eqb_neq; lia|reflexivity|reflexivity]. }
  destruct N2 as [N2 C2], N3 as [N3 C3]. clear Hp V.
  destruct Ed as [Ed|[Ed|Ed]]; rewrite Ed in *; (destruct dir as [|[|[|dir]]]; try (exfalso; lia)); clear Ed Hr; cbn [Nat.ltb Nat.leb Nat.eqb negb] in *; rewrite ?Z.add_0_r in *; unfold normal, flux, Fv_Spec.at_, CT; cbn [x1 x2 x3];
    change (Fv_Model.is_ D) with (s_ Bz 0); change (ie D) with (e_ Bz 0); change (js D) with (s_ Bz 1); change (je D) with (e_ Bz 1); change (ks D) with (s_ Bz 2); change (ke D) with (e_ Bz 2); change (pole_in D) with false; change (pole_out D) with false; cbn iota;
    rewrite W0, W1, W2, ?N2, ?N3; cbn [andb]; cbn zeta; unfold edge_fields, corner_copies; rewrite ?C2, ?C3; cbn [x1 x2 x3]; unfold circ, orient, third; cbn [filter map Nat.eqb Nat.ltb Nat.leb negb andb Nat.sub Nat.add Nat.modulo Nat.divmod fst snd]; rewrite ?sum_cons'; change (Fv_Spec.sum []) with 0%R; unfold pair, le, area, Fv_Spec.at_; cbn [nx mv index Nat.eqb at_edge edge_lengths Z.of_nat Pos.of_succ_nat Pos.succ Z.eqb Pos.eqb]; unfold Rdiv; ring.
Qed.

Lemma on_block_wide : forall a d, In a bs -> (d < dim)%nat -> 2 * nn d <= dc (S (level a)) d.
Proof using Vg W FT.
  intros a d Ha Hd. rewrite (dc_succ g Vg t W Bz a d Ha). pose proof (block_range g Vg t W a d Ha Hd) as X. pose proof (nn2 g Vg ml Bz FT d Hd). unfold domain_cells. nia.
Qed.
(** The parts that edge p has on one finer block. *)
Lemma edge_parts : forall a b c p q, In a bs -> In b bs -> level b = S (level a) -> (c < 3)%nat -> edge_of c p -> edge_of c q -> ((c < dim)%nat -> index q c + 1 < first c + nn c) ->
  (forall d, (d < dim)%nat -> exists s, period_shift g d (dc (S (level a)) d) s /\ place b q d = 2 * place a p d + s) -> lists_all (q :: if Nat.ltb c dim then [nx c q] else []) (fun x => part c a p (b, x)).
Proof using Vg W FT.
  intros a b c p q Ha Hb Hl Hc Hp Hq Hi Hs. pose proof D13 as V. split.
  - constructor; [|destruct (Nat.ltb c dim); repeat constructor; cbn; tauto]. destruct (Nat.ltb c dim); [|cbn; tauto]. intros [X|[]]. assert (Y : index (nx c q) c = index q c) by (rewrite X; reflexivity). rewrite index_nx, Nat.eqb_refl in Y by exact Hc. lia.
  - intros x. split.
    + intros Hx. assert (Ex : x = q \/ ((c < dim)%nat /\ x = nx c q)). { destruct Hx as [<-|Hx]; [left; reflexivity|right]. destruct (Nat.ltb_spec c dim); [|contradiction Hx]. destruct Hx as [<-|[]]. split; [assumption|reflexivity]. }
      split; [exact Hb|]. split; [exact Hl|]. cbn [fst snd]. destruct Ex as [->|[Hd ->]].
      * split; [exact Hq|]. intros d Hd. destruct (Hs d Hd) as (s & S1 & S2). exists s. rewrite Hl. split; [exact S1|]. destruct (Nat.eqb d c); lia.
      * split; [apply mk_edge; [intros d Hdd; pose proof (pos_in g Vg Bz c q d Hq Hdd) as X; rewrite index_nx by lia; destruct (Nat.eqb_spec d c) as [->|N]; [specialize (Hi Hd); lia|lia]|intros d Hdd H3; rewrite index_nx by exact H3; destruct (Nat.eqb_spec d c); [lia|apply (pos_out g Bz c q d Hq Hdd H3)]]|]. intros d Hdd. destruct (Hs d Hdd) as (s & S1 & S2). exists s. rewrite Hl. split; [exact S1|]. rewrite place_nx by lia. destruct (Nat.eqb d c); lia.
    + intros (_ & _ & Hx & Ho). cbn [fst snd] in *. unfold on_edge in Ho. rewrite Hl in Ho.
      assert (X : forall d, (d < 3)%nat -> exists r, index x d = index q d + r /\ (r = 0 \/ (r = 1 /\ d = c /\ (d < dim)%nat))).
      { intros d Hd. destruct (Nat.lt_ge_cases d dim) as [L|L]; [|exists 0; split; [rewrite (pos_out g Bz c x d Hx L Hd), (pos_out g Bz c q d Hq L Hd); reflexivity|left; reflexivity]]. destruct (Ho d L) as (s' & S1' & S2'). destruct (Hs d L) as (s & S1 & S2).  pose proof (on_block_wide a d Ha L) as Wd. pose proof (nn2 g Vg ml Bz FT d L) as N. pose proof (pos_in g Vg Bz c x d Hx L) as P1. pose proof (pos_in g Vg Bz c q d Hq L) as P2.
        assert (Dx : place b x d - place b q d = index x d - index q d) by (unfold Con_Spec.place; lia).
        assert (Es : s = s'). { destruct S1 as [->|(_ & _ & [->| ->])], S1' as [->|(_ & _ & [->| ->])]; destruct (Nat.eqb_spec d c); lia. }
        subst s'. destruct (Nat.eqb_spec d c) as [Ec|Ec]; [|exists 0; split; [lia|left; reflexivity]]. assert (Y : place b x d = place b q d \/ place b x d = place b q d + 1) by lia. destruct Y as [Y|Y]; [exists 0|exists 1]; (split; [lia|]); [left; reflexivity|right; split; [reflexivity|split; assumption]]. }
      destruct (X c Hc) as (r & Er & Hr). destruct Hr as [->|(-> & _ & Hd)].
      * left. apply fpos_ext. intros d Hd. destruct (X d Hd) as (r' & Er' & [->|(-> & -> & _)]); lia.
      * rewrite (proj2 (Nat.ltb_lt _ _) Hd). right. left. apply fpos_ext. intros d H3. rewrite index_nx by exact H3. destruct (Nat.eqb_spec d c) as [->|N]; [lia|]. destruct (X d H3) as (r' & Er' & [->|(-> & -> & _)]); [lia|contradiction].
Qed.
(** The parts of a face on one finer block: two indices in every direction along the face. *)
Lemma face_base : forall a b dir p qs, In a bs -> In b bs -> level b = S (level a) -> (dir < dim)%nat -> face_of dir p -> face_parts g Bz a b dir p qs ->
  exists q0, (forall d, (d < dim)%nat -> exists s, period_shift g d (dc (S (level a)) d) s /\ place b q0 d = 2 * place a p d + s) /\ face_of dir q0 /\ (forall d, (d < dim)%nat -> d <> dir -> index q0 d + 1 < first d + nn d) /\
  NoDup qs /\ forall q, In q qs <-> forall d, (d < 3)%nat -> index q d = index q0 d \/ ((d < dim)%nat /\ d <> dir /\ index q d = index q0 d + 1).
Proof using Vg W ML FT.
  intros a b dir p qs Ha Hb Hl Hr Hp (Ne & ND & Hq). pose proof D13 as V. destruct qs as [|qx qs'] eqn:Eq; [contradiction Ne; reflexivity|]. rewrite <- Eq in *. assert (Ix : In qx qs) by (rewrite Eq; left; reflexivity). clear Eq qs' Ne. apply Hq in Ix as [Fx Ox].
  assert (Hm : ml = true). { destruct (Bool.bool_dec ml true) as [X|X]; [exact X|]. apply Bool.not_true_is_false in X. pose proof (ML X b Hb). pose proof (block_root g t W a Ha). lia. }
  pose (q0 := mv (fun d z => if Nat.ltb d dim && negb (Nat.eqb d dir) then first d + 2 * ((z - first d) / 2) else z) qx).
  assert (I0 : forall d, (d < 3)%nat -> index q0 d = if Nat.ltb d dim && negb (Nat.eqb d dir) then first d + 2 * ((index qx d - first d) / 2) else index qx d) by (intros d Hd; unfold q0; rewrite index_mv by exact Hd; reflexivity).
  assert (Q : forall d, (d < dim)%nat -> exists s, period_shift g d (dc (S (level a)) d) s /\ place b q0 d = 2 * place a p d + s).
  { intros d Hd. destruct (Ox d Hd) as (s & S1 & S2). rewrite Hl in S1. exists s. split; [exact S1|]. pose proof (I0 d ltac:(lia)) as I. rewrite (proj2 (Nat.ltb_lt _ _) Hd) in I. cbn [andb] in I. unfold Con_Spec.place in *. rewrite I. destruct (Nat.eqb_spec d dir) as [Ed|Ed]; cbn [negb]; [exact S2|].
    pose proof (even_half g Vg ml Bz FT d Hm Hd) as Ev. assert (Sv : exists k, s = 2 * k). { pose proof (dc_succ g Vg t W Bz a d Ha) as D2. destruct S1 as [->|(_ & _ & [->| ->])]; [exists 0; lia|exists (dc (level a) d); lia|exists (- dc (level a) d); lia]. }
    destruct Sv as (k & ->). set (h := nn d / 2) in *. clearbody h. rewrite Ev in *. clear -S2. set (x := index qx d - first d) in *. set (y := index p d - first d) in *. assert (X : x = 2 * (2 * coord d a * h + y + k - coord d b * h) + (x - 2 * (2 * coord d a * h + y + k - coord d b * h))) by lia. assert (0 <= x - 2 * (2 * coord d a * h + y + k - coord d b * h) <= 1) by lia. assert (Ex : x / 2 = 2 * coord d a * h + y + k - coord d b * h) by (symmetry; apply (Z.div_unique x 2 _ (x - 2 * (2 * coord d a * h + y + k - coord d b * h))); lia). rewrite Ex. lia. }
  assert (R : forall d, (d < dim)%nat -> d <> dir -> first d <= index q0 d /\ index q0 d + 1 < first d + nn d).
  { intros d Hd N. rewrite (I0 d ltac:(lia)), (proj2 (Nat.ltb_lt _ _) Hd). destruct (Nat.eqb_spec d dir); [contradiction|]. cbn [andb negb]. pose proof (face_in dir qx d Fx Hd) as X. destruct (Nat.eqb_spec d dir); [contradiction|]. pose proof (even_half g Vg ml Bz FT d Hm Hd) as Ev. assert (0 <= (index qx d - first d) / 2) by (apply Z.div_pos; lia). assert ((index qx d - first d) / 2 < nn d / 2) by (apply Z.div_lt_upper_bound; lia). lia. }
  assert (F0 : face_of dir q0). { apply mk_face; [exact Hr| |]; intros d Hd; [destruct (Nat.eqb_spec d dir) as [->|N]; [|specialize (R d Hd N); lia]; pose proof (face_in dir qx dir Fx Hd) as X; rewrite Nat.eqb_refl in X|intros H3]; rewrite (I0 d ltac:(lia)) || rewrite (I0 dir ltac:(lia)); [rewrite Nat.eqb_refl, andb_false_r; exact X|]. rewrite (proj2 (Nat.ltb_ge _ _) Hd). cbn [andb]. apply (face_out dir qx d Fx Hr Hd H3). }
  exists q0. split; [exact Q|]. split; [exact F0|]. split; [intros d Hd N; apply (R d Hd N)|]. split; [exact ND|]. intros q. rewrite Hq. split.
  - intros [Fq Oq] d Hd. destruct (Nat.lt_ge_cases d dim) as [L|L]; [|left; rewrite (face_out dir q d Fq Hr L Hd), (face_out dir q0 d F0 Hr L Hd); reflexivity]. destruct (Oq d L) as (s' & S1' & S2'). destruct (Q d L) as (s & S1 & S2). rewrite Hl in S1'. pose proof (on_block_wide a d Ha L) as Wd. pose proof (nn2 g Vg ml Bz FT d L) as N. pose proof (face_in dir q d Fq L) as P1. pose proof (face_in dir q0 d F0 L) as P2.
    assert (Dx : place b q d - place b q0 d = index q d - index q0 d) by (unfold Con_Spec.place; lia). assert (Es : s = s') by (destruct S1 as [->|(_ & _ & [->| ->])], S1' as [->|(_ & _ & [->| ->])]; destruct (Nat.eqb_spec d dir); lia). subst s'. destruct (Nat.eqb_spec d dir) as [Ed|Ed]; [left; lia|]. assert (Y : place b q d = place b q0 d \/ place b q d = place b q0 d + 1) by lia. destruct Y as [Y|Y]; [left; lia|right; split; [exact L|split; [exact Ed|lia]]].
  - intros H. split.
    + apply mk_face; [exact Hr| |]; intros d Hd; [pose proof (face_in dir q0 d F0 Hd) as X; destruct (H d ltac:(lia)) as [Y|(Y1 & Y2 & Y3)]; [rewrite Y; exact X|specialize (R d Hd Y2); destruct (Nat.eqb_spec d dir); lia]|intros H3]. destruct (H d H3) as [Y|(Y1 & _)]; [rewrite Y; apply (face_out dir q0 d F0 Hr Hd H3)|lia].
    + intros d Hd. destruct (Q d Hd) as (s & S1 & S2). exists s. rewrite Hl. split; [exact S1|]. assert (Dx : place b q d - place b q0 d = index q d - index q0 d) by (unfold Con_Spec.place; lia). destruct (H d ltac:(lia)) as [Y|(Y1 & Y2 & Y3)]; destruct (Nat.eqb_spec d dir); lia.
Qed.
Lemma face_list : forall dir qs q0, NoDup qs -> (forall q, In q qs <-> forall d, (d < 3)%nat -> index q d = index q0 d \/ ((d < dim)%nat /\ d <> dir /\ index q d = index q0 d + 1)) ->
  forall c m, (c < 3)%nat -> (m < dim)%nat -> (dir < dim)%nat -> c <> dir -> m <> dir -> c <> m -> Permutation qs ([q0; nx m q0] ++ if Nat.ltb c dim then [nx c q0; nx c (nx m q0)] else []).
Proof using Vg.
  intros dir qs q0 ND Hq c m Hc Hm Hr N1 N2 N3. pose proof D13 as V.
  assert (Ic : forall q, index (nx c q) c = index q c + 1) by (intros q; rewrite index_nx, Nat.eqb_refl by exact Hc; reflexivity). assert (Im : forall q, index (nx m q) m = index q m + 1) by (intros q; rewrite index_nx, Nat.eqb_refl by lia; reflexivity).
  assert (Jc : forall q d, (d < 3)%nat -> d <> c -> index (nx c q) d = index q d) by (intros q d Hd N; rewrite index_nx by exact Hd; destruct (Nat.eqb_spec d c); [contradiction|reflexivity]). assert (Jm : forall q d, (d < 3)%nat -> d <> m -> index (nx m q) d = index q d) by (intros q d Hd N; rewrite index_nx by exact Hd; destruct (Nat.eqb_spec d m); [contradiction|reflexivity]).
  assert (Ex : forall q q', (index q c = index q' c) -> index q m = index q' m -> index q dir = index q' dir -> q = q') by (intros q q' E1 E2 E3; apply fpos_ext; intros d Hd; assert (X : d = c \/ d = m \/ d = dir) by lia; destruct X as [->|[->| ->]]; assumption).
  apply NoDup_Permutation; [exact ND| |].
  - assert (Xm : forall q, nx m q <> q) by (intros q X; specialize (Im q); rewrite X in Im; lia). assert (Xc : forall q q', index q c = index q' c -> nx c q <> q') by (intros q q' E X; specialize (Ic q); rewrite X in Ic; lia).
    destruct (Nat.ltb c dim); cbn [app].
    + repeat constructor; cbn [In]; intros H.
      * destruct H as [H|[H|[H|[]]]]; [apply (Xm q0 H)|apply (Xc q0 q0 eq_refl H)|apply (Xc (nx m q0) q0 (Jm q0 c Hc N3) H)].
      * destruct H as [H|[H|[]]]; [apply (Xc q0 (nx m q0) ltac:(symmetry; apply Jm; assumption) H)|apply (Xc (nx m q0) (nx m q0) eq_refl H)].
      * destruct H as [H|[]]. assert (X : index (nx c (nx m q0)) m = index (nx c q0) m) by (rewrite H; reflexivity). rewrite !Jc in X by lia. rewrite Im in X. lia.
      * exact H.
    + repeat constructor; cbn [In]; intros H; [destruct H as [H|[]]; apply (Xm q0 H)|exact H].
  - intros q. rewrite Hq. split.
    + intros H. assert (Hd : index q dir = index q0 dir) by (destruct (H dir ltac:(lia)) as [X|(_ & X & _)]; [exact X|contradiction]). rewrite in_app_iff. destruct (H c Hc) as [Hcc|(Lc & _ & Hcc)]; (destruct (H m ltac:(lia)) as [Hmm|(_ & _ & Hmm)]).
      * left. left. apply Ex; congruence.
      * left. right. left. apply Ex; [rewrite Jm by assumption; congruence|rewrite Im; congruence|rewrite Jm by lia; congruence].
      * right. rewrite (proj2 (Nat.ltb_lt _ _) Lc). left. apply Ex; [rewrite Ic; congruence|rewrite Jc by lia; congruence|rewrite Jc by lia; congruence].
      * right. rewrite (proj2 (Nat.ltb_lt _ _) Lc). right. left. apply Ex; [rewrite Ic, Jm by assumption; congruence|rewrite Jc, Im by lia; congruence|rewrite Jc, Jm by lia; congruence].
    + intros H d Hd. rewrite in_app_iff in H. assert (X : d = c \/ d = m \/ d = dir) by lia.
      assert (HH : q = q0 \/ q = nx m q0 \/ ((c < dim)%nat /\ (q = nx c q0 \/ q = nx c (nx m q0)))). { destruct H as [[<-|[<-|[]]]|H]; [tauto|tauto|]. destruct (Nat.ltb_spec c dim); [|contradiction H]. destruct H as [<-|[<-|[]]]; tauto. }
      destruct HH as [->|[->|(Lc & [->| ->])]]; rewrite ?index_nx by exact Hd; destruct X as [->|[->| ->]]; repeat (match goal with |- context [Nat.eqb ?u ?v] => destruct (Nat.eqb_spec u v); [try (exfalso; lia)|try (exfalso; lia)] end); first [left; reflexivity|left; lia|right; split; [assumption|split; [assumption|lia]]|right; lia].
Qed.

Variable G : loc -> geom.
Hypothesis MG : magnetic_geometry g Bz bs G.
Variable E : loc -> emf.
Hypothesis SV : single_valued g Bz bs (fun a => edge_lengths (G a)) E.
Local Notation L := (fun a => edge_lengths (G a)).
Lemma pair_same : forall a a' dir c m p q, In a bs -> In a' bs -> level a = level a' -> (dir < dim)%nat -> (c < 3)%nat -> (m < dim)%nat -> c <> dir -> m <> dir -> c <> m -> face_of dir p -> face_of dir q -> same_face g Bz a p a' q ->
  pair (L a) (E a) c m p = pair (L a') (E a') c m q.
Proof using Vg MG SV.
  intros a a' dir c m p q Ha Ha' Hl Hr Hc Hm N1 N2 N3 Hp Hq Hs. pose proof D13 as V. destruct (face_edge dir c m p Hr Hm N1 N2 N3 Hp) as [P1 P2]. destruct (face_edge dir c m q Hr Hm N1 N2 N3 Hq) as [Q1 Q2].
  assert (C1 : copy g Bz bs c a p (a', q)) by (split; [exact Ha'|]; split; [symmetry; exact Hl|]; split; [exact Q1|exact Hs]).
  assert (C2 : copy g Bz bs c a (nx m p) (a', nx m q)). { split; [exact Ha'|]. split; [symmetry; exact Hl|]. split; [exact Q2|]. intros d Hd. destruct (Hs d Hd) as (s & S1 & S2). exists s. split; [exact S1|]. cbn [fst snd]. rewrite !place_nx by lia. lia. }
  unfold pair, le. pose proof (proj1 SV a c p (a', q) Ha Hc P1 C1) as X1. pose proof (proj1 SV a c (nx m p) (a', nx m q) Ha Hc P2 C2) as X2. pose proof (proj2 (mg_lengths _ _ _ _ MG) a c p (a', q) Ha Hc P1 C1) as Y1. pose proof (proj2 (mg_lengths _ _ _ _ MG) a c (nx m p) (a', nx m q) Ha Hc P2 C2) as Y2. cbn [fst snd] in *. rewrite X1, X2, Y1, Y2. reflexivity.
Qed.
Lemma le_parts : forall a b c p q, In a bs -> In b bs -> level b = S (level a) -> (c < 3)%nat -> edge_of c p -> edge_of c q -> ((c < dim)%nat -> index q c + 1 < first c + nn c) ->
  (forall d, (d < dim)%nat -> exists s, period_shift g d (dc (S (level a)) d) s /\ place b q d = 2 * place a p d + s) -> le (L a) (E a) c p = (le (L b) (E b) c q + if Nat.ltb c dim then le (L b) (E b) c (nx c q) else 0)%R.
Proof using Vg W FT MG SV.
  intros a b c p q Ha Hb Hl Hc Hp Hq Hi Hs. pose proof (edge_parts a b c p q Ha Hb Hl Hc Hp Hq Hi Hs) as X. assert (Ne : (q :: if Nat.ltb c dim then [nx c q] else []) <> []) by discriminate. pose proof (proj2 SV a b c p _ Ha Hc Hp Ne X) as Y. pose proof (mg_parts _ _ _ _ MG a b c p _ Ha Hc Hp Ne X) as Z. cbn beta in Y. unfold le. rewrite Z. clear Z X Ne. destruct (Nat.ltb c dim); cbn [map] in *; rewrite !sum_cons' in *; change (Fv_Spec.sum []) with 0%R in *; lra.
Qed.
Lemma pair_parts : forall a b dir c m p qs, In a bs -> In b bs -> level b = S (level a) -> (dir < dim)%nat -> (c < 3)%nat -> (m < dim)%nat -> c <> dir -> m <> dir -> c <> m -> face_of dir p -> face_parts g Bz a b dir p qs ->
  pair (L a) (E a) c m p = Fv_Spec.sum (map (pair (L b) (E b) c m) qs).
Proof using Vg W ML FT MG SV.
  intros a b dir c m p qs Ha Hb Hl Hr Hc Hm N1 N2 N3 Hp Hf. pose proof D13 as V. destruct (face_base a b dir p qs Ha Hb Hl Hr Hp Hf) as (q0 & Q & F0 & R & ND & Hq).
  pose proof (face_list dir qs q0 ND Hq c m Hc Hm Hr N1 N2 N3) as Pm. rewrite (sum_permutation _ _ (Permutation_map (pair (L b) (E b) c m) Pm)).
  destruct (face_edge dir c m p Hr Hm N1 N2 N3 Hp) as [P1 P2]. destruct (face_edge dir c m q0 Hr Hm N1 N2 N3 F0) as [Q1 Q2].
  assert (Q3 : edge_of c (nx m (nx m q0))). { apply mk_edge; [intros d Hd; pose proof (pos_in g Vg Bz c q0 d Q1 Hd) as X|intros d Hd H3; pose proof (pos_out g Bz c q0 d Q1 Hd H3)]; rewrite !index_nx by lia; destruct (Nat.eqb_spec d m) as [->|N]; [specialize (R m Hm N2); destruct (Nat.eqb_spec m c); [congruence|lia]|lia|lia|lia]. }
  assert (S0 : le (L a) (E a) c p = (le (L b) (E b) c q0 + if Nat.ltb c dim then le (L b) (E b) c (nx c q0) else 0)%R) by (apply le_parts; try assumption; intros Hd; apply (R c Hd N1)).
  assert (S1 : le (L a) (E a) c (nx m p) = (le (L b) (E b) c (nx m (nx m q0)) + if Nat.ltb c dim then le (L b) (E b) c (nx c (nx m (nx m q0))) else 0)%R).
  { apply le_parts; try assumption; [intros Hd; rewrite !index_nx by exact Hc; destruct (Nat.eqb_spec c m); [contradiction|apply (R c Hd N1)]|]. intros d Hd. destruct (Q d Hd) as (s & X1 & X2). exists s. split; [exact X1|]. rewrite !place_nx by lia. destruct (Nat.eqb d m); lia. }
  unfold pair at 1. rewrite S0, S1. destruct (Nat.ltb c dim); cbn [map app]; rewrite !sum_cons'; change (Fv_Spec.sum []) with 0%R; unfold pair; rewrite <- ?(nx_comm c m); ring.
Qed.
Lemma third_ok : forall dir c, (dir < 3)%nat -> In c (filter (fun c => negb (Nat.eqb c dir) && Nat.ltb (third dir c) dim) [0; 1; 2]%nat) -> (c < 3)%nat /\ (third dir c < dim)%nat /\ c <> dir /\ third dir c <> dir /\ c <> third dir c.
Proof using . intros dir c Hr H. apply filter_In in H as [H1 H2]. apply andb_prop in H2 as [H2 H3]. apply Nat.ltb_lt in H3. apply negb_true_iff, Nat.eqb_neq in H2. cbn [In] in H1. unfold third in *. lia. Qed.
Lemma circ_same : forall a a' dir p q, In a bs -> In a' bs -> level a = level a' -> (dir < dim)%nat -> face_of dir p -> face_of dir q -> same_face g Bz a p a' q -> circ dim (L a) (E a) dir p = circ dim (L a') (E a') dir q.
Proof using Vg MG SV.
  intros a a' dir p q Ha Ha' Hl Hr Hp Hq Hs. pose proof D13 as V. unfold circ. f_equal. apply map_ext_in. intros c Hc. destruct (third_ok dir c ltac:(lia) Hc) as (C1 & C2 & C3 & C4 & C5). f_equal. apply (pair_same a a' dir); assumption.
Qed.
Lemma sum_swap : forall (A C : Type) (f : C -> A -> R) (qs : list A) (cs : list C), Fv_Spec.sum (map (fun c => Fv_Spec.sum (map (f c) qs)) cs) = Fv_Spec.sum (map (fun q => Fv_Spec.sum (map (fun c => f c q) cs)) qs).
Proof using .
  intros A C f qs cs. induction qs as [|q qs IH]; cbn [map].
  - change (Fv_Spec.sum []) with 0%R. induction cs as [|c cs IH]; [reflexivity|]. cbn [map]. rewrite sum_cons', IH. lra.
  - rewrite sum_cons', <- IH. clear IH. induction cs as [|c cs IH]; cbn [map]; rewrite ?sum_cons'; [change (Fv_Spec.sum []) with 0%R; lra|]. rewrite IH. lra.
Qed.
Lemma sum_scale' : forall (A : Type) (r : R) (f : A -> R) l, (r * Fv_Spec.sum (map f l))%R = Fv_Spec.sum (map (fun x => r * f x)%R l).
Proof using . intros A r f l. induction l as [|x l IH]; cbn [map]; rewrite ?sum_cons'; [change (Fv_Spec.sum []) with 0%R; lra|]. rewrite <- IH. lra. Qed.
Lemma circ_parts : forall a b dir p qs, In a bs -> In b bs -> level b = S (level a) -> (dir < dim)%nat -> face_of dir p -> face_parts g Bz a b dir p qs -> circ dim (L a) (E a) dir p = Fv_Spec.sum (map (circ dim (L b) (E b) dir) qs).
Proof using Vg W ML FT MG SV.
  intros a b dir p qs Ha Hb Hl Hr Hp Hf. pose proof D13 as V. unfold circ. rewrite <- sum_swap. f_equal. apply map_ext_in. intros c Hc. destruct (third_ok dir c ltac:(lia) Hc) as (C1 & C2 & C3 & C4 & C5). rewrite <- sum_scale'. f_equal. apply (pair_parts a b dir); assumption.
Qed.
Lemma update_agrees : forall w b, fields_agree g Bz bs G b -> fields_agree g Bz bs G (fun a => CT D (G a) (edge_fields D (E a)) w (b a)).
Proof using Vg W ML FT MG SV.
  intros w b [H1 H2]. split.
  - intros a a' dir p q Ha Ha' Hl Hr Hp Hq Hs. rewrite !CT_at by assumption. rewrite (H1 a a' dir p q Ha Ha' Hl Hr Hp Hq Hs), (mg_same _ _ _ _ MG a a' dir p q Ha Ha' Hl Hr Hp Hq Hs), (circ_same a a' dir p q Ha Ha' Hl Hr Hp Hq Hs). reflexivity.
  - intros a a' dir p qs Ha Ha' Hl Hr Hp Hf. rewrite CT_at by assumption. pose proof (mg_area _ _ _ _ MG a dir p Ha Hr Hp) as Az. replace (area (G a) dir p * (normal (b a) dir p + w / area (G a) dir p * circ dim (L a) (E a) dir p))%R with (area (G a) dir p * normal (b a) dir p + w * circ dim (L a) (E a) dir p)%R by (field; exact Az).
    rewrite (H2 a a' dir p qs Ha Ha' Hl Hr Hp Hf), (circ_parts a a' dir p qs Ha Ha' Hl Hr Hp Hf), sum_scale'. destruct Hf as (_ & _ & Hq). assert (Fq : forall q, In q qs -> face_of dir q) by (intros q X; apply Hq in X; apply X). clear Hq.
    induction qs as [|q qs IH]; cbn [map]; rewrite ?sum_cons'; [change (Fv_Spec.sum []) with 0%R; lra|]. rewrite <- IH by (intros x Hx; apply Fq; right; exact Hx). rewrite CT_at by (try assumption; apply Fq; left; reflexivity). pose proof (mg_area _ _ _ _ MG a' dir q Ha' Hr (Fq q (or_introl eq_refl))) as Aq. field. exact Aq.
Qed.
End P.
