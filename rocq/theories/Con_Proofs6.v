(** Fluxes computed after the exchange of ghost zones agree on shared faces. *)
From Coq Require Import List Arith NArith ZArith Bool Lia Permutation Reals Lra.
From Verif Require Import Fv_Model Fv_Spec Fv_Proofs2 Fv_Proofs3 Loc LB_Spec Tags_Model Tags_Spec Tags_Proofs AMR_Model AMR_Spec AMR_Proofs AMR_Proofs2 Tree_Model Tree_Spec Tree_Proofs1 Tree_Proofs2 Tree_Proofs3 Tree_Proofs4 Tree_Proofs5 Tree_Proofs6 Tree_Proofs7 Tree_Proofs8 Tree_Restart Tree_Proofs9 Tree_Proofs10 Nbr_Model Nbr_Spec Nbr_Proofs Nbr_Proofs2 Nbr_Proofs3 Buf_Model Gho_Model Gho_Spec Gho_Proofs Gho_Proofs2 Con_Model Con_Spec Con_Proofs Con_Proofs2 Con_Proofs3 Con_Proofs4 Con_Proofs5.
Import ListNotations.
Local Open Scope Z_scope.

Lemma shift_neg : forall g d w s, period_shift g d w s -> period_shift g d w (- s).
Proof. intros g d w s [->|(P1 & P2 & [->| ->])]; [left; reflexivity|right; split; [exact P1|]; split; [exact P2|]; right; reflexivity|right; split; [exact P1|]; split; [exact P2|]; left; ring]. Qed.
Lemma same_face_sym : forall g B a p b q, level a = level b -> same_face g B a p b q -> same_face g B b q a p.
Proof. intros g B a p b q L H d Hd. destruct (H d Hd) as (s & S1 & S2). exists (- s). split; [rewrite <- L; apply shift_neg, S1|lia]. Qed.
Lemma loc_ext : forall a b, level a = level b -> (forall d, (d < 3)%nat -> coord d a = coord d b) -> a = b.
Proof. intros [v a1 a2 a3] [v' b1 b2 b3] Hv H. cbn in Hv. subst v'. pose proof (H 0%nat ltac:(lia)). pose proof (H 1%nat ltac:(lia)). pose proof (H 2%nat ltac:(lia)). cbn in *. congruence. Qed.
Section N.
Variable g : grid.
Hypothesis Vg : valid_grid g.
Variable t : tree.
Hypothesis W : wf g t.
Variable ml : bool.
Variable Bz : bsz.
Hypothesis FT : fitting g Bz ml.
Local Notation dim := (gdim g).
Context {A : Type}.
Variables (nl nu : Z) (V main : loc -> arr4 (A := A)).
Hypothesis Hown : forall a n x, In a (blocks t) -> nl <= n <= nu -> own Bz dim false x -> value (main a) n x = value (V a) n x.
Hypothesis Hgh : forall a n x b y, In a (blocks t) -> nl <= n <= nu -> near Bz dim false (ng Bz) x -> ~ own Bz dim false x -> In b (blocks t) -> level b = level a -> own Bz dim false y -> same_place g Bz (level a) a false x b false y -> value (main a) n x = value (V b) n y.

Lemma line_same : forall a b dir p q m, In a (blocks t) -> In b (blocks t) -> level a = level b -> (dir < dim)%nat -> face_of g Bz dir p -> face_of g Bz dir q -> same_face g Bz a p b q -> same_place g Bz (level a) a false (line p dir m) b false (line q dir m).
Proof using Vg W FT.
  intros a b dir p q m Ha Hb L Hdir Fp Fq SF d Hd. destruct (D_facts g Vg ml Bz FT d Hd) as (_ & _ & _ & A4 & _ & A6). rewrite A4. unfold line. destruct (Nat.lt_ge_cases d dim) as [Ld|Ld].
  - destruct (SF d Ld) as (s & S1 & S2). exists s. split; [exact S1|]. unfold place in S2. destruct (Nat.eqb d dir); lia.
  - exists 0. split; [left; reflexivity|]. destruct (block_facts g Vg t W a d Ha Hd) as [_ Ca]. destruct (block_facts g Vg t W b d Hb Hd) as [_ Cb]. rewrite (proj2 (Nat.ltb_ge _ _) Ld) in Ca, Cb. specialize (Fp d Hd). specialize (Fq d Hd). rewrite A4, (A6 Ld) in Fp, Fq.
    destruct (Nat.eqb_spec d dir) as [Ed|Ed]; [lia|]. lia.
Qed.
(** The ghost cells behind a shared face. *)
Lemma behind : forall a b dir p q n m, In a (blocks t) -> In b (blocks t) -> level a = level b -> (dir < dim)%nat -> face_of g Bz dir p -> face_of g Bz dir q -> same_face g Bz a p b q -> nl <= n <= nu ->
  (forall d, (d < dim)%nat -> d <> dir -> index p d = index q d) -> - ng Bz <= m < ng Bz ->
  (index p dir = first Bz dim dir + cells_in Bz dir /\ index q dir = first Bz dim dir /\ 0 <= m) \/ (index p dir = first Bz dim dir /\ index q dir = first Bz dim dir + cells_in Bz dir /\ m < 0) ->
  value (main a) n (line p dir m) = value (main b) n (line q dir m).
Proof using Vg W FT Hown Hgh.
  intros a b dir p q n m Ha Hb L Hdir Fp Fq SF Hn Htan Hm Hc. pose proof (dim13 g Vg) as D13. pose proof FT as (G1 & G2 & _). destruct (G2 dir ltac:(lia)) as [G3 _]. destruct (G3 Hdir) as [G4 G5]. destruct (D_facts g Vg ml Bz FT dir ltac:(lia)) as (_ & _ & _ & A4 & _ & _).
  assert (Oq : own Bz dim false (line q dir m)). { intros d Hd. unfold line. specialize (Fq d Hd). destruct (Nat.eqb_spec d dir) as [Ed|Hne]; [subst d; rewrite A4 in *; lia|]. lia. }
  rewrite (Hown b n _ Hb Hn Oq). apply (Hgh a n _ b _ Ha Hn); [| |exact Hb|symmetry; exact L|exact Oq|apply line_same; assumption].
  - intros d Hd. cbv zeta. unfold line. specialize (Fp d Hd). destruct (Nat.eqb_spec d dir) as [Ed|Hne]; [subst d; rewrite (proj2 (Nat.ltb_lt _ _) Hdir), A4 in *; lia|]. destruct (Nat.ltb d dim); lia.
  - intros Ho. specialize (Ho dir ltac:(lia)). unfold line in Ho. rewrite Nat.eqb_refl, A4 in Ho. lia.
Qed.
Lemma agree : forall phi F, stencil_flux g Bz (blocks t) nl nu main phi F -> fluxes_agree g Bz (blocks t) F.
Proof using Vg W FT Hown Hgh.
  intros phi F (P1 & P2 & P3) a b dir p q Ha Hb L Hdir Fp Fq SF. pose proof (dim13 g Vg) as D13. rewrite (P3 a dir p Ha Hdir Fp), (P3 b dir q Hb Hdir Fq), (P2 a b dir p q _ Ha Hb L SF).
  assert (Coord : forall d, (d < dim)%nat -> (coord d a = coord d b /\ index p d = index q d) \/ (d = dir /\ ((index p d = first Bz dim d + cells_in Bz d /\ index q d = first Bz dim d) \/ (index p d = first Bz dim d /\ index q d = first Bz dim d + cells_in Bz d)))).
  { intros d Hd. destruct (SF d Hd) as (s & S1 & S2). destruct (block_facts g Vg t W a d Ha ltac:(lia)) as [Ra Ca]. destruct (block_facts g Vg t W b d Hb ltac:(lia)) as [Rb Cb]. rewrite (proj2 (Nat.ltb_lt _ _) Hd) in Ca, Cb. rewrite <- L in Cb. destruct (D_facts g Vg ml Bz FT d ltac:(lia)) as (_ & _ & _ & A4 & A5 & _). specialize (A5 Hd).
    specialize (Fp d ltac:(lia)). specialize (Fq d ltac:(lia)). rewrite A4 in *. unfold place, domain_cells in *. set (M := gnrb g d * 2 ^ Z.of_nat (level a - groot g)) in *. set (n := cells_in Bz d) in *. set (f := first Bz dim d) in *.
    pose proof (shift_val _ _ _ _ S1) as V1. assert (Es : exists k, s = k * n /\ (k = 0 \/ k = M \/ k = - M)) by (destruct V1 as [->|[->| ->]]; [exists 0; split; [ring|lia]|exists M; split; [ring|lia]|exists (- M); split; [ring|lia]]).
    destruct Es as (k & -> & Hk). clear S1 V1. assert (Eq : (coord d b - coord d a - k) * n = index p d - index q d) by lia.
    destruct (Nat.eqb_spec d dir) as [Ed|Ed].
    - assert (Hc : coord d b - coord d a - k = 0 \/ coord d b - coord d a - k = 1 \/ coord d b - coord d a - k = -1) by nia. destruct Hc as [Hc|[Hc|Hc]]; rewrite Hc in Eq.
      + left. lia.
      + right. split; [exact Ed|]. left. lia.
      + right. split; [exact Ed|]. right. lia.
    - left. assert (Hc : coord d b - coord d a - k = 0) by nia. rewrite Hc in Eq. lia. }
  assert (Htan : forall d, (d < dim)%nat -> d <> dir -> index p d = index q d) by (intros d Hd Hne; destruct (Coord d Hd) as [[_ X]|[X _]]; [exact X|contradiction]).
  destruct (Coord dir Hdir) as [[Cd Id]|[_ Hc]].
  - assert (Eab : a = b). { apply loc_ext; [exact L|]. intros d Hd. destruct (Nat.lt_ge_cases d dim) as [Ld|Ld]; [destruct (Coord d Ld) as [[X _]|[-> _]]; assumption|]. destruct (block_facts g Vg t W a d Ha Hd) as [_ Ca]. destruct (block_facts g Vg t W b d Hb Hd) as [_ Cb]. rewrite (proj2 (Nat.ltb_ge _ _) Ld) in Ca, Cb. lia. }
    assert (Epq : forall d, (d < 3)%nat -> index p d = index q d). { intros d Hd. destruct (Nat.lt_ge_cases d dim) as [Ld|Ld]; [destruct (Coord d Ld) as [[_ X]|[-> _]]; assumption|]. specialize (Fp d Hd). specialize (Fq d Hd). destruct (D_facts g Vg ml Bz FT d Hd) as (_ & _ & _ & A4 & _ & A6). rewrite A4, (A6 Ld) in *. destruct (Nat.eqb_spec d dir); lia. }
    assert (p = q). { destruct p as [[k j] i], q as [[k' j'] i']. pose proof (Epq 0%nat ltac:(lia)) as X0. pose proof (Epq 1%nat ltac:(lia)) as X1. pose proof (Epq 2%nat ltac:(lia)) as X2. cbn [index] in X0, X1, X2. congruence. }
    subst. reflexivity.
  - apply P1. intros n m Hn Hm. destruct (Z.lt_ge_cases m 0) as [Hm0|Hm0]; destruct Hc as [[C1 C2]|[C1 C2]].
    + symmetry. apply behind; try assumption; [symmetry; exact L|apply same_face_sym; assumption|intros d Hd Hne; symmetry; apply Htan; assumption|]. right. split; [exact C2|]. split; [exact C1|exact Hm0].
    + apply behind; try assumption. right. split; [exact C1|]. split; [exact C2|exact Hm0].
    + apply behind; try assumption. left. split; [exact C1|]. split; [exact C2|exact Hm0].
    + symmetry. apply behind; try assumption; [symmetry; exact L|apply same_face_sym; assumption|intros d Hd Hne; symmetry; apply Htan; assumption|]. left. split; [exact C2|]. split; [exact C1|exact Hm0].
Qed.
End N.
