(** Derived quantities in the ghost cells, and consequences of the fill. *)
From Coq Require Import List ZArith Reals Bool Lia Lra.
From Verif Require Import Bnd_Model Bnd_Spec Bnd_Proofs Bnd_Proofs2 Bnd_Proofs3.
Import ListNotations.
Local Open Scope Z_scope.

Lemma column4 : forall a k j i, column 4 a k j i =
  [a (0, k, j, i); a (1, k, j, i); a (2, k, j, i); a (3, k, j, i); a (4, k, j, i)].
Proof. reflexivity. Qed.
Lemma column2 : forall a k j i, column 2 a k j i = [a (0, k, j, i); a (1, k, j, i); a (2, k, j, i)].
Proof. reflexivity. Qed.

(** the primary variables of a cell, including its six faces *)
Definition same_cell (ns : Z) (s s' : state) (k j i : Z) : Prop :=
  (forall n, 0 <= n <= 4 -> s_w s' (n, k, j, i) = s_w s (n, k, j, i)) /\
  (forall n, 0 <= n < ns -> s_r s' (n, k, j, i) = s_r s (n, k, j, i)) /\
  s_b s' (0, k, j, i) = s_b s (0, k, j, i) /\ s_b s' (0, k, j, i + 1) = s_b s (0, k, j, i + 1) /\
  s_b s' (1, k, j, i) = s_b s (1, k, j, i) /\ s_b s' (1, k, j + 1, i) = s_b s (1, k, j + 1, i) /\
  s_b s' (2, k, j, i) = s_b s (2, k, j, i) /\ s_b s' (2, k + 1, j, i) = s_b s (2, k + 1, j, i).
Definition same_derived (ns : Z) (s s' : state) (k j i : Z) : Prop :=
  (forall n, 0 <= n <= 2 -> s_bcc s' (n, k, j, i) = s_bcc s (n, k, j, i)) /\
  (forall n, 0 <= n <= 4 -> s_u s' (n, k, j, i) = s_u s (n, k, j, i)) /\
  (forall n, 0 <= n < ns -> s_s s' (n, k, j, i) = s_s s (n, k, j, i)).

Lemma consistent_keep : forall p ns s s' k j i,
  same_cell ns s s' k j i -> same_derived ns s s' k j i ->
  consistent p ns s k j i -> consistent p ns s' k j i.
Proof.
  intros p ns s s' k j i (W & R & B1 & B1' & B2 & B2' & B3 & B3') (BC & U & S) (C1 & C2 & C3 & CU & CS).
  unfold consistent. rewrite B1, B1', B2, B2', B3, B3', !BC by lia.
  repeat split; try assumption.
  - intros n Hn. rewrite U, CU by lia. rewrite !W by lia. reflexivity.
  - intros n Hn. rewrite S, CS, R, U by lia. reflexivity.
Qed.

(** a cell of the slab of an applied step becomes consistent *)
Lemma step_slab : forall p g fc il iu jl ju kl ku x1 x2 y1 y2 z1 z2 s s' k j i,
  face_step p g fc il iu jl ju kl ku x1 x2 y1 y2 z1 z2 s = Some s' ->
  applied (bcs g fc) = true -> x1 <= i <= x2 -> y1 <= j <= y2 -> z1 <= k <= z2 ->
  consistent p (NSCALARS g) s' k j i.
Proof.
  intros p g fc il iu jl ju kl ku x1 x2 y1 y2 z1 z2 s s' k j i H A Hi Hj Hk.
  unfold face_step in H. rewrite A in H.
  destruct (Dispatch Hydro (bcs g fc) fc il iu jl ju kl ku (NGHOST g)) as [lh|]; [|discriminate H].
  destruct (Dispatch (Scalars (NSCALARS g)) (bcs g fc) fc il iu jl ju kl ku (NGHOST g)) as [lr|]; [|discriminate H].
  destruct (Dispatch Field (bcs g fc) fc il iu jl ju kl ku (NGHOST g)) as [lb|]; [|discriminate H].
  injection H as <-. unfold consistent. cbn [s_w s_r s_b s_bcc s_u s_s].
  unfold CalculateCellCenteredField, PrimitiveToConserved, PassiveScalarPrimitiveToConserved.
  rewrite (inb_yes x1 x2 i), (inb_yes y1 y2 j), (inb_yes z1 z2 k) by assumption.
  cbn [andb]. unfold IB1, IB2, IB3. cbn [Z.eqb Pos.eqb].
  repeat split.
  - intros n Hn. rewrite (inb_yes 0 4 n) by lia. rewrite column4, column2.
    rewrite (inb_yes x1 x2 i), (inb_yes y1 y2 j), (inb_yes z1 z2 k) by assumption.
    reflexivity.
  - intros n Hn. rewrite (inb_yes 0 _ n) by lia. unfold IDN. reflexivity.
Qed.

(** outside the slab the derived quantities are untouched *)
Lemma step_out : forall p g fc il iu jl ju kl ku x1 x2 y1 y2 z1 z2 s s' k j i,
  face_step p g fc il iu jl ju kl ku x1 x2 y1 y2 z1 z2 s = Some s' ->
  ~ (x1 <= i <= x2 /\ y1 <= j <= y2 /\ z1 <= k <= z2) ->
  same_derived (NSCALARS g) s s' k j i.
Proof.
  intros p g fc il iu jl ju kl ku x1 x2 y1 y2 z1 z2 s s' k j i H N.
  unfold face_step in H. destruct (applied (bcs g fc)).
  2: { injection H as <-. repeat split; reflexivity. }
  destruct (Dispatch Hydro (bcs g fc) fc il iu jl ju kl ku (NGHOST g)) as [lh|]; [|discriminate H].
  destruct (Dispatch (Scalars (NSCALARS g)) (bcs g fc) fc il iu jl ju kl ku (NGHOST g)) as [lr|]; [|discriminate H].
  destruct (Dispatch Field (bcs g fc) fc il iu jl ju kl ku (NGHOST g)) as [lb|]; [|discriminate H].
  injection H as <-.
  assert (E : inb x1 x2 i && inb y1 y2 j && inb z1 z2 k = false).
  { destruct (inb x1 x2 i) eqn:E1; [|reflexivity]. destruct (inb y1 y2 j) eqn:E2; [|reflexivity].
    destruct (inb z1 z2 k) eqn:E3; [|reflexivity].
    apply inb_true in E1. apply inb_true in E2. apply inb_true in E3. exfalso. apply N. tauto. }
  unfold same_derived. cbn [s_bcc s_u s_s].
  unfold CalculateCellCenteredField, PrimitiveToConserved, PassiveScalarPrimitiveToConserved.
  rewrite E. cbn [andb]. repeat split; reflexivity.
Qed.

(** ** A step leaves the cells on the inner side of its wall alone *)
Definition poles_zero (g : block) (s : state) : Prop :=
  (bcs g inner_x2 = PolarWedge -> forall k i, s_b s (1, k, b_js g, i) = 0%R) /\
  (bcs g outer_x2 = PolarWedge -> forall k i, s_b s (1, k, b_je g + 1, i) = 0%R).

Lemma keep_inner_x1 : forall p g il iu jl ju kl ku x1 x2 y1 y2 z1 z2 s s' k j i,
  face_step p g inner_x1 il iu jl ju kl ku x1 x2 y1 y2 z1 z2 s = Some s' ->
  bcs g inner_x1 <> PolarWedge ->
  il <= i ->
  same_cell (NSCALARS g) s s' k j i.
Proof.
  intros p g il iu jl ju kl ku x1 x2 y1 y2 z1 z2 s s' k j i H F Hc.
  apply step_vars in H. destruct H as (HW & HR & HB).
  unfold same_cell. rewrite HW, HR, HB.
  split.
  { intros n Hn. rewrite run_inner_x1 by (exact I || assumption || (cbn [nu_of]; lia)).
    rewrite (inb_no (il - NGHOST g) (il - 1) i) by lia. rewrite ?andb_false_r. reflexivity. }
  split.
  { intros n Hn. rewrite run_inner_x1 by (exact I || assumption || (cbn [nu_of]; lia)).
    rewrite (inb_no (il - NGHOST g) (il - 1) i) by lia. rewrite ?andb_false_r. reflexivity. }
  assert (K : forall n k j i, 0 <= n <= 2 -> il <= i ->
     run Field (bcs g inner_x1) inner_x1 il iu jl ju kl ku (NGHOST g) (s_b s) (n, k, j, i) = s_b s (n, k, j, i)).
  { clear - F. intros n k j i Hn Hc. rewrite frun_inner_x1 by assumption.
    rewrite (inb_no (il - NGHOST g) (il - 1) i) by lia. rewrite ?andb_false_r. cbn [andb].
    reflexivity. }
  repeat split; apply K; unfold al; cbn [Z.eqb Pos.eqb]; lia.
Qed.

Lemma keep_outer_x1 : forall p g il iu jl ju kl ku x1 x2 y1 y2 z1 z2 s s' k j i,
  face_step p g outer_x1 il iu jl ju kl ku x1 x2 y1 y2 z1 z2 s = Some s' ->
  bcs g outer_x1 <> PolarWedge ->
  i <= iu ->
  same_cell (NSCALARS g) s s' k j i.
Proof.
  intros p g il iu jl ju kl ku x1 x2 y1 y2 z1 z2 s s' k j i H F Hc.
  apply step_vars in H. destruct H as (HW & HR & HB).
  unfold same_cell. rewrite HW, HR, HB.
  split.
  { intros n Hn. rewrite run_outer_x1 by (exact I || assumption || (cbn [nu_of]; lia)).
    rewrite (inb_no (iu + 1) (iu + NGHOST g) i) by lia. rewrite ?andb_false_r. reflexivity. }
  split.
  { intros n Hn. rewrite run_outer_x1 by (exact I || assumption || (cbn [nu_of]; lia)).
    rewrite (inb_no (iu + 1) (iu + NGHOST g) i) by lia. rewrite ?andb_false_r. reflexivity. }
  assert (K : forall n k j i, 0 <= n <= 2 -> i <= iu + al 0 n ->
     run Field (bcs g outer_x1) outer_x1 il iu jl ju kl ku (NGHOST g) (s_b s) (n, k, j, i) = s_b s (n, k, j, i)).
  { clear - F. intros n k j i Hn Hc. rewrite frun_outer_x1 by assumption.
    rewrite (inb_no (iu + 1 + al 0 n) (iu + NGHOST g + al 0 n) i) by lia. rewrite ?andb_false_r. cbn [andb].
    reflexivity. }
  repeat split; apply K; unfold al; cbn [Z.eqb Pos.eqb]; lia.
Qed.

Lemma keep_inner_x2 : forall p g il iu jl ju kl ku x1 x2 y1 y2 z1 z2 s s' k j i,
  face_step p g inner_x2 il iu jl ju kl ku x1 x2 y1 y2 z1 z2 s = Some s' ->
  (bcs g inner_x2 = PolarWedge -> forall k i, s_b s (1, k, jl, i) = 0%R) ->
  jl <= j ->
  same_cell (NSCALARS g) s s' k j i.
Proof.
  intros p g il iu jl ju kl ku x1 x2 y1 y2 z1 z2 s s' k j i H F Hc.
  apply step_vars in H. destruct H as (HW & HR & HB).
  unfold same_cell. rewrite HW, HR, HB.
  split.
  { intros n Hn. rewrite run_inner_x2 by (exact I || assumption || (cbn [nu_of]; lia)).
    rewrite (inb_no (jl - NGHOST g) (jl - 1) j) by lia. rewrite ?andb_false_r. reflexivity. }
  split.
  { intros n Hn. rewrite run_inner_x2 by (exact I || assumption || (cbn [nu_of]; lia)).
    rewrite (inb_no (jl - NGHOST g) (jl - 1) j) by lia. rewrite ?andb_false_r. reflexivity. }
  assert (K : forall n k j i, 0 <= n <= 2 -> jl <= j ->
     run Field (bcs g inner_x2) inner_x2 il iu jl ju kl ku (NGHOST g) (s_b s) (n, k, j, i) = s_b s (n, k, j, i)).
  { clear - F. intros n k j i Hn Hc. rewrite frun_inner_x2 by assumption.
    rewrite (inb_no (jl - NGHOST g) (jl - 1) j) by lia. rewrite ?andb_false_r. cbn [andb].
    destruct (bcs g inner_x2); try reflexivity.
    destruct (_ && _) eqn:E; [|reflexivity].
    apply andb_true_iff in E. destruct E as [E Ej]. apply Z.eqb_eq in Ej. subst j.
    apply andb_true_iff in E. destruct E as [E _].
    apply andb_true_iff in E. destruct E as [E _]. apply Z.eqb_eq in E. subst n.
    symmetry. apply F. reflexivity. }
  repeat split; apply K; unfold al; cbn [Z.eqb Pos.eqb]; lia.
Qed.

Lemma keep_outer_x2 : forall p g il iu jl ju kl ku x1 x2 y1 y2 z1 z2 s s' k j i,
  face_step p g outer_x2 il iu jl ju kl ku x1 x2 y1 y2 z1 z2 s = Some s' ->
  (bcs g outer_x2 = PolarWedge -> forall k i, s_b s (1, k, ju + 1, i) = 0%R) ->
  j <= ju ->
  same_cell (NSCALARS g) s s' k j i.
Proof.
  intros p g il iu jl ju kl ku x1 x2 y1 y2 z1 z2 s s' k j i H F Hc.
  apply step_vars in H. destruct H as (HW & HR & HB).
  unfold same_cell. rewrite HW, HR, HB.
  split.
  { intros n Hn. rewrite run_outer_x2 by (exact I || assumption || (cbn [nu_of]; lia)).
    rewrite (inb_no (ju + 1) (ju + NGHOST g) j) by lia. rewrite ?andb_false_r. reflexivity. }
  split.
  { intros n Hn. rewrite run_outer_x2 by (exact I || assumption || (cbn [nu_of]; lia)).
    rewrite (inb_no (ju + 1) (ju + NGHOST g) j) by lia. rewrite ?andb_false_r. reflexivity. }
  assert (K : forall n k j i, 0 <= n <= 2 -> j <= ju + al 1 n ->
     run Field (bcs g outer_x2) outer_x2 il iu jl ju kl ku (NGHOST g) (s_b s) (n, k, j, i) = s_b s (n, k, j, i)).
  { clear - F. intros n k j i Hn Hc. rewrite frun_outer_x2 by assumption.
    rewrite (inb_no (ju + 1 + al 1 n) (ju + NGHOST g + al 1 n) j) by lia. rewrite ?andb_false_r. cbn [andb].
    destruct (bcs g outer_x2); try reflexivity.
    destruct (_ && _) eqn:E; [|reflexivity].
    apply andb_true_iff in E. destruct E as [E Ej]. apply Z.eqb_eq in Ej. subst j.
    apply andb_true_iff in E. destruct E as [E _].
    apply andb_true_iff in E. destruct E as [E _]. apply Z.eqb_eq in E. subst n.
    symmetry. apply F. reflexivity. }
  repeat split; apply K; unfold al; cbn [Z.eqb Pos.eqb]; lia.
Qed.

Lemma keep_inner_x3 : forall p g il iu jl ju kl ku x1 x2 y1 y2 z1 z2 s s' k j i,
  face_step p g inner_x3 il iu jl ju kl ku x1 x2 y1 y2 z1 z2 s = Some s' ->
  bcs g inner_x3 <> PolarWedge ->
  kl <= k ->
  same_cell (NSCALARS g) s s' k j i.
Proof.
  intros p g il iu jl ju kl ku x1 x2 y1 y2 z1 z2 s s' k j i H F Hc.
  apply step_vars in H. destruct H as (HW & HR & HB).
  unfold same_cell. rewrite HW, HR, HB.
  split.
  { intros n Hn. rewrite run_inner_x3 by (exact I || assumption || (cbn [nu_of]; lia)).
    rewrite (inb_no (kl - NGHOST g) (kl - 1) k) by lia. rewrite ?andb_false_r. reflexivity. }
  split.
  { intros n Hn. rewrite run_inner_x3 by (exact I || assumption || (cbn [nu_of]; lia)).
    rewrite (inb_no (kl - NGHOST g) (kl - 1) k) by lia. rewrite ?andb_false_r. reflexivity. }
  assert (K : forall n k j i, 0 <= n <= 2 -> kl <= k ->
     run Field (bcs g inner_x3) inner_x3 il iu jl ju kl ku (NGHOST g) (s_b s) (n, k, j, i) = s_b s (n, k, j, i)).
  { clear - F. intros n k j i Hn Hc. rewrite frun_inner_x3 by assumption.
    rewrite (inb_no (kl - NGHOST g) (kl - 1) k) by lia. rewrite ?andb_false_r. cbn [andb].
    reflexivity. }
  repeat split; apply K; unfold al; cbn [Z.eqb Pos.eqb]; lia.
Qed.

Lemma keep_outer_x3 : forall p g il iu jl ju kl ku x1 x2 y1 y2 z1 z2 s s' k j i,
  face_step p g outer_x3 il iu jl ju kl ku x1 x2 y1 y2 z1 z2 s = Some s' ->
  bcs g outer_x3 <> PolarWedge ->
  k <= ku ->
  same_cell (NSCALARS g) s s' k j i.
Proof.
  intros p g il iu jl ju kl ku x1 x2 y1 y2 z1 z2 s s' k j i H F Hc.
  apply step_vars in H. destruct H as (HW & HR & HB).
  unfold same_cell. rewrite HW, HR, HB.
  split.
  { intros n Hn. rewrite run_outer_x3 by (exact I || assumption || (cbn [nu_of]; lia)).
    rewrite (inb_no (ku + 1) (ku + NGHOST g) k) by lia. rewrite ?andb_false_r. reflexivity. }
  split.
  { intros n Hn. rewrite run_outer_x3 by (exact I || assumption || (cbn [nu_of]; lia)).
    rewrite (inb_no (ku + 1) (ku + NGHOST g) k) by lia. rewrite ?andb_false_r. reflexivity. }
  assert (K : forall n k j i, 0 <= n <= 2 -> k <= ku + al 2 n ->
     run Field (bcs g outer_x3) outer_x3 il iu jl ju kl ku (NGHOST g) (s_b s) (n, k, j, i) = s_b s (n, k, j, i)).
  { clear - F. intros n k j i Hn Hc. rewrite frun_outer_x3 by assumption.
    rewrite (inb_no (ku + 1 + al 2 n) (ku + NGHOST g + al 2 n) k) by lia. rewrite ?andb_false_r. cbn [andb].
    reflexivity. }
  repeat split; apply K; unfold al; cbn [Z.eqb Pos.eqb]; lia.
Qed.


Lemma step_comm : forall p g fc il iu jl ju kl ku x1 x2 y1 y2 z1 z2 s s',
  face_step p g fc il iu jl ju kl ku x1 x2 y1 y2 z1 z2 s = Some s' ->
  applied (bcs g fc) = false -> s' = s.
Proof.
  intros p g fc il iu jl ju kl ku x1 x2 y1 y2 z1 z2 s s' H A. unfold face_step in H.
  rewrite A in H. injection H as <-. reflexivity.
Qed.

(** zero field through a pole survives the x1 boundaries *)
Lemma poles_x1 : forall p g s s1 s2, legal g -> poles_zero g s ->
  S1i p g s = Some s1 -> S1o p g s1 = Some s2 -> poles_zero g s2.
Proof.
  intros p g s s1 s2 (L1 & L2 & _) (P1 & P2) H1 H2.
  apply step_vars in H1. destruct H1 as (_ & _ & B1).
  apply step_vars in H2. destruct H2 as (_ & _ & B2).
  split; intros W k i; rewrite B2, frun_outer_x1, !B1, !frun_inner_x1 by (assumption || lia);
    [specialize (P1 W)|specialize (P2 W)]; rewrite ?P1, ?P2;
    repeat match goal with |- context [if ?c then _ else _] => destruct c end;
    rewrite ?P1, ?P2; ring.
Qed.

Lemma poles_x2i : forall p g s s1, poles_zero g s -> b_js g <= b_je g ->
  S2i p g s = Some s1 -> poles_zero g s1.
Proof.
  intros p g s s1 (P1 & P2) G H. apply step_vars in H. destruct H as (_ & _ & B).
  split; intros W k i; rewrite B, frun_inner_x2 by lia.
  - rewrite W, Z.eqb_refl. rewrite (inb_no (b_js g - NGHOST g)) by lia.
    rewrite ?andb_false_r. cbn [andb]. rewrite (P1 W).
    destruct (_ && _); reflexivity.
  - rewrite (inb_no (b_js g - NGHOST g)) by lia. rewrite ?andb_false_r. cbn [andb].
    rewrite (P2 W). destruct (match bcs g inner_x2 with PolarWedge => _ | _ => _ end); reflexivity.
Qed.

Lemma met_applied : forall f1 f2 lo hi i, applied (met f1 f2 lo hi i) = true ->
  (i < lo /\ applied f1 = true) \/ (hi < i /\ lo <= i /\ applied f2 = true).
Proof.
  intros f1 f2 lo hi i H. unfold met in H.
  destruct (Z.ltb_spec i lo); [left; auto|]. destruct (Z.ltb_spec hi i); [right; auto|discriminate H].
Qed.
Lemma met_not_applied : forall f1 f2 lo hi i, applied (met f1 f2 lo hi i) = false ->
  (i < lo -> applied f1 = false) /\ (hi < i -> lo <= i -> applied f2 = false).
Proof.
  intros f1 f2 lo hi i H. unfold met in H.
  destruct (Z.ltb_spec i lo); [split; [auto|lia]|]. split; [lia|].
  intros H1 _. replace (hi <? i) with true in H by (symmetry; apply Z.ltb_lt; exact H1). exact H.
Qed.

Lemma carry_S1i : forall p g s s' k j i, S1i p g s = Some s' -> bcs g inner_x1 <> PolarWedge -> 
  (applied (bcs g inner_x1) = true -> b_is g <= i) ->
  consistent p (NSCALARS g) s k j i -> consistent p (NSCALARS g) s' k j i.
Proof.
  intros p g s s' k j i H L C K. destruct (applied (bcs g inner_x1)) eqn:A.
  2: { rewrite (step_comm _ _ _ _ _ _ _ _ _ _ _ _ _ _ _ _ _ H A). exact K. }
  specialize (C eq_refl). unfold S1i in H.
  refine (consistent_keep p _ s s' k j i _ _ K).
  - refine (keep_inner_x1 _ _ _ _ _ _ _ _ _ _ _ _ _ _ _ _ _ _ _ H _ C). exact L.
  - apply (step_out _ _ _ _ _ _ _ _ _ _ _ _ _ _ _ _ _ k j i H). lia.
Qed.

Lemma carry_S1o : forall p g s s' k j i, S1o p g s = Some s' -> bcs g outer_x1 <> PolarWedge -> 
  (applied (bcs g outer_x1) = true -> i <= b_ie g) ->
  consistent p (NSCALARS g) s k j i -> consistent p (NSCALARS g) s' k j i.
Proof.
  intros p g s s' k j i H L C K. destruct (applied (bcs g outer_x1)) eqn:A.
  2: { rewrite (step_comm _ _ _ _ _ _ _ _ _ _ _ _ _ _ _ _ _ H A). exact K. }
  specialize (C eq_refl). unfold S1o in H.
  refine (consistent_keep p _ s s' k j i _ _ K).
  - refine (keep_outer_x1 _ _ _ _ _ _ _ _ _ _ _ _ _ _ _ _ _ _ _ H _ C). exact L.
  - apply (step_out _ _ _ _ _ _ _ _ _ _ _ _ _ _ _ _ _ k j i H). lia.
Qed.

Lemma carry_S2i : forall p g s s' k j i, S2i p g s = Some s' -> poles_zero g s -> 
  (applied (bcs g inner_x2) = true -> b_js g <= j) ->
  consistent p (NSCALARS g) s k j i -> consistent p (NSCALARS g) s' k j i.
Proof.
  intros p g s s' k j i H L C K. destruct (applied (bcs g inner_x2)) eqn:A.
  2: { rewrite (step_comm _ _ _ _ _ _ _ _ _ _ _ _ _ _ _ _ _ H A). exact K. }
  specialize (C eq_refl). unfold S2i in H.
  refine (consistent_keep p _ s s' k j i _ _ K).
  - refine (keep_inner_x2 _ _ _ _ _ _ _ _ _ _ _ _ _ _ _ _ _ _ _ H _ C). apply L.
  - apply (step_out _ _ _ _ _ _ _ _ _ _ _ _ _ _ _ _ _ k j i H). lia.
Qed.

Lemma carry_S2o : forall p g s s' k j i, S2o p g s = Some s' -> poles_zero g s -> 
  (applied (bcs g outer_x2) = true -> j <= b_je g) ->
  consistent p (NSCALARS g) s k j i -> consistent p (NSCALARS g) s' k j i.
Proof.
  intros p g s s' k j i H L C K. destruct (applied (bcs g outer_x2)) eqn:A.
  2: { rewrite (step_comm _ _ _ _ _ _ _ _ _ _ _ _ _ _ _ _ _ H A). exact K. }
  specialize (C eq_refl). unfold S2o in H.
  refine (consistent_keep p _ s s' k j i _ _ K).
  - refine (keep_outer_x2 _ _ _ _ _ _ _ _ _ _ _ _ _ _ _ _ _ _ _ H _ C). apply L.
  - apply (step_out _ _ _ _ _ _ _ _ _ _ _ _ _ _ _ _ _ k j i H). lia.
Qed.

Lemma carry_S3i : forall p g s s' k j i, S3i p g s = Some s' -> bcs g inner_x3 <> PolarWedge -> 
  (applied (bcs g inner_x3) = true -> b_ks g <= k) ->
  consistent p (NSCALARS g) s k j i -> consistent p (NSCALARS g) s' k j i.
Proof.
  intros p g s s' k j i H L C K. destruct (applied (bcs g inner_x3)) eqn:A.
  2: { rewrite (step_comm _ _ _ _ _ _ _ _ _ _ _ _ _ _ _ _ _ H A). exact K. }
  specialize (C eq_refl). unfold S3i in H.
  refine (consistent_keep p _ s s' k j i _ _ K).
  - refine (keep_inner_x3 _ _ _ _ _ _ _ _ _ _ _ _ _ _ _ _ _ _ _ H _ C). exact L.
  - apply (step_out _ _ _ _ _ _ _ _ _ _ _ _ _ _ _ _ _ k j i H). lia.
Qed.

Lemma carry_S3o : forall p g s s' k j i, S3o p g s = Some s' -> bcs g outer_x3 <> PolarWedge -> 
  (applied (bcs g outer_x3) = true -> k <= b_ke g) ->
  consistent p (NSCALARS g) s k j i -> consistent p (NSCALARS g) s' k j i.
Proof.
  intros p g s s' k j i H L C K. destruct (applied (bcs g outer_x3)) eqn:A.
  2: { rewrite (step_comm _ _ _ _ _ _ _ _ _ _ _ _ _ _ _ _ _ H A). exact K. }
  specialize (C eq_refl). unfold S3o in H.
  refine (consistent_keep p _ s s' k j i _ _ K).
  - refine (keep_outer_x3 _ _ _ _ _ _ _ _ _ _ _ _ _ _ _ _ _ _ _ H _ C). exact L.
  - apply (step_out _ _ _ _ _ _ _ _ _ _ _ _ _ _ _ _ _ k j i H). lia.
Qed.

Theorem derived_consistent : forall p g s s' k j i, wf g -> legal g -> poles_zero g s ->
  ApplyPhysicalBoundaries p g s = Some s' -> in_array g k j i ->
  filled g k j i = true -> consistent p (NSCALARS g) s' k j i.
Proof.
  intros p g s s' k j i (G0 & GS & G1 & G2 & G3) L P H (Hi & Hj & Hk) F.
  apply apply_steps in H. destruct H as (s1 & s2 & s3 & s4 & s5 & H1 & H2 & H34 & H56).
  pose proof (poles_x1 p g s s1 s2 L P H1 H2) as P2. destruct L as (L1 & L2 & L3).
  assert (Js : b_js g <= b_je g) by (destruct (f2 g); lia).
  unfold filled, x2_flags, x3_flags in F.
  (* x3 *)
  destruct (f3 g) eqn:F3.
  - destruct G3 as (F2 & G3). rewrite F2 in *. destruct (L3 eq_refl) as (L4 & L5).
    destruct H34 as (H3 & H4). destruct H56 as (H5 & H6).
    pose proof (poles_x2i p g s2 s3 P2 Js H3) as P3.
    destruct (applied (met (bcs g inner_x3) (bcs g outer_x3) (b_ks g) (b_ke g) k)) eqn:A3.
    + apply met_applied in A3. destruct A3 as [(K & A)|(K & K' & A)].
      * apply (carry_S3o _ _ _ _ _ _ _ H6 L5); [lia|].
        apply (step_slab _ _ _ _ _ _ _ _ _ _ _ _ _ _ _ _ _ _ _ _ H5 A); unfold Bis, Bie; lia.
      * apply (step_slab _ _ _ _ _ _ _ _ _ _ _ _ _ _ _ _ _ _ _ _ H6 A); unfold Bis, Bie; lia.
    + apply met_not_applied in A3. destruct A3 as (N1 & N2).
      assert (C3i : applied (bcs g inner_x3) = true -> b_ks g <= k).
      { intro A. destruct (Z.lt_ge_cases k (b_ks g)); [|lia]. rewrite N1 in A by assumption. discriminate A. }
      assert (C3o : applied (bcs g outer_x3) = true -> k <= b_ke g).
      { intro A. destruct (Z.le_gt_cases k (b_ke g)); [lia|].
        rewrite N2 in A by lia. discriminate A. }
      assert (Kr : Bks g <= k <= Bke g).
      { unfold Bks, Bke. rewrite F3, !andb_true_r.
        destruct (applied (bcs g inner_x3)); destruct (applied (bcs g outer_x3)); cbn [negb];
        repeat match goal with H : true = true -> _ |- _ => specialize (H eq_refl) end; lia. }
      apply (carry_S3o _ _ _ _ _ _ _ H6 L5 C3o). apply (carry_S3i _ _ _ _ _ _ _ H5 L4 C3i).
      rewrite orb_false_r in F.
      destruct (applied (met (bcs g inner_x2) (bcs g outer_x2) (b_js g) (b_je g) j)) eqn:A2.
      * apply met_applied in A2. destruct A2 as [(K & A)|(K & K' & A)].
        -- apply (carry_S2o _ _ _ _ _ _ _ H4 P3); [lia|].
           apply (step_slab _ _ _ _ _ _ _ _ _ _ _ _ _ _ _ _ _ _ _ _ H3 A); unfold Bis, Bie; lia.
        -- apply (step_slab _ _ _ _ _ _ _ _ _ _ _ _ _ _ _ _ _ _ _ _ H4 A); unfold Bis, Bie; lia.
      * apply met_not_applied in A2. destruct A2 as (N3 & N4).
        assert (C2i : applied (bcs g inner_x2) = true -> b_js g <= j).
        { intro A. destruct (Z.lt_ge_cases j (b_js g)); [|lia]. rewrite N3 in A by assumption. discriminate A. }
        assert (C2o : applied (bcs g outer_x2) = true -> j <= b_je g).
        { intro A. destruct (Z.le_gt_cases j (b_je g)); [lia|].
          rewrite N4 in A by lia. discriminate A. }
        assert (Jr : Bjs g <= j <= Bje g).
        { unfold Bjs, Bje. rewrite F2, !andb_true_r.
          destruct (applied (bcs g inner_x2)); destruct (applied (bcs g outer_x2)); cbn [negb];
          repeat match goal with H : true = true -> _ |- _ => specialize (H eq_refl) end; lia. }
        apply (carry_S2o _ _ _ _ _ _ _ H4 P3 C2o). apply (carry_S2i _ _ _ _ _ _ _ H3 P2 C2i).
        rewrite orb_false_r in F.
        apply met_applied in F. destruct F as [(K & A)|(K & K' & A)].
        -- apply (carry_S1o _ _ _ _ _ _ _ H2 L2); [lia|].
           apply (step_slab _ _ _ _ _ _ _ _ _ _ _ _ _ _ _ _ _ _ _ _ H1 A); lia.
        -- apply (step_slab _ _ _ _ _ _ _ _ _ _ _ _ _ _ _ _ _ _ _ _ H2 A); lia.
  - destruct H56 as (_ & ->).
    assert (Kr : Bks g <= k <= Bke g). { unfold Bks, Bke. rewrite F3, !andb_false_r. lia. }
    assert (Z3 : applied (met Comm Comm (b_ks g) (b_ke g) k) = false).
    { unfold met. destruct (_ <? _); [reflexivity|]. destruct (_ <? _); reflexivity. }
    destruct (f2 g) eqn:F2; rewrite Z3, orb_false_r in F.
    + destruct H34 as (H3 & H4). pose proof (poles_x2i p g s2 s3 P2 Js H3) as P3.
      destruct (applied (met (bcs g inner_x2) (bcs g outer_x2) (b_js g) (b_je g) j)) eqn:A2.
      * apply met_applied in A2. destruct A2 as [(K & A)|(K & K' & A)].
        -- apply (carry_S2o _ _ _ _ _ _ _ H4 P3); [lia|].
           apply (step_slab _ _ _ _ _ _ _ _ _ _ _ _ _ _ _ _ _ _ _ _ H3 A); unfold Bis, Bie; lia.
        -- apply (step_slab _ _ _ _ _ _ _ _ _ _ _ _ _ _ _ _ _ _ _ _ H4 A); unfold Bis, Bie; lia.
      * apply met_not_applied in A2. destruct A2 as (N3 & N4).
        assert (C2i : applied (bcs g inner_x2) = true -> b_js g <= j).
        { intro A. destruct (Z.lt_ge_cases j (b_js g)); [|lia]. rewrite N3 in A by assumption. discriminate A. }
        assert (C2o : applied (bcs g outer_x2) = true -> j <= b_je g).
        { intro A. destruct (Z.le_gt_cases j (b_je g)); [lia|].
          rewrite N4 in A by lia. discriminate A. }
        assert (Jr : Bjs g <= j <= Bje g).
        { unfold Bjs, Bje. rewrite F2, !andb_true_r.
          destruct (applied (bcs g inner_x2)); destruct (applied (bcs g outer_x2)); cbn [negb];
          repeat match goal with H : true = true -> _ |- _ => specialize (H eq_refl) end; lia. }
        apply (carry_S2o _ _ _ _ _ _ _ H4 P3 C2o). apply (carry_S2i _ _ _ _ _ _ _ H3 P2 C2i).
        rewrite orb_false_r in F.
        apply met_applied in F. destruct F as [(K & A)|(K & K' & A)].
        -- apply (carry_S1o _ _ _ _ _ _ _ H2 L2); [lia|].
           apply (step_slab _ _ _ _ _ _ _ _ _ _ _ _ _ _ _ _ _ _ _ _ H1 A); lia.
        -- apply (step_slab _ _ _ _ _ _ _ _ _ _ _ _ _ _ _ _ _ _ _ _ H2 A); lia.
    + destruct H34 as (_ & ->).
      assert (Jr : Bjs g <= j <= Bje g). { unfold Bjs, Bje. rewrite F2, !andb_false_r. lia. }
      assert (Z2 : applied (met Comm Comm (b_js g) (b_je g) j) = false).
      { unfold met. destruct (_ <? _); [reflexivity|]. destruct (_ <? _); reflexivity. }
      rewrite Z2, orb_false_r in F.
      apply met_applied in F. destruct F as [(K & A)|(K & K' & A)].
      * apply (carry_S1o _ _ _ _ _ _ _ H2 L2); [lia|].
        apply (step_slab _ _ _ _ _ _ _ _ _ _ _ _ _ _ _ _ _ _ _ _ H1 A); lia.
      * apply (step_slab _ _ _ _ _ _ _ _ _ _ _ _ _ _ _ _ _ _ _ _ H2 A); lia.
Qed.

(** cells no boundary function is responsible for keep their derived quantities *)
Theorem derived_untouched : forall p g s s' k j i, wf g ->
  ApplyPhysicalBoundaries p g s = Some s' -> in_array g k j i ->
  filled g k j i = false -> same_derived (NSCALARS g) s s' k j i.
Proof.
  intros p g s s' k j i (G0 & GS & G1 & G2 & G3) H (Hi & Hj & Hk) F.
  apply apply_steps in H. destruct H as (s1 & s2 & s3 & s4 & s5 & H1 & H2 & H34 & H56).
  assert (T : forall a b c, same_derived (NSCALARS g) a b k j i -> same_derived (NSCALARS g) b c k j i ->
     same_derived (NSCALARS g) a c k j i).
  { intros a b c (X1 & X2 & X3) (Y1 & Y2 & Y3). repeat split; intros n Hn;
    [rewrite Y1, X1|rewrite Y2, X2|rewrite Y3, X3]; auto. }
  assert (RR : forall a, same_derived (NSCALARS g) a a k j i) by (intro; repeat split; reflexivity).
  unfold filled, x2_flags, x3_flags in F.
  destruct (if f2 g then (bcs g inner_x2, bcs g outer_x2) else (Comm, Comm)) as (i2, o2) eqn:E2.
  destruct (if f3 g then (bcs g inner_x3, bcs g outer_x3) else (Comm, Comm)) as (i3, o3) eqn:E3.
  apply orb_false_iff in F. destruct F as (F & A3). apply orb_false_iff in F. destruct F as (A1 & A2).
  apply met_not_applied in A1. destruct A1 as (N1 & N2).
  apply met_not_applied in A2. destruct A2 as (N3 & N4).
  apply met_not_applied in A3. destruct A3 as (N5 & N6).
  assert (Q : forall fc il iu jl ju kl ku x1 x2 y1 y2 z1 z2 a b,
    face_step p g fc il iu jl ju kl ku x1 x2 y1 y2 z1 z2 a = Some b ->
    (applied (bcs g fc) = true -> ~ (x1 <= i <= x2 /\ y1 <= j <= y2 /\ z1 <= k <= z2)) ->
    same_derived (NSCALARS g) a b k j i).
  { intros fc il iu jl ju kl ku x1 x2 y1 y2 z1 z2 a b Hs C.
    destruct (applied (bcs g fc)) eqn:A.
    - apply (step_out _ _ _ _ _ _ _ _ _ _ _ _ _ _ _ _ _ _ _ _ Hs (C eq_refl)).
    - rewrite (step_comm _ _ _ _ _ _ _ _ _ _ _ _ _ _ _ _ _ Hs A). apply RR. }
  apply (T _ s2).
  { apply (T _ s1).
    - apply (Q _ _ _ _ _ _ _ _ _ _ _ _ _ _ _ H1). intros A (X & _). rewrite N1 in A by lia. discriminate A.
    - apply (Q _ _ _ _ _ _ _ _ _ _ _ _ _ _ _ H2). intros A (X & _). rewrite N2 in A by lia. discriminate A. }
  apply (T _ s4).
  { destruct (f2 g); [|destruct H34 as (_ & ->); apply RR]. injection E2 as <- <-.
    destruct H34 as (H3 & H4). apply (T _ s3).
    - apply (Q _ _ _ _ _ _ _ _ _ _ _ _ _ _ _ H3). intros A (_ & X & _). rewrite N3 in A by lia. discriminate A.
    - apply (Q _ _ _ _ _ _ _ _ _ _ _ _ _ _ _ H4). intros A (_ & X & _). rewrite N4 in A by lia. discriminate A. }
  destruct (f3 g); [|destruct H56 as (_ & ->); apply RR]. injection E3 as <- <-.
  destruct G3 as (_ & G3). destruct H56 as (H5 & H6). apply (T _ s5).
  - apply (Q _ _ _ _ _ _ _ _ _ _ _ _ _ _ _ H5). intros A (_ & _ & X). rewrite N5 in A by lia. discriminate A.
  - apply (Q _ _ _ _ _ _ _ _ _ _ _ _ _ _ _ H6). intros A (_ & _ & X). rewrite N6 in A by lia. discriminate A.
Qed.
