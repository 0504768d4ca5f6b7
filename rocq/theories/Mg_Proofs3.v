(** Proofs for C51, C68: the levels are nested; an exact solution is a fixed point of the V-cycle. *)
From Coq Require Import Reals ZArith List Bool Permutation Lra Lia FunctionalExtensionality.
From Verif Require Import Fv_Model Fv_Spec Fv_Proofs2 Mg_Model Mg_Spec Mg_Proofs Mg_Proofs2.
Import ListNotations.
Local Open Scope R_scope.

(** *** Levels *)
Lemma shift_div : forall n nl l, (l < nl)%nat -> (2 ^ Z.of_nat (nl - 1) | n)%Z -> (0 < n)%Z ->
  exists q, (0 < q)%Z /\ Z.shiftr n (Z.of_nat (nl - 1 - l)) = (2 ^ Z.of_nat l * q)%Z.
Proof.
  intros n nl l H [q E] Hn. exists q. rewrite Z.shiftr_div_pow2 by lia. rewrite E.
  replace (Z.of_nat (nl - 1)) with (Z.of_nat l + Z.of_nat (nl - 1 - l))%Z by lia. rewrite Z.pow_add_r by lia.
  assert (0 < 2 ^ Z.of_nat (nl - 1 - l))%Z by (apply Z.pow_pos_nonneg; lia).
  assert (0 < 2 ^ Z.of_nat (nl - 1))%Z by (apply Z.pow_pos_nonneg; lia).
  split; [nia|]. rewrite Z.mul_assoc, Z.div_mul by lia. ring.
Qed.
Definition divisible (top : grid) (nl : nat) : Prop :=
  (2 ^ Z.of_nat (nl - 1) | gx top)%Z /\ (2 ^ Z.of_nat (nl - 1) | gy top)%Z /\ (2 ^ Z.of_nat (nl - 1) | gz top)%Z.
Lemma level_good : forall top nl l, good_grid top -> divisible top nl -> (l < nl)%nat -> good_grid (level top nl l).
Proof.
  intros top nl l [(G1 & G2 & G3) G4] (D1 & D2 & D3) H. unfold level, good_grid; cbn [gx gy gz dx].
  destruct (shift_div _ nl l H D1) as (q1 & Q1 & ->); [lia|]. destruct (shift_div _ nl l H D2) as (q2 & Q2 & ->); [lia|]. destruct (shift_div _ nl l H D3) as (q3 & Q3 & ->); [lia|].
  assert (0 < 2 ^ Z.of_nat l)%Z by (apply Z.pow_pos_nonneg; lia). split; [repeat split; nia|].
  apply Rmult_lt_0_compat; [assumption | apply pow_lt; lra].
Qed.
Lemma level_doubled : forall top nl l, good_grid top -> divisible top nl -> (S l < nl)%nat -> doubled (level top nl l) (level top nl (S l)).
Proof.
  intros top nl l [(G1 & G2 & G3) G4] (D1 & D2 & D3) H. unfold level, doubled; cbn [gx gy gz dx].
  assert (P : forall n, (2 ^ Z.of_nat (nl - 1) | n)%Z -> (0 < n)%Z -> Z.shiftr n (Z.of_nat (nl - 1 - S l)) = (2 * Z.shiftr n (Z.of_nat (nl - 1 - l)))%Z).
  { intros n [q E] Hn. rewrite !Z.shiftr_div_pow2 by lia. rewrite E.
    replace (Z.of_nat (nl - 1)) with (Z.of_nat l + 1 + Z.of_nat (nl - 1 - S l))%Z by lia. replace (Z.of_nat (nl - 1 - l)) with (1 + Z.of_nat (nl - 1 - S l))%Z by lia.
    rewrite !Z.pow_add_r by lia. assert (0 < 2 ^ Z.of_nat (nl - 1 - S l))%Z by (apply Z.pow_pos_nonneg; lia).
    rewrite !Z.mul_assoc, Z.div_mul by lia.
    replace (q * 2 ^ Z.of_nat l * 2 ^ 1 * 2 ^ Z.of_nat (nl - 1 - S l))%Z with (q * 2 ^ Z.of_nat l * (2 ^ 1 * 2 ^ Z.of_nat (nl - 1 - S l)))%Z by ring.
    rewrite Z.div_mul by lia. lia. }
  split; [repeat split; apply P; (assumption || lia)|].
  replace (nl - 1 - l)%nat with (S (nl - 1 - S l)) by lia. cbn [pow]. ring.
Qed.
Lemma level_top : forall top nl, (0 < nl)%nat -> gx (level top nl (nl - 1)) = gx top /\ gy (level top nl (nl - 1)) = gy top /\ gz (level top nl (nl - 1)) = gz top /\ dx (level top nl (nl - 1)) = dx top.
Proof. intros top nl H. unfold level; cbn [gx gy gz dx]. rewrite Nat.sub_diag. cbn [pow Z.of_nat]. rewrite !Z.shiftr_0_r. repeat split. ring. Qed.

(** *** Boundaries once more *)
Lemma bc_outside : forall g b u k j i, good_grid g -> ~ in_array g k j i -> ApplyPhysicalBoundaries g b u k j i = u k j i.
Proof.
  intros g b u k j i [G _] H. unfold in_array in H. unfold ApplyPhysicalBoundaries, set_ox3, set_ix3, set_ox2, set_ix2, set_ox1, set_ix1.
  repeat match goal with
  | |- context [if (Z.eqb ?a ?b && within ?c ?d ?e && within ?f ?g ?h) then _ else _] =>
      let E := fresh in destruct (Z.eqb a b && within c d e && within f g h) eqn:E; [exfalso; rewrite !andb_true_iff, !within_cases, Z.eqb_eq in E; lia | clear E]
  end. reflexivity.
Qed.
Lemma in_array_dec : forall g k j i, {in_array g k j i} + {~ in_array g k j i}.
Proof.
  intros. unfold in_array. destruct (Z_le_dec 0 k), (Z_le_dec k (gz g + 1)), (Z_le_dec 0 j), (Z_le_dec j (gy g + 1)), (Z_le_dec 0 i), (Z_le_dec i (gx g + 1)); (left; lia) || (right; lia).
Qed.
Lemma bc_idempotent : forall g b u, good_grid g -> ApplyPhysicalBoundaries g b (ApplyPhysicalBoundaries g b u) = ApplyPhysicalBoundaries g b u.
Proof.
  intros g b u G. extensionality k; extensionality j; extensionality i. destruct (in_array_dec g k j i) as [H|H].
  - rewrite (bc_shift g b (ApplyPhysicalBoundaries g b u) u 0 G (or_introl eq_refl)); [ring | intros; rewrite bc_cell by assumption; ring | assumption].
  - rewrite bc_outside by assumption. reflexivity.
Qed.
Lemma bc_zero : forall g b k j i, good_grid g -> homogeneous b -> in_array g k j i -> ApplyPhysicalBoundaries g b (fun _ _ _ : Z => 0) k j i = 0.
Proof.
  intros g b k j i G Hh H. unfold homogeneous in Hh.
  assert (Z0 : forall x a c, In x [ix1 b; ox1 b; ix2 b; ox2 b; ix3 b; ox3 b] -> ghost x 0 0 a c = 0).
  { intros x a c Hx. destruct (Hh x Hx) as [->|[->| ->]]; cbn [ghost]; ring. }
  cbn [In] in Z0. unfold ApplyPhysicalBoundaries, set_ox3, set_ix3, set_ox2, set_ix2, set_ox1, set_ix1.
  repeat match goal with |- context [if ?c then ghost ?x 0 0 ?a ?b else 0] => replace (if c then ghost x 0 0 a b else 0) with 0 by (destruct c; [symmetry; apply Z0; tauto | reflexivity]) end.
  reflexivity.
Qed.
Lemma neutral_iff : forall b, neutral b = true <-> all_neutral b.
Proof.
  intros b. unfold neutral, all_neutral. rewrite !andb_true_iff. cbn [In].
  assert (N : forall x, neutral1 x = true <-> x = Periodic \/ x = ZeroGrad) by (intros []; cbn; split; try tauto; try (intros [X|X]; discriminate X); intro X; discriminate X).
  rewrite !N. split.
  - intros H x Hx. destruct Hx as [<-|[<-|[<-|[<-|[<-|[<-|[]]]]]]]; tauto.
  - intros H. repeat split; apply H; tauto.
Qed.
Lemma neutral_homogeneous : forall b, neutral b = true -> homogeneous b.
Proof. intros b H x Hx. apply neutral_iff in H. destruct (H x Hx); tauto. Qed.
Lemma laplacian_const : forall g u a k j i, cell g k j i -> (forall k j i, in_array g k j i -> u k j i = a) -> laplacian g u k j i = 0.
Proof.
  intros g u a k j i Hc H. rewrite (laplacian_shift g u (fun _ _ _ : Z => 0) a k j i Hc) by (intros; rewrite H by assumption; ring).
  unfold laplacian. unfold Rdiv; ring.
Qed.

(** *** The V-cycle *)
Section Vcycle.
Variable d : driver.
Variable u0 src0 : arr.
Hypothesis good : good_driver d.
Hypothesis fsub_neutral : fsub d = true -> forall l, (l <= fmg d)%nat -> neutral (bcs d l) = true.
Hypothesis nofas : fas d = false -> forall l, (l < fmg d)%nat -> homogeneous (bcs d l).

Let div_top : divisible (top d) (ntotal d).
Proof. unfold divisible. destruct good as (_ & _ & _ & H). exact H. Qed.
Lemma lg_good : forall l, (l <= fmg d)%nat -> good_grid (lg d l).
Proof using good div_top. intros l H. destruct good as (_ & H1 & H2 & _). apply level_good; [assumption | assumption | lia]. Qed.
Lemma lg_doubled : forall l, (S l <= fmg d)%nat -> doubled (lg d l) (lg d (S l)).
Proof using good div_top. intros l H. destruct good as (_ & H1 & H2 & _). apply level_doubled; [assumption | assumption | lia]. Qed.

Definition allowed (a : R) : Prop := a = 0 \/ fsub d = true.
Lemma allowed_shift : forall a l, (l <= fmg d)%nat -> allowed a -> shiftable (bcs d l) a.
Proof using fsub_neutral. intros a l Hl [->|H]; [left; reflexivity | right; apply fsub_neutral; assumption]. Qed.
Lemma allowed_plus : forall a b, allowed a -> allowed b -> allowed (a + b).
Proof. intros a b [->|H] [->|H']; [left; ring | right; assumption | right; assumption | right; assumption]. Qed.

Definition shift_cells (l : nat) (u w : arr) (a : R) : Prop := forall k j i, cell (lg d l) k j i -> u k j i = w k j i + a.
Lemma poisson_shift : forall l u w a src, (l <= fmg d)%nat -> allowed a -> shift_cells l u w a -> poisson (lg d l) src (bnd d l w) -> poisson (lg d l) src (bnd d l u).
Proof using good div_top fsub_neutral.
  intros l u w a src Hl A E P k j i Hc. rewrite <- (P k j i Hc). unfold bnd. apply (laplacian_shift (lg d l) _ _ a); [assumption|].
  apply bc_shift; [apply lg_good; assumption | apply allowed_shift; assumption | assumption].
Qed.
Lemma bnd_bnd : forall l u, (l <= fmg d)%nat -> bnd d l (bnd d l u) = bnd d l u.
Proof using good div_top. intros; unfold bnd; apply bc_idempotent; apply lg_good; assumption. Qed.
Lemma bnd_cell : forall l u k j i, cell (lg d l) k j i -> bnd d l u k j i = u k j i.
Proof. intros; unfold bnd; apply bc_cell; assumption. Qed.
Lemma smooth_id : forall l c src u, (l <= fmg d)%nat -> poisson (lg d l) src u -> smooth d l c src u = u.
Proof using good div_top. intros; unfold smooth; apply smooth_fixed; [apply lg_good; assumption | assumption]. Qed.
Lemma presmooth_id : forall l src u, (l <= fmg d)%nat -> poisson (lg d l) src (bnd d l u) -> presmooth d l src (bnd d l u) = bnd d l u.
Proof using good div_top.
  intros l src u Hl P. unfold presmooth. cbv zeta. rewrite (smooth_id l _ src (bnd d l u) Hl P), (bnd_bnd l u Hl).
  rewrite (smooth_id l _ src (bnd d l u) Hl P), (bnd_bnd l u Hl). destruct (redblack d); reflexivity.
Qed.
Lemma times_id : forall A n (f : A -> A) x, f x = x -> times n f x = x.
Proof. intros A n f x H; induction n as [|n IH]; [reflexivity | cbn [times]; rewrite H; assumption]. Qed.
Lemma postsmooth_cells : forall n l src u, (l <= fmg d)%nat -> poisson (lg d l) src (bnd d l u) -> shift_cells l (times n (postsmooth d l src) u) u 0.
Proof using good div_top.
  intros n l src u Hl P.
  assert (Q : forall v, bnd d l v = bnd d l u -> postsmooth d l src v = bnd d l u).
  { intros v Hv. unfold postsmooth. cbv zeta. rewrite Hv, (smooth_id l _ src (bnd d l u) Hl P), (bnd_bnd l u Hl), (smooth_id l _ src (bnd d l u) Hl P). destruct (redblack d); reflexivity. }
  intros k j i Hc. destruct n as [|n]; [cbn [times]; ring|]. cbn [times]. rewrite (Q u eq_refl). rewrite times_id by (apply Q; apply bnd_bnd; assumption).
  rewrite bnd_cell by assumption. ring.
Qed.

(** What holds of level [l] when the cycle is on its way up. *)
Definition ok (l : nat) (s : lstate) : Prop :=
  exists w a, allowed a /\ shift_cells l (u_ s) w a /\ poisson (lg d l) (src_ s) (bnd d l w) /\
    ((l < fmg d)%nat -> fas d = true -> forall k j i, in_array (lg d l) k j i -> uold_ s k j i = bnd d l w k j i) /\
    ((l < fmg d)%nat -> fas d = false -> forall k j i, cell (lg d l) k j i -> w k j i = 0) /\
    (l = fmg d -> shift_cells l w u0 0 /\ src_ s = src0).
(** And on its way down, before the step to level [l - 1]. *)
Definition entry (l : nat) (s : lstate) : Prop :=
  ((l < fmg d)%nat -> (forall k j i, cell (lg d l) k j i -> src_ s k j i = 0) /\ (fas d = false -> exists a, allowed a /\ forall k j i, cell (lg d l) k j i -> u_ s k j i = a)) /\
  (l = fmg d -> poisson (lg d l) (src_ s) (bnd d l (u_ s)) /\ shift_cells l (u_ s) u0 0 /\ src_ s = src0).

Lemma ok_shift : forall l s a u', ok l s -> allowed a -> shift_cells l u' (u_ s) a -> ok l (mkL u' (src_ s) (uold_ s)).
Proof.
  intros l s a u' (w & b & A & E & P & O1 & O2 & O3) Ha H. exists w, (b + a). cbn [u_ src_ uold_]. split; [apply allowed_plus; assumption|]. split.
  - intros k j i Hc. rewrite (H k j i Hc), (E k j i Hc). ring.
  - repeat split; try assumption; apply O3; assumption.
Qed.
Lemma bnd_const : forall l w a k j i, (l <= fmg d)%nat -> allowed a -> homogeneous (bcs d l) -> (forall k j i, cell (lg d l) k j i -> w k j i = a) -> in_array (lg d l) k j i -> bnd d l w k j i = a.
Proof using good div_top fsub_neutral.
  intros l w a k j i Hl A Hh H Hb. unfold bnd. pose proof (lg_good l Hl) as G.
  rewrite (bc_shift (lg d l) (bcs d l) w (fun _ _ _ : Z => 0) a G); [rewrite bc_zero by assumption; ring | apply allowed_shift; assumption | intros; rewrite H by assumption; ring | assumption].
Qed.
(** The step down. *)
Lemma coarser_ok : forall l h, (S l <= fmg d)%nat -> entry (S l) (h (S l)) ->
  ok (S l) (OneStepToCoarser d l h (S l)) /\ entry l (OneStepToCoarser d l h l) /\ forall m, m <> l -> m <> S l -> OneStepToCoarser d l h m = h m.
Proof using good div_top fsub_neutral nofas.
  intros l h Hl [E1 E2]. unfold OneStepToCoarser. cbv zeta.
  set (s := h (S l)) in *. set (u1 := bnd d (S l) (u_ s)).
  set (s1 := if fas d && Nat.ltb (S l) (fmg d) then mkL u1 (CalculateFASRHS (lg d (S l)) u1 (src_ s)) u1 else mkL u1 (src_ s) (uold_ s)).
  pose proof (lg_good (S l) Hl) as G.
  assert (P : poisson (lg d (S l)) (src_ s1) u1).
  { destruct (Nat.ltb_spec (S l) (fmg d)) as [H|H].
    - destruct (E1 H) as [Z1 Z2]. unfold s1. destruct (fas d) eqn:F; cbn [andb src_].
      + intros k j i Hc. rewrite fasrhs_eq by assumption. rewrite Z1 by assumption. ring.
      + intros k j i Hc. rewrite Z1 by assumption. destruct (Z2 ltac:(first [assumption | reflexivity])) as (a & A & Ha). apply (laplacian_const _ _ a); [assumption|]. intros. unfold u1. apply bnd_const; try assumption. apply nofas; [first [assumption | reflexivity] | assumption].
    - assert (Hf : S l = fmg d) by lia. destruct (E2 Hf) as (Q & _). unfold s1. destruct (fas d); cbn [andb src_]; exact Q. }
  assert (Tm : times (npre d) (presmooth d (S l) (src_ s1)) u1 = u1) by (apply times_id; unfold u1; apply presmooth_id; assumption).
  rewrite Tm. unfold RestrictBlock. cbv zeta.
  assert (N1 : Nat.eqb (S l) (S l) = true) by apply Nat.eqb_refl. assert (N2 : Nat.eqb l (S l) = false) by (apply Nat.eqb_neq; lia). assert (N3 : Nat.eqb (S l) l = false) by (apply Nat.eqb_neq; lia). assert (N4 : Nat.eqb l l = true) by apply Nat.eqb_refl.
  unfold set_level. rewrite !N1, !N2, !N3, !N4. cbn [u_ src_ uold_]. split; [|split].
  - destruct (Nat.ltb_spec (S l) (fmg d)) as [H|H].
    + destruct (E1 H) as [Z1 Z2]. destruct (fas d) eqn:F.
      * exists (u_ s), 0. cbn [u_ src_ uold_]. split; [left; reflexivity|]. split; [intros k j i Hc; unfold u1; rewrite bnd_cell by assumption; ring|]. split; [exact P|].
        split; [intros _ _ k j i Hb; reflexivity|]. split; [intros _ X; congruence | intros X; lia].
      * destruct (Z2 ltac:(first [assumption | reflexivity])) as (a & A & Ha). exists (fun _ _ _ => 0), a. cbn [u_ src_ uold_]. split; [assumption|]. split; [intros k j i Hc; unfold u1; rewrite bnd_cell by assumption; rewrite Ha by assumption; ring|].
        assert (Hh : homogeneous (bcs d (S l))) by (apply nofas; [first [assumption | reflexivity] | assumption]).
        split; [intros k j i Hc; cbn [andb] in s1; unfold s1; cbn [src_]; rewrite Z1 by assumption; apply (laplacian_const _ _ 0); [assumption|]; intros; apply bnd_const; first [assumption | left; reflexivity | intros; reflexivity]|].
        split; [intros _ X; congruence|]. split; [intros; reflexivity | intros X; lia].
    + assert (Hf : S l = fmg d) by lia. destruct (E2 Hf) as (Q & S1 & S2). exists (u_ s), 0. cbn [u_ src_ uold_]. split; [left; reflexivity|].
      split; [intros k j i Hc; unfold u1; rewrite bnd_cell by assumption; ring|]. split; [exact P|]. split; [intros X; lia|]. split; [intros X; lia|].
      intros _. split; [exact S1|]. unfold s1. destruct (fas d); cbn [andb src_]; exact S2.
  - split; [|intros; lia]. intros _. cbn [u_ src_]. split.
    + apply (restrict_zero (lg d l) (lg d (S l))); [apply lg_doubled; assumption|]. intros k j i Hc. rewrite defect_eq by assumption. rewrite (P k j i Hc). ring.
    + intros F. rewrite F. exists 0. split; [left; reflexivity | intros; reflexivity].
  - intros m M1 M2. apply Nat.eqb_neq in M1, M2. rewrite M1, M2. reflexivity.
Qed.
Lemma down_ok : forall m h, (m <= fmg d)%nat -> entry m (h m) ->
  entry 0 (down d m h 0%nat) /\ (forall l, (1 <= l <= m)%nat -> ok l (down d m h l)) /\ forall l, (m < l)%nat -> down d m h l = h l.
Proof using good div_top fsub_neutral nofas.
  induction m as [|m IH]; intros h Hm E; [cbn [down]; split; [exact E | split; [intros; lia | reflexivity]]|]. cbn [down].
  destruct (coarser_ok m h Hm E) as (C1 & C2 & C3). destruct (IH (OneStepToCoarser d m h)) as (I1 & I2 & I3); [lia | assumption|].
  split; [assumption|]. split.
  - intros l Hl. destruct (Nat.eq_dec l (S m)) as [->|N]; [rewrite I3 by lia; assumption | apply I2; lia].
  - intros l Hl. rewrite I3 by lia. apply C3; lia.
Qed.
(** The coarsest level. *)
Lemma subtract_other : forall h l, exists a, u_ (subtract_root d h l) = (if Nat.eqb l (nroot d - 1) then SubtractAverage (lg d (nroot d - 1)) a (u_ (h l)) else u_ (h l)) /\ src_ (subtract_root d h l) = src_ (h l) /\ uold_ (subtract_root d h l) = uold_ (h l).
Proof.
  intros h l. unfold subtract_root. cbv zeta. set (a := _ / _). exists a. unfold set_level. destruct (Nat.eqb_spec l (nroot d - 1)) as [->|N]; repeat split; reflexivity.
Qed.
Lemma boxed_cell : forall g k j i, cell g k j i -> boxed g k j i = true.
Proof. intros g k j i H. apply boxed_iff. unfold cell in H. unfold in_array. lia. Qed.
Lemma subtract_cells : forall h l, fsub d = true -> exists a, allowed a /\ shift_cells l (u_ (subtract_root d h l)) (u_ (h l)) a /\ src_ (subtract_root d h l) = src_ (h l) /\ uold_ (subtract_root d h l) = uold_ (h l).
Proof.
  intros h l F. destruct (subtract_other h l) as (a & E1 & E2 & E3). destruct (Nat.eqb_spec l (nroot d - 1)) as [N|N].
  - exists (- a). split; [right; assumption|]. split; [|split; assumption]. intros k j i Hc. rewrite E1. unfold SubtractAverage. rewrite boxed_cell by (rewrite <- N; assumption). ring.
  - exists 0. split; [left; reflexivity|]. split; [|split; assumption]. intros k j i Hc. rewrite E1. ring.
Qed.
Lemma lstate_eta : forall s, mkL (u_ s) (src_ s) (uold_ s) = s. Proof. intros []; reflexivity. Qed.
Lemma subtract_ok : forall h l, fsub d = true -> ok l (h l) -> ok l (subtract_root d h l).
Proof.
  intros h l F O. destruct (subtract_cells h l F) as (a & A & E1 & E2 & E3). rewrite <- (lstate_eta (subtract_root d h l)), E2, E3. eapply ok_shift; eassumption.
Qed.
Lemma subtract_entry : forall h, fsub d = true -> (0 < fmg d)%nat -> entry 0 (h 0%nat) -> entry 0 (subtract_root d h 0%nat).
Proof.
  intros h F H0 [E _]. destruct (subtract_cells h 0 F) as (a & A & E1 & E2 & E3). destruct (E H0) as [Z1 Z2]. split; [|intros; lia]. intros _. rewrite E2. split; [assumption|].
  intros Fa. destruct (Z2 Fa) as (b & B & Hb). exists (b + a). split; [apply allowed_plus; assumption|]. intros k j i Hc. rewrite (E1 k j i Hc), Hb by assumption. reflexivity.
Qed.
Definition solve0 (h1 : hier) : lstate :=
  let s := h1 0%nat in let u1 := bnd d 0 (u_ s) in
  let s1 := if fas d then mkL u1 (CalculateFASRHS (lg d 0) u1 (src_ s)) u1 else mkL u1 (src_ s) (uold_ s) in
  mkL (times (Z.to_nat (iterations d)) (presmooth d 0 (src_ s1)) u1) (src_ s1) (uold_ s1).
Lemma solve0_ok : forall h, (0 < fmg d)%nat -> entry 0 (h 0%nat) -> ok 0 (solve0 h).
Proof using good div_top fsub_neutral nofas.
  intros h H0 [E _]. destruct (E H0) as [Z1 Z2]. unfold solve0. cbv zeta. set (s := h 0%nat) in *. pose proof (lg_good 0 ltac:(lia)) as G.
  set (u1 := bnd d 0 (u_ s)). destruct (fas d) eqn:F; cbn [src_ uold_].
  - assert (P : poisson (lg d 0) (CalculateFASRHS (lg d 0) u1 (src_ s)) u1) by (intros k j i Hc; rewrite fasrhs_eq, Z1 by assumption; ring).
    rewrite times_id by (unfold u1; apply presmooth_id; [lia | exact P]).
    exists (u_ s), 0. cbn [u_ src_ uold_]. split; [left; reflexivity|]. split; [intros k j i Hc; unfold u1; rewrite bnd_cell by assumption; ring|]. split; [exact P|].
    split; [intros; reflexivity|]. split; [intros _ X; congruence | intros X; lia].
  - destruct (Z2 ltac:(first [assumption | reflexivity])) as (a & A & Ha). assert (Hh : homogeneous (bcs d 0)) by (apply nofas; [first [assumption | reflexivity] | assumption]).
    assert (P : poisson (lg d 0) (src_ s) u1) by (intros k j i Hc; rewrite Z1 by assumption; apply (laplacian_const _ _ a); [assumption|]; intros; unfold u1; apply bnd_const; try assumption; lia).
    rewrite times_id by (unfold u1; apply presmooth_id; [lia | exact P]).
    exists (fun _ _ _ => 0), a. cbn [u_ src_ uold_]. split; [assumption|]. split; [intros k j i Hc; unfold u1; rewrite bnd_cell by assumption; rewrite Ha by assumption; ring|].
    split; [intros k j i Hc; rewrite Z1 by assumption; apply (laplacian_const _ _ 0); [assumption|]; intros; apply bnd_const; first [assumption | lia | left; reflexivity | intros; reflexivity]|].
    split; [intros _ X; congruence|]. split; [intros; reflexivity | intros X; lia].
Qed.
Lemma coarsest_ok : forall h, (0 < fmg d)%nat -> entry 0 (h 0%nat) -> (forall l, (1 <= l <= fmg d)%nat -> ok l (h l)) -> forall l, (l <= fmg d)%nat -> ok l (SolveCoarsestGrid d h l).
Proof using good div_top fsub_neutral nofas.
  intros h H0 E O l Hl. unfold SolveCoarsestGrid. destruct (fsub d && Z.eqb (iterations d) 1) eqn:I.
  - apply andb_true_iff in I. destruct I as [F I]. apply Z.eqb_eq in I. cbv zeta. unfold set_level. destruct (Nat.eqb_spec l 0) as [->|N]; [|apply O; lia].
    destruct E as [E _]. destruct (E H0) as [Z1 Z2]. pose proof (lg_good 0 ltac:(lia)) as G. destruct G as [(G1 & G2 & G3) G4]. unfold iterations in I.
    assert (C1 : gx (lg d 0) = 1%Z /\ gy (lg d 0) = 1%Z /\ gz (lg d 0) = 1%Z) by lia. destruct C1 as (C1 & C2 & C3).
    assert (Hn : neutral (bcs d 0) = true) by (apply fsub_neutral; [assumption | lia]). assert (Hh := neutral_homogeneous _ Hn).
    assert (U : forall k j i, cell (lg d 0) k j i -> u_ (h 0%nat) k j i = u_ (h 0%nat) 1%Z 1%Z 1%Z) by (unfold cell; rewrite C1, C2, C3; intros k j i Hc; replace k with 1%Z by lia; replace j with 1%Z by lia; replace i with 1%Z by lia; reflexivity).
    set (c := u_ (h 0%nat) 1%Z 1%Z 1%Z) in *. assert (Al : forall a, allowed a) by (intros; right; assumption).
    destruct (fas d) eqn:Fa; cbn [src_ uold_].
    + exists (u_ (h 0%nat)), (- c). cbn [u_ src_ uold_]. split; [apply Al|]. split; [intros k j i Hc; rewrite U by assumption; ring|].
      split; [intros k j i Hc; rewrite Z1 by assumption; apply (laplacian_const _ _ c); [assumption|]; intros; apply bnd_const; first [assumption | lia | apply Al]|].
      split; [intros; reflexivity|]. split; [intros _ X; congruence | intros X; lia].
    + exists (fun _ _ _ => 0), 0. cbn [u_ src_ uold_]. split; [apply Al|]. split; [intros k j i Hc; ring|].
      split; [intros k j i Hc; rewrite Z1 by assumption; apply (laplacian_const _ _ 0); [assumption|]; intros; apply bnd_const; first [assumption | lia | apply Al | intros; reflexivity]|].
      split; [intros _ X; congruence|]. split; [intros; reflexivity | intros X; lia].
  - cbv zeta. set (h1 := if fsub d then subtract_root d h else h).
    assert (E1 : entry 0 (h1 0%nat)) by (unfold h1; destruct (fsub d) eqn:F; [apply subtract_entry; assumption | assumption]).
    assert (O1 : forall m, (1 <= m <= fmg d)%nat -> ok m (h1 m)) by (intros m Hm; unfold h1; destruct (fsub d) eqn:F; [apply subtract_ok; [assumption | apply O; assumption] | apply O; assumption]).
    change (ok l ((if fsub d then subtract_root d (set_level h1 0 (solve0 h1)) else set_level h1 0 (solve0 h1)) l)).
    assert (O2 : ok l (set_level h1 0 (solve0 h1) l)) by (unfold set_level; destruct (Nat.eqb_spec l 0) as [->|N]; [apply solve0_ok; assumption | apply O1; lia]).
    destruct (fsub d) eqn:F; [apply subtract_ok; assumption | assumption].
Qed.
(** The step up. *)
Lemma finer_ok : forall l h, (S l <= fmg d)%nat -> ok l (h l) -> ok (S l) (h (S l)) ->
  ok (S l) (OneStepToFiner d l h (S l)) /\ forall m, (S l < m)%nat -> OneStepToFiner d l h m = h m.
Proof using good div_top fsub_neutral nofas.
  intros l h Hl (w & a & A & E & P & U1 & U2 & _) O. unfold OneStepToFiner. cbv zeta.
  unfold ProlongateAndCorrectBlock. cbv zeta.
  assert (N1 : Nat.eqb (S l) (S l) = true) by apply Nat.eqb_refl. assert (N2 : Nat.eqb l (S l) = false) by (apply Nat.eqb_neq; lia). assert (N3 : Nat.eqb (S l) l = false) by (apply Nat.eqb_neq; lia). assert (N4 : Nat.eqb l l = true) by apply Nat.eqb_refl.
  unfold set_level. rewrite ?N1, ?N2, ?N3, ?N4. cbn [u_ src_ uold_]. rewrite ?N1, ?N2, ?N3, ?N4. cbn [u_ src_ uold_]. split.
  - set (corr := if fas d then fun k j i => bnd d l (u_ (h l)) k j i - uold_ (h l) k j i else bnd d l (u_ (h l))).
    assert (B : forall k j i, in_array (lg d l) k j i -> bnd d l (u_ (h l)) k j i = bnd d l w k j i + a).
    { intros. unfold bnd. apply bc_shift; [apply lg_good; lia | apply allowed_shift; [lia | assumption] | assumption | assumption]. }
    assert (C : forall k j i, in_array (lg d l) k j i -> corr k j i = a).
    { intros k j i Hb. unfold corr. destruct (fas d) eqn:F.
      - rewrite B, U1 by (assumption || reflexivity || lia). ring.
      - rewrite B by assumption. rewrite (bnd_const l w 0) by first [assumption | lia | left; reflexivity | apply nofas; [first [assumption | reflexivity] | lia] | apply U2; [lia | reflexivity]]. ring. }
    pose proof (lg_doubled l Hl) as D.
    set (u1 := ProlongateAndCorrect (cubic d) (lg d l) corr (u_ (h (S l)))).
    assert (V : shift_cells (S l) u1 (u_ (h (S l))) a).
    { intros k j i Hc. unfold u1, ProlongateAndCorrect. rewrite (parent_true _ _ _ _ _ D Hc). rewrite (prolonged_const _ _ _ _ _ _ _ a D Hc C). reflexivity. }
    pose proof (ok_shift (S l) (h (S l)) a u1 O A V) as O1. destruct O1 as (w' & a' & A' & E' & P' & U1' & U2' & U3'). cbn [u_ src_ uold_] in *.
    assert (P1 : poisson (lg d (S l)) (src_ (h (S l))) (bnd d (S l) u1)) by (apply (poisson_shift (S l) u1 w' a'); assumption).
    pose proof (postsmooth_cells (npost d) (S l) (src_ (h (S l))) u1 Hl P1) as T.
    set (u2 := times (npost d) (postsmooth d (S l) (src_ (h (S l)))) u1) in *.
    exists w', a'. cbn [u_ src_ uold_]. split; [assumption|]. split.
    + intros k j i Hc. rewrite <- (E' k j i Hc). destruct (Nat.eqb (S (S l)) (ntotal d)); [rewrite bnd_cell by assumption|]; rewrite (T k j i Hc); ring.
    + repeat split; try assumption; apply U3'; assumption.
  - intros m Hm. destruct (Nat.eqb_spec m (S l)) as [X|X]; [lia|]. destruct (Nat.eqb_spec m l) as [X'|X']; [lia|]. reflexivity.
Qed.
Lemma up_ok : forall m h, (m <= fmg d)%nat -> (forall l, (l <= fmg d)%nat -> ok l (h l)) -> ok m (up d m h m) /\ forall l, (m < l)%nat -> up d m h l = h l.
Proof using good div_top fsub_neutral nofas.
  induction m as [|m IH]; intros h Hm O; [cbn [up]; split; [apply O; lia | reflexivity]|]. cbn [up].
  destruct (IH h) as (I1 & I2); [lia | assumption|]. destruct (finer_ok m (up d m h) Hm I1) as (F1 & F2); [rewrite I2 by lia; apply O; assumption|].
  split; [assumption|]. intros l Hl. rewrite F2 by lia. apply I2; lia.
Qed.
End Vcycle.

Lemma vcycle_fixed : forall d h, good_driver d -> (0 < fmg d)%nat -> (fsub d = true -> forall l, (l <= fmg d)%nat -> neutral (bcs d l) = true) ->
  (fas d = false -> forall l, (l < fmg d)%nat -> homogeneous (bcs d l)) ->
  solution (lg d (fmg d)) (bcs d (fmg d)) (src_ (h (fmg d))) (u_ (h (fmg d))) ->
  src_ (SolveVCycle d h (fmg d)) = src_ (h (fmg d)) /\
  exists a, (a = 0 \/ fsub d = true) /\ forall k j i, cell (lg d (fmg d)) k j i -> u_ (SolveVCycle d h (fmg d)) k j i = u_ (h (fmg d)) k j i + a.
Proof.
  intros d h G H0 Hn Hf Sol. set (u0 := u_ (h (fmg d))) in *. set (src0 := src_ (h (fmg d))) in *.
  apply solution_bc in Sol; [|apply lg_good; [assumption | lia]].
  assert (E : entry d u0 src0 (fmg d) (h (fmg d))).
  { split; [intros; lia|]. intros _. split; [exact Sol|]. split; [intros k j i _; unfold u0; ring | reflexivity]. }
  destruct (down_ok d u0 src0 G Hn Hf (fmg d) h (le_n _) E) as (D1 & D2 & _).
  pose proof (coarsest_ok d u0 src0 G Hn Hf _ H0 D1 D2) as O.
  destruct (up_ok d u0 src0 G Hn Hf (fmg d) _ (le_n _) O) as ((w & a & A & E1 & _ & _ & _ & E2) & _).
  destruct (E2 eq_refl) as [E3 E4]. unfold SolveVCycle. split; [exact E4|]. exists a. split; [exact A|].
  intros k j i Hc. rewrite (E1 k j i Hc), (E3 k j i Hc). ring.
Qed.
