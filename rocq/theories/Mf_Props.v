(** C91: Doppler shift of radiation in frequency groups. *)
From Coq Require Import Reals Lra Bool List Arith Lia Psatz.
From Verif Require Import Time_Model Mf_Model Mf_Spec Mf_Proofs Mf_Proofs2 Mf_Proofs3.
Local Open Scope R_scope.

Lemma forward_grids n nu t upward : grid n nu -> 0 < t -> upward = negb (ltR t 1) ->
  (upward = true -> forall i, (i < n)%nat -> nu i <= nu i * t) /\ (upward = false -> forall i, (i < n)%nat -> nu i * t <= nu i).
Proof.
  intros G Ht ->. split; intros U i Hi; pose proof (grid_nonneg n nu i G Hi).
  - apply negb_true_iff in U. apply ltR_false in U. nra.
  - apply negb_false_iff in U. apply ltR_true in U. nra.
Qed.
Lemma backward_grids n nu t : grid n nu -> 0 < t ->
  (ltR t 1 = true -> forall i, (i < n)%nat -> nu i * t <= nu i) /\ (ltR t 1 = false -> forall i, (i < n)%nat -> nu i <= nu i * t).
Proof.
  intros G Ht. split; intros U i Hi; pose proof (grid_nonneg n nu i G Hi).
  - apply ltR_true in U. nra.
  - apply ltR_false in U. nra.
Qed.

(** Radiation is conserved: the sum over the groups does not change, in either direction, for every shift. *)
Theorem C91_conserved : forall planck effective n nmax t nu ir out,
  grid n nu -> 0 < t ->
  MapLabToCmFrequency planck effective n nmax t nu ir = Ok out \/ MapCmToLabFrequency planck effective n nmax t nu ir = Ok out ->
  sumn n out = sumn n ir.
Proof.
  intros planck effective n nmax t nu ir out G Ht [H | H].
  - unfold MapLabToCmFrequency, ForwardSplitting in H. destruct (splitting _ _ _ _ _ _ _ _ _) as [rows | | ] eqn:S in H; try discriminate. injection H as <-.
    destruct (forward_grids n nu t _ G Ht eq_refl) as [U D]. eapply map_total; [exact G | apply grid_scaled; [exact Ht | exact G] | exact U | exact D | exact S].
  - unfold MapCmToLabFrequency, BackwardSplitting in H. destruct (splitting _ _ _ _ _ _ _ _ _) as [rows | | ] eqn:S in H; try discriminate. injection H as <-.
    destruct (backward_grids n nu t G Ht) as [U D]. eapply map_total; [apply grid_scaled; [exact Ht | exact G] | exact G | exact U | exact D | exact S].
Qed.
Print Assumptions C91_conserved.

(** No negative intensity appears, if the fit of the integrated Planck function increases up to 1. *)
Theorem C91_nonneg : forall planck effective n nmax t nu ir out,
  grid n nu -> 0 < t ->
  (forall x y, 0 <= x <= y -> planck x <= planck y <= 1) -> (forall x y, 0 <= x -> 0 < y -> 0 <= effective x y) ->
  (forall i, (i < n)%nat -> 0 <= ir i) ->
  MapLabToCmFrequency planck effective n nmax t nu ir = Ok out \/ MapCmToLabFrequency planck effective n nmax t nu ir = Ok out ->
  forall m, (m < n)%nat -> 0 <= out m.
Proof.
  intros planck effective n nmax t nu ir out G Ht Hp He Hi [H | H] m Hm.
  - unfold MapLabToCmFrequency, ForwardSplitting in H. destruct (splitting _ _ _ _ _ _ _ _ _) as [rows | | ] eqn:S in H; try discriminate. injection H as <-.
    destruct (forward_grids n nu t _ G Ht eq_refl) as [U D].
    eapply map_nonneg; [exact G | apply grid_scaled; [exact Ht | exact G] | exact U | exact D | exact S | exact Hp | exact He | intros; apply face_nonneg | apply Hi; lia | exact Hm | exact Hi].
  - unfold MapCmToLabFrequency, BackwardSplitting in H. destruct (splitting _ _ _ _ _ _ _ _ _) as [rows | | ] eqn:S in H; try discriminate. injection H as <-.
    destruct (backward_grids n nu t G Ht) as [U D].
    eapply map_nonneg; [apply grid_scaled; [exact Ht | exact G] | exact G | exact U | exact D | exact S | exact Hp | exact He | intros; apply face_nonneg | apply Hi; lia | exact Hm | exact Hi].
Qed.
Print Assumptions C91_nonneg.

(** Each group below the last gives every group the part of its linear spectrum at the frequencies of that group; a group whose spectrum vanishes at both edges counts as flat.
    coef is the fraction of group i that arrives in group m. *)
Theorem C91_shares : forall planck effective n nmax t nu ir face rows i m,
  grid n nu -> 0 < t -> ForwardSplitting planck effective n nmax t nu ir face = Ok rows -> (S i < n)%nat -> (m < n)%nat ->
  let flat := if Rlt_dec (face i + face (S i)) (/ 10 ^ 20) then true else false in
  coef (rows i) m = share (nu i * t) (nu (S i) * t) (if flat then 1 else face i) (if flat then 1 else face (S i))
                          (nu m) (if Nat.eqb (S m) n then Rmax (nu (S i) * t) (nu m) else nu (S m)).
Proof.
  intros planck effective n nmax t nu ir face rows i m G Ht H Hi Hm flat. unfold ForwardSplitting in H. destruct (forward_grids n nu t _ G Ht eq_refl) as [U D].
  pose proof (body_share planck effective n nmax _ nu _ ir face G (grid_scaled n nu t Ht G) U D rows H i m ltac:(lia) Hm) as X. rewrite X. unfold upper, eff, flat, ltR. fold TINY_NUMBER.
  destruct (Rlt_dec (face i + face (S i)) TINY_NUMBER); reflexivity.
Qed.
Print Assumptions C91_shares.
Theorem C91_shares_back : forall planck effective n nmax t nu ir face rows i m,
  grid n nu -> 0 < t -> BackwardSplitting planck effective n nmax t nu ir face = Ok rows -> (S i < n)%nat -> (m < n)%nat ->
  let flat := if Rlt_dec (face i + face (S i)) (/ 10 ^ 20) then true else false in
  coef (rows i) m = share (nu i) (nu (S i)) (if flat then 1 else face i) (if flat then 1 else face (S i))
                          (nu m * t) (if Nat.eqb (S m) n then Rmax (nu (S i)) (nu m * t) else nu (S m) * t).
Proof.
  intros planck effective n nmax t nu ir face rows i m G Ht H Hi Hm flat. unfold BackwardSplitting in H. destruct (backward_grids n nu t G Ht) as [U D].
  pose proof (body_share planck effective n nmax _ (fun i => nu i * t) _ ir face (grid_scaled n nu t Ht G) G U D rows H i m ltac:(lia) Hm) as X. rewrite X. unfold upper, eff, flat, ltR. fold TINY_NUMBER.
  destruct (Rlt_dec (face i + face (S i)) TINY_NUMBER); reflexivity.
Qed.
Print Assumptions C91_shares_back.

(** The spectrum at the edges is nowhere negative; its mean in a group is the intensity of the group, or more where the edge had to be set to zero. *)
Theorem C91_faces : forall ir d i, 0 < d i ->
  0 <= ir_face ir d i /\ ir i <= (ir_face ir d i + ir_face ir d (S i)) / 2 * d i /\
  (ir_face ir d i <= 2 * ir i / d i -> (ir_face ir d i + ir_face ir d (S i)) / 2 * d i = ir i).
Proof. intros ir d i H. destruct (face_mean ir d i H). repeat split; try assumption. apply face_nonneg. Qed.
Print Assumptions C91_faces.

(** In gas at rest nothing is moved. *)
Theorem C91_still : forall planck effective n nmax nu ir, (2 <= n)%nat -> (1 <= nmax)%nat -> grid n nu ->
  exists out, MapLabToCmFrequency planck effective n nmax 1 nu ir = Ok out /\ forall m, (m < n)%nat -> out m = ir m.
Proof.
  intros planck effective n nmax nu ir N2 Nm G. unfold MapLabToCmFrequency, ForwardSplitting.
  replace (negb (ltR 1 1)) with true by (replace (ltR 1 1) with false by (symmetry; apply ltR_false; lra); reflexivity).
  destruct (splitting_still planck effective n nmax nu (fun i => nu i * 1) ir (ir_face ir (fun i => delta_nu nu i * 1)) N2 Nm G ltac:(intros; cbv beta; lra)) as (rows & E & C).
  rewrite E. cbn [map_outcome]. eexists. split; [reflexivity | ]. intros m Hm. rewrite map_coef. rewrite (sumn_ext n _ (fun i => ir i * (if Nat.eqb i m then 1 else 0))).
  - apply sum_pick. exact Hm.
  - intros i Hi. rewrite C by assumption. reflexivity.
Qed.
Print Assumptions C91_still.

(** No shift, from the frame of the gas: the rows of the downward search. *)
Lemma down_here nu x b : nu b <= x -> down nu x b = b.
Proof. intros H. destruct b; [reflexivity | ]. cbn [down]. replace (ltR x (nu (S b))) with false by (symmetry; apply ltR_false; exact H). reflexivity. Qed.
Lemma splitting_still_down planck effective n nmax nu e ir face :
  (2 <= n)%nat -> (2 <= nmax)%nat -> grid n nu -> (forall i, e i = nu i) ->
  exists rows, splitting planck effective n nmax false nu e ir face = Ok rows /\ forall i m, (i < n)%nat -> (m < n)%nat -> coef (rows i) m = if Nat.eqb i m then 1 else 0.
Proof.
  intros N2 Nm G Ee. unfold splitting. destruct (Nat.ltb_spec n 2); [lia | ].
  assert (R : forall i, (i < n - 1)%nat -> row_down nu (e i) (e (S i)) (face i) (face (S i)) i = {| start := i; stop := i; ratio := SplitFrequencyBinLinear i i nu (e i) (e (S i)) (face i) (face (S i)) |}).
  { intros i Hi. unfold row_down. pose proof (proj2 G i ltac:(lia)) as L.
    rewrite (down_here nu (e (S i)) i) by (rewrite Ee; lra). rewrite (down_here nu (e i) i) by (rewrite Ee; lra). reflexivity. }
  match goal with |- context [existsb ?f _] => assert (Q : existsb f (seq 0 (n - 1)) = false) end.
  { match goal with |- existsb ?f ?l = _ => destruct (existsb f l) eqn:Ex; [ | reflexivity] end. apply existsb_exists in Ex. destruct Ex as (i & I1 & I2). apply in_seq in I1.
    replace (Nat.ltb i (n - 1)) with true in I2 by (symmetry; apply Nat.ltb_lt; lia). rewrite R in I2 by lia. cbn [start stop] in I2. apply Nat.ltb_lt in I2. lia. }
  rewrite Q. replace (Nat.ltb (n - 1) (n - 1)) with false by (symmetry; apply Nat.ltb_irrefl).
  set (tr := effective _ _). clearbody tr. assert (P : 0 < nu (n - 1)%nat). { pose proof (proj2 G (n - 2)%nat ltac:(lia)) as L. replace (S (n - 2)) with (n - 1)%nat in L by lia. pose proof (grid_nonneg n nu (n - 2) G ltac:(lia)). lra. }
  assert (Dn : down nu (e (n - 1)%nat) (n - 2) = (n - 2)%nat). { apply down_here. rewrite Ee. pose proof (proj2 G (n - 2)%nat ltac:(lia)) as L. replace (S (n - 2)) with (n - 1)%nat in L by lia. lra. }
  assert (Z : planck_piece planck nu (e (n - 1)%nat) tr (n - 2) 0 = 0).
  { unfold planck_piece. replace (S (n - 2)) with (n - 1)%nat by lia. rewrite Ee. replace (tr * nu (n - 1)%nat / nu (n - 1)%nat) with tr by (field; lra). ring. }
  unfold last_down. rewrite Dn. cbn [start stop]. replace (Nat.ltb nmax (n - 1 - (n - 2) + 1)) with false by (symmetry; apply Nat.ltb_ge; lia).
  eexists. split; [reflexivity | ]. intros i m Hi Hm. cbv beta. unfold coef. destruct (Nat.ltb_spec i (n - 1)) as [L | L].
  - rewrite R by exact L. cbn [start stop ratio]. unfold SplitFrequencyBinLinear. rewrite Nat.eqb_refl.
    destruct (Nat.leb_spec i m), (Nat.leb_spec m i), (Nat.eqb_spec i m); cbn [andb]; try lia; reflexivity.
  - cbn [start stop ratio]. replace (n - 1 - (n - 2))%nat with 1%nat by lia. cbn [sumn]. rewrite Z.
    destruct (Nat.leb_spec (n - 2) m), (Nat.leb_spec m (n - 1)); cbn [andb]; try lia; destruct (Nat.eqb_spec i m) as [Em | Em]; try lia.
    + replace (m - (n - 2))%nat with 1%nat by lia. cbn [Nat.ltb Nat.leb]. ring.
    + replace (m - (n - 2))%nat with O by lia. cbn [Nat.ltb Nat.leb]. exact Z.
    + reflexivity.
Qed.
Theorem C91_still_back : forall planck effective n nmax nu ir, (2 <= n)%nat -> (2 <= nmax)%nat -> grid n nu ->
  exists out, MapCmToLabFrequency planck effective n nmax 1 nu ir = Ok out /\ forall m, (m < n)%nat -> out m = ir m.
Proof.
  intros planck effective n nmax nu ir N2 Nm G. unfold MapCmToLabFrequency, BackwardSplitting.
  replace (ltR 1 1) with false by (symmetry; apply ltR_false; lra).
  destruct (splitting_still_down planck effective n nmax (fun i => nu i * 1) nu ir (ir_face ir (delta_nu nu)) N2 Nm (grid_scaled n nu 1 ltac:(lra) G) ltac:(intros; cbv beta; lra)) as (rows & E & C).
  rewrite E. cbn [map_outcome]. eexists. split; [reflexivity | ]. intros m Hm. rewrite map_coef. rewrite (sumn_ext n _ (fun i => ir i * (if Nat.eqb i m then 1 else 0))).
  - apply sum_pick. exact Hm.
  - intros i Hi. rewrite C by assumption. reflexivity.
Qed.
Print Assumptions C91_still_back.

(** Shift to higher frequencies: when the inverse mapping gives a result, mapping that again gives the input; and mapped non-negative radiation is recovered exactly. *)
Theorem C91_inverse : forall planck effective n nmax t nu ir face rows inp x,
  grid n nu -> 1 <= t -> ForwardSplitting planck effective n nmax t nu ir face = Ok rows -> InverseMap n rows inp = Ok (Some x) ->
  length x = n /\ forall m, (m < n)%nat -> MapIrcmFrequency n rows (nth0 x) m = inp m.
Proof.
  intros planck effective n nmax t nu ir face rows inp x G Ht H I. unfold ForwardSplitting in H. replace (ltR t 1) with false in H by (symmetry; apply ltR_false; lra). cbn [negb] in H.
  unfold InverseMap in I. destruct (diagonal rows n) as [[ | ] | | ] eqn:D; try discriminate. injection I as I.
  destruct (up_rows planck effective n nmax nu _ ir face rows G (grid_scaled n nu t ltac:(lra) G) ltac:(intros i Hi; pose proof (grid_nonneg n nu i G Hi); nra) H D) as (A & B & C & E).
  apply (solve_sound n rows A B C E inp n ltac:(lia) x I).
Qed.
Print Assumptions C91_inverse.
Theorem C91_recovered : forall planck effective n nmax t nu ir face rows y o,
  grid n nu -> 1 <= t -> ForwardSplitting planck effective n nmax t nu ir face = Ok rows -> (forall i, (i < n)%nat -> 0 <= y i) ->
  diagonal rows n = Ok true -> InverseMap n rows (MapIrcmFrequency n rows y) = o -> o = Ok (Some (map y (seq 0 n))).
Proof.
  intros planck effective n nmax t nu ir face rows y o G Ht H Hy D <-. unfold ForwardSplitting in H. replace (ltR t 1) with false in H by (symmetry; apply ltR_false; lra). cbn [negb] in H.
  unfold InverseMap. rewrite D. f_equal.
  destruct (up_rows planck effective n nmax nu _ ir face rows G (grid_scaled n nu t ltac:(lra) G) ltac:(intros i Hi; pose proof (grid_nonneg n nu i G Hi); nra) H D) as (A & B & C & E).
  apply solve_complete; try assumption. lia.
Qed.
Print Assumptions C91_recovered.

(** Witness grids. *)
Definition nu4 (i : nat) : R := match i with O => 0 | 1%nat => 1 | 2%nat => 2 | _ => 4 end.
Definition nu5 (i : nat) : R := match i with O => 0 | 1%nat => 1 | 2%nat => 2 | 3%nat => 4 | _ => 8 end.
Lemma grid4 : grid 4 nu4.
Proof. split; [reflexivity | ]. intros i Hi. destruct i as [ | [ | [ | ]]]; cbn [nu4]; try lra; lia. Qed.
Lemma grid5 : grid 5 nu5.
Proof. split; [reflexivity | ]. intros i Hi. destruct i as [ | [ | [ | [ | ]]]]; cbn [nu5]; try lra; lia. Qed.
Ltac decide_ltR := repeat match goal with |- context [ltR ?a ?b] => first [rewrite (proj2 (ltR_true a b)) by lra | rewrite (proj2 (ltR_false a b)) by lra]; cbn [andb negb Nat.ltb Nat.leb] end.

(** Refuted: that a shift over too many groups is reported.  The test is missing for the last group: with the default size of the rows and four groups a shift by 1/8 writes behind its row. *)
Theorem C91_overflow_refuted : exists n nmax t nu, grid n nu /\ nmax = (n / 2 + 1)%nat /\ 0 < t /\
  forall planck effective ir, MapLabToCmFrequency planck effective n nmax t nu ir = OutOfRow.
Proof.
  exists 4%nat, 3%nat, (1 / 8), nu4. split; [exact grid4 | split; [reflexivity | split; [lra | ]]]. intros planck effective ir.
  unfold MapLabToCmFrequency. set (f := ir_face _ _). clearbody f. unfold ForwardSplitting, splitting, row_down, last_down. cbn [Nat.ltb Nat.leb Nat.sub seq existsb down nu4 start stop].
  decide_ltR. cbn. reflexivity.
Qed.
Print Assumptions C91_overflow_refuted.

(** Refuted: that the test of the diagonal reads entries of the row.  With the default size, five groups and a shift by 5/2 the second group leaves its own frequencies and the entry in front of its row is read. *)
Theorem C91_diagonal_refuted : exists n nmax t nu ir, grid n nu /\ nmax = (n / 2 + 1)%nat /\ 1 <= t /\ (forall i, 0 <= ir i) /\
  forall planck effective, exists rows, ForwardSplitting planck effective n nmax t nu ir (ir_face ir (fun i => delta_nu nu i * t)) = Ok rows /\ diagonal rows n = OutOfRow.
Proof.
  exists 5%nat, 3%nat, (5 / 2), nu5, (fun _ => 1). split; [exact grid5 | split; [reflexivity | split; [lra | split; [intros; lra | ]]]]. intros planck effective.
  pose proof tiny_pos as T. assert (T1 : TINY_NUMBER < 1 / 10). { unfold TINY_NUMBER. apply Rmult_lt_reg_l with (10 ^ 20); [apply pow_lt; lra | ]. rewrite Rinv_r by (apply pow_nonzero; lra). simpl pow. lra. }
  set (f := ir_face _ _). assert (F0 : f O = 0) by reflexivity. assert (F1 : f 1%nat = 4 / 5). { unfold f. cbn [ir_face]. unfold delta_nu, nu5. rewrite Rmax_left; lra. } clearbody f.
  unfold ForwardSplitting, splitting, row_up, last_up. cbn [Nat.ltb Nat.leb Nat.sub seq existsb up nu5 start stop].
  decide_ltR. cbn [Nat.add existsb orb Nat.sub Nat.leb]. eexists. split; [reflexivity | ].
  cbn [diagonal Nat.ltb Nat.leb Nat.sub up nu5 start stop ratio]. decide_ltR. cbn [Nat.sub].
  unfold SplitFrequencyBinLinear. cbn [Nat.eqb Nat.ltb Nat.leb Nat.sub piece]. unfold first_piece. cbn [nu5]. rewrite F0, F1. decide_ltR. reflexivity.
Qed.
Print Assumptions C91_diagonal_refuted.

(** The hypotheses are met: a shift by 3/2 whose diagonal passes the test; a fit that increases up to 1. *)
Example C91_example_planck : forall x y, 0 <= x <= y -> (fun z => z / (1 + z)) x <= (fun z => z / (1 + z)) y <= 1.
Proof.
  intros x y H. cbv beta. split.
  - apply Rmult_le_reg_r with ((1 + x) * (1 + y)); [nra | ]. replace (x / (1 + x) * ((1 + x) * (1 + y))) with (x * (1 + y)) by (field; lra). replace (y / (1 + y) * ((1 + x) * (1 + y))) with (y * (1 + x)) by (field; lra). lra.
  - apply Rmult_le_reg_r with (1 + y); [lra | ]. replace (y / (1 + y) * (1 + y)) with y by (field; lra). lra.
Qed.
Example C91_example_shift : forall planck effective, exists rows,
  ForwardSplitting planck effective 4 3 (3 / 2) nu4 (fun _ => 1) (fun _ => 1) = Ok rows /\ diagonal rows 4 = Ok true /\ coef (rows O) O = 2 / 3 /\ coef (rows O) 1%nat = 1 / 3 /\ coef (rows 2%nat) 3%nat = 2 / 3.
Proof.
  intros planck effective. pose proof tiny_pos as T. assert (T1 : TINY_NUMBER < 1 / 10). { unfold TINY_NUMBER. apply Rmult_lt_reg_l with (10 ^ 20); [apply pow_lt; lra | ]. rewrite Rinv_r by (apply pow_nonzero; lra). simpl pow. lra. }
  unfold ForwardSplitting, splitting, row_up, last_up. cbn [Nat.ltb Nat.leb Nat.sub seq existsb up nu4 start stop].
  decide_ltR. cbn [Nat.add existsb orb Nat.sub Nat.leb]. eexists. split; [reflexivity | ].
  cbn [diagonal Nat.ltb Nat.leb Nat.sub up nu4 start stop ratio coef]. unfold coef. cbn [Nat.ltb Nat.leb Nat.sub up nu4 start stop ratio]. decide_ltR. cbn [Nat.sub Nat.leb andb].
  unfold SplitFrequencyBinLinear. cbn [Nat.eqb Nat.ltb Nat.leb Nat.sub Nat.add piece sumn]. unfold first_piece. cbn [nu4]. decide_ltR. repeat split; try reflexivity; lra.
Qed.
