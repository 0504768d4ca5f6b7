(** Proofs for C68, C70: norms, averages and the witnesses of the refutations. *)
From Coq Require Import Reals ZArith List Bool Permutation Lra Lia FunctionalExtensionality.
From Verif Require Import Fv_Model Fv_Spec Fv_Proofs2 Mg_Model Mg_Spec Mg_Proofs Mg_Proofs2 Mg_Proofs3 Mg_Proofs4.
Import ListNotations.
Local Open Scope R_scope.

(** *** Norms *)
Lemma sum_nonneg' : forall A (f : A -> R) l, (forall x, In x l -> 0 <= f x) -> 0 <= sum (map f l).
Proof. intros A f l; induction l as [|a l IH]; intros H; cbn [map]; [rewrite sum_nil; lra|]. rewrite sum_cons. specialize (IH (fun x Hx => H x (or_intror Hx))). specialize (H a (or_introl eq_refl)). lra. Qed.
Lemma sum_member : forall A (f : A -> R) l x, (forall x, In x l -> 0 <= f x) -> In x l -> f x <= sum (map f l).
Proof.
  intros A f l x; induction l as [|a l IH]; intros H Hi; [destruct Hi|]; destruct Hi as [E|Hx]; cbn [map]; rewrite sum_cons.
  - subst a. pose proof (sum_nonneg' A f l (fun x Hx => H x (or_intror Hx))). lra.
  - specialize (IH (fun x Hx => H x (or_intror Hx)) Hx). specialize (H a (or_introl eq_refl)). lra.
Qed.
Lemma gsum_nonneg : forall g f, (forall k j i, 0 <= f k j i) -> 0 <= gsum g f.
Proof. intros g f H; unfold gsum; repeat (apply sum_nonneg'; intros); apply H. Qed.
Lemma gsum_member : forall g f k j i, (forall k j i, 0 <= f k j i) -> cell g k j i -> f k j i <= gsum g f.
Proof.
  intros g f k j i H (Hk & Hj & Hi). unfold gsum.
  eapply Rle_trans; [|apply (sum_member Z (fun k => sum (map (fun j => sum (map (fun i => f k j i) (upto 1 (gx g)))) (upto 1 (gy g)))) _ k); [intros; repeat (apply sum_nonneg'; intros); apply H | apply in_upto; assumption]].
  cbv beta. eapply Rle_trans; [|apply (sum_member Z (fun j => sum (map (fun i => f k j i) (upto 1 (gx g)))) _ j); [intros; repeat (apply sum_nonneg'; intros); apply H | apply in_upto; assumption]].
  cbv beta. apply (sum_member Z (fun i => f k j i)); [intros; apply H | apply in_upto; assumption].
Qed.
Lemma mean_square : forall g f, good_grid g -> norm_l2 g f / volume g = gsum g (fun k j i => f k j i * f k j i) / (IZR (gx g) * IZR (gy g) * IZR (gz g)).
Proof.
  intros g f G. unfold norm_l2, volume. rewrite grid_sum_eq. destruct G as [(G1 & G2 & G3) G4]. apply IZR_le in G1, G2, G3. field. repeat apply conj; intro X0; lra.
Qed.
Lemma count_pos : forall g, good_grid g -> 0 < IZR (gx g) * IZR (gy g) * IZR (gz g).
Proof. intros g [(G1 & G2 & G3) _]. apply IZR_le in G1, G2, G3. repeat apply Rmult_lt_0_compat; lra. Qed.
(** The l2 norm bounds every cell. *)
Lemma norm_bound : forall g u src eps k j i, good_grid g -> 0 <= eps -> defect_norm g u src <= eps -> cell g k j i ->
  (laplacian g u k j i - src k j i)² <= eps² * (IZR (gx g) * IZR (gy g) * IZR (gz g)).
Proof.
  intros g u src eps k j i G He H Hc. unfold defect_norm in H. set (df := CalculateDefect g u src (fun _ _ _ => 0)) in *. rewrite mean_square in H by assumption.
  pose proof (count_pos g G) as N. set (n := IZR (gx g) * IZR (gy g) * IZR (gz g)) in *. set (q := gsum g (fun k j i => df k j i * df k j i)) in *.
  assert (Q0 : 0 <= q) by (apply gsum_nonneg; intros; apply Rle_0_sqr).
  assert (Q1 : df k j i * df k j i <= q) by (apply (gsum_member g (fun k j i => df k j i * df k j i)); [intros; apply Rle_0_sqr | assumption]).
  assert (Q2 : q / n <= eps²).
  { assert (0 <= q / n) by (apply Rmult_le_pos; [assumption | left; apply Rinv_0_lt_compat; assumption]). rewrite <- (Rsqr_sqrt (q / n)) by assumption. apply Rsqr_incr_1; [assumption | apply sqrt_pos | assumption]. }
  assert (E : df k j i = src k j i - laplacian g u k j i) by (unfold df; apply defect_eq; assumption).
  assert (Q3 : q <= eps² * n). { replace q with (q / n * n) by (field; intro X0; lra). apply Rmult_le_compat_r; lra. }
  rewrite E in Q1. unfold Rsqr at 1. lra.
Qed.
Lemma norm_zero : forall g u src, good_grid g -> (defect_norm g u src = 0 <-> poisson g src u).
Proof.
  intros g u src G. split.
  - intros H k j i Hc. pose proof (norm_bound g u src 0 k j i G (Rle_refl 0) (Req_le _ _ H) Hc) as B. rewrite Rsqr_0, Rmult_0_l in B.
    pose proof (Rle_0_sqr (laplacian g u k j i - src k j i)). assert (E : (laplacian g u k j i - src k j i)² = 0) by lra. apply Rsqr_eq_0 in E. lra.
  - intros P. unfold defect_norm. rewrite mean_square by assumption. rewrite (gsum_ext g _ (fun _ _ _ => 0)).
    + rewrite gsum_const by assumption. replace (_ / _) with 0 by (field; pose proof (count_pos g G); repeat apply conj; intro X0; rewrite X0 in *; lra). apply sqrt_0.
    + intros k j i Hc. rewrite defect_eq by assumption. rewrite (P k j i Hc). ring.
Qed.
(** *** Averages *)
Lemma average_shift : forall g u v a, good_grid g -> (forall k j i, cell g k j i -> u k j i = v k j i + a) -> CalculateTotal g u / volume g = CalculateTotal g v / volume g + a.
Proof.
  intros g u v a G H. rewrite !total_integral. unfold integral_. rewrite (gsum_ext g u (fun k j i => v k j i + a)) by assumption. rewrite (gsum_plus g v (fun _ _ _ => a)), gsum_const by assumption. unfold volume.
  destruct G as [(G1 & G2 & G3) G4]. apply IZR_le in G1, G2, G3. field. repeat apply conj; intro X0; lra.
Qed.
Lemma average_invariant : forall g u v a k j i, good_grid g -> (forall k j i, cell g k j i -> u k j i = v k j i + a) -> cell g k j i ->
  SubtractAverage g (CalculateTotal g u / volume g) u k j i = v k j i - CalculateTotal g v / volume g.
Proof. intros g u v a k j i G H Hc. unfold SubtractAverage. rewrite boxed_cell by assumption. rewrite (average_shift g u v a G H), (H k j i Hc). ring. Qed.

(** *** Witnesses *)
Definition all_bc (b : mgbc) : bcset := mkBC b b b b b b.
(** The start on the coarsest level. *)
Definition d_fmg0 : driver := mkDr (mkGr 1 1 1 1) 1 1 (fun _ => all_bc ZeroFixed) true true false 1 1 1 0 false 0.
Definition h_fmg0 : hier := fun _ => mkL (fun _ _ _ => - (1 / 12)) (fun _ _ _ => 1) (fun _ _ _ => 0).
Lemma lg_fmg0 : lg d_fmg0 0 = mkGr 1 1 1 (1 * 1). Proof. reflexivity. Qed.
Lemma fmg0_solution : solution (lg d_fmg0 0) (bcs d_fmg0 0) (src_ (h_fmg0 0%nat)) (u_ (h_fmg0 0%nat)).
Proof.
  apply solution_bc; [split; [rewrite lg_fmg0; cbn [gx gy gz]; lia | rewrite lg_fmg0; cbn [dx]; lra]|].
  intros k j i H. rewrite lg_fmg0 in *. unfold cell in H. cbn [gx gy gz] in H. replace k with 1%Z by lia. replace j with 1%Z by lia. replace i with 1%Z by lia.
  unfold laplacian, ApplyPhysicalBoundaries, set_ox3, set_ix3, set_ox2, set_ix2, set_ox1, set_ix1, Rsqr. cbn. field.
Qed.
Lemma fmg0_changed : u_ (SolveVCycle d_fmg0 h_fmg0 0%nat) 1%Z 1%Z 1%Z = - (1 / 4).
Proof.
  unfold SolveVCycle. change (fmg d_fmg0) with 0%nat. cbn [down up]. unfold SolveCoarsestGrid. change (fsub d_fmg0) with false. cbn [andb]. cbv zeta. change (fas d_fmg0) with true. cbv iota. cbn [set_level Nat.eqb u_ src_ uold_].
  change (Z.to_nat (iterations d_fmg0)) with 1%nat. cbn [times]. unfold presmooth. cbv zeta. change (redblack d_fmg0) with true. cbv iota.
  set (u1 := bnd d_fmg0 0 (u_ (h_fmg0 0%nat))). set (s1 := CalculateFASRHS (lg d_fmg0 0) u1 (src_ (h_fmg0 0%nat))).
  assert (C : cell (lg d_fmg0 0) 1 1 1) by (rewrite lg_fmg0; unfold cell; cbn [gx gy gz]; lia).
  rewrite bnd_cell by exact C. unfold smooth. change (second_color d_fmg0 0) with 1%Z. change (first_color d_fmg0 0) with 0%Z. change (coffset d_fmg0) with 0%Z.
  rewrite (proj2 (smooth_values _ _ _ _ _ _)) by (intros [_ X]; discriminate X). rewrite bnd_cell by exact C.
  rewrite (proj1 (smooth_values _ _ _ _ _ _)) by (exact C || reflexivity).
  unfold relaxed, s1, CalculateFASRHS. rewrite inside_true by exact C.
  assert (U0 : u1 1%Z 1%Z 1%Z = - (1 / 12)) by (unfold u1; rewrite bnd_cell by exact C; reflexivity).
  assert (St : stencil u1 1 1 1 = -1).
  { unfold stencil, u1, bnd. rewrite lg_fmg0. unfold ApplyPhysicalBoundaries, set_ox3, set_ix3, set_ox2, set_ix2, set_ox1, set_ix1. cbn. field. }
  rewrite St, U0, lg_fmg0. cbn [dx src_ h_fmg0 omega d_fmg0]. field.
Qed.
(** A prescribed potential without FAS. *)
Definition one3 : arr := fun _ _ _ => 1.
Definition zero3 : arr := fun _ _ _ => 0.
Definition d_wall : driver := mkDr (mkGr 2 2 2 1) 2 1 (fun _ => all_bc (Fixed (fun _ _ => 1))) false true false 1 1 1 0 false 1.
Definition h_wall : hier := fun l => mkL one3 zero3 zero3.
Lemma lg_wall1 : lg d_wall 1 = mkGr 2 2 2 (1 * 1). Proof. reflexivity. Qed.
Lemma lg_wall0 : lg d_wall 0 = mkGr 1 1 1 (1 * (2 * 1)). Proof. reflexivity. Qed.
Lemma wall_good : good_driver d_wall.
Proof. unfold good_driver, d_wall, good_grid; cbn [nroot ntotal fmg top gx gy gz dx]. repeat apply conj; try lia; try lra; exists 1%Z; reflexivity. Qed.
Lemma bnd_one : forall l, bnd d_wall l one3 = one3.
Proof.
  intros l. extensionality k; extensionality j; extensionality i. unfold bnd, ApplyPhysicalBoundaries, set_ox3, set_ix3, set_ox2, set_ix2, set_ox1, set_ix1, one3, d_wall, all_bc; cbn [bcs ix1 ox1 ix2 ox2 ix3 ox3 ghost].
  replace (2 * 1 - 1) with 1 by ring.
  repeat match goal with |- context [if ?c then 1 else 1] => replace (if c then 1 else 1) with 1 by (destruct c; reflexivity) end.
  repeat match goal with |- context [if ?c then 2 * 1 - 1 else 1] => replace (if c then 2 * 1 - 1 else 1) with 1 by (destruct c; ring) end. reflexivity.
Qed.
Lemma wall_solution : solution (lg d_wall 1) (bcs d_wall 1) (src_ (h_wall 1%nat)) (u_ (h_wall 1%nat)).
Proof.
  apply solution_bc; [apply (lg_good d_wall wall_good); apply le_n|]. change (ApplyPhysicalBoundaries (lg d_wall 1) (bcs d_wall 1) (u_ (h_wall 1%nat))) with (bnd d_wall 1 one3). rewrite bnd_one.
  intros k j i _. unfold laplacian, one3. cbn [src_ h_wall]. unfold zero3. unfold Rdiv; ring.
Qed.
Definition two3 : arr := fun _ _ _ => 2.
Definition u_corr : arr := fun _ _ _ => 1 + 9 / 8.
Definition sg (k : Z) : R := if Z.eqb k 1 then 1 else -1.
Lemma wall_ghosts : forall k j i, in_array (lg d_wall 0) k j i -> bnd d_wall 0 two3 k j i = 1 + sg k * sg j * sg i.
Proof.
  intros k j i H. unfold bnd. rewrite lg_wall0 in *. unfold in_array in H; cbn [gx gy gz] in H.
  unfold ApplyPhysicalBoundaries, set_ox3, set_ix3, set_ox2, set_ix2, set_ox1, set_ix1. cbn [d_wall bcs all_bc ix1 ox1 ix2 ox2 ix3 ox3 ghost gx gy gz]. unfold two3.
  assert (K : (k = 0 \/ k = 1 \/ k = 2)%Z) by lia. assert (J : (j = 0 \/ j = 1 \/ j = 2)%Z) by lia. assert (I : (i = 0 \/ i = 1 \/ i = 2)%Z) by lia.
  destruct K as [->|[->| ->]], J as [->|[->| ->]], I as [->|[->| ->]]; unfold sg;
  cbv beta iota zeta delta [within andb Z.eqb Pos.eqb Z.leb Z.compare Pos.compare Pos.compare_cont Z.add Pos.add Pos.succ]; ring.
Qed.
Lemma sg_in : sg 1 = 1. Proof. reflexivity. Qed.
Lemma sg_out : forall k, (k <> 1)%Z -> sg k = -1. Proof. intros k H; unfold sg; destruct (Z.eqb_spec k 1); [contradiction | reflexivity]. Qed.
Lemma wall_coarse : forall u, u 1%Z 1%Z 1%Z = 2 -> forall k j i, cell (lg d_wall 1) k j i -> ProlongateAndCorrect false (lg d_wall 0) (bnd d_wall 0 u) one3 k j i = 1 + 9 / 8.
Proof.
  intros u Hu k j i Hc.
  assert (B : forall k j i, in_array (lg d_wall 0) k j i -> bnd d_wall 0 u k j i = (fun k j i => 1 + sg k * sg j * sg i) k j i + 0).
  { intros k' j' i' H'. cbv beta. rewrite <- wall_ghosts by assumption. apply bc_shift; [apply (lg_good d_wall wall_good); apply Nat.le_0_l | left; reflexivity| |assumption].
    intros k2 j2 i2 H. rewrite lg_wall0 in H. unfold cell in H; cbn [gx gy gz] in H. replace k2 with 1%Z by lia. replace j2 with 1%Z by lia. replace i2 with 1%Z by lia. rewrite Hu. unfold two3; ring. }
  pose proof (lg_doubled d_wall wall_good 0 (le_n _)) as D. unfold ProlongateAndCorrect. rewrite (parent_true _ _ _ _ _ D Hc). rewrite (prolonged_shift false _ _ _ _ k j i 0 D Hc B).
  unfold one3. rewrite lg_wall1 in Hc. unfold cell in Hc; cbn [gx gy gz] in Hc.
  rewrite prolonged_tensor. unfold tensor.
  assert (W : forall f, (1 <= f <= 2)%Z -> coarse_index f = 1%Z).
  { intros f Hf. assert (X : (f = 1 \/ f = 2)%Z) by lia. destruct X as [->| ->]; reflexivity. }
  rewrite !W by lia. rewrite sg_in. rewrite !(sg_out (1 - 1)), !(sg_out (1 + 1)) by lia.
  unfold w1. destruct (upper k), (upper j), (upper i); field.
Qed.
Lemma wall_changed : u_ (SolveVCycle d_wall h_wall 1%nat) 1%Z 1%Z 2%Z = 7 / 16.
Proof.
  pose proof (lg_good d_wall wall_good 1 (le_n _)) as G1.
  assert (P1 : poisson (lg d_wall 1) zero3 one3) by (intros k j i _; unfold laplacian, one3, zero3; unfold Rdiv; ring).
  unfold SolveVCycle. change (fmg d_wall) with 1%nat. cbn [down up].
  assert (E1 : OneStepToCoarser d_wall 0 h_wall = set_level (set_level h_wall 1 (mkL one3 zero3 zero3)) 0 (mkL zero3 (Restrict (lg d_wall 0) (CalculateDefect (lg d_wall 1) one3 zero3 (fun _ _ _ => 0)) zero3) zero3)).
  { unfold OneStepToCoarser. cbv zeta. change (fas d_wall) with false. cbn [andb u_ src_ uold_ h_wall]. rewrite bnd_one.
    change (npre d_wall) with 1%nat. cbn [times]. pose proof (presmooth_id d_wall wall_good 1 zero3 one3 (le_n _)) as Q. rewrite bnd_one in Q. rewrite (Q P1). reflexivity. }
  rewrite E1. clear E1. set (r0 := Restrict (lg d_wall 0) (CalculateDefect (lg d_wall 1) one3 zero3 (fun _ _ _ => 0)) zero3).
  assert (R0 : r0 1%Z 1%Z 1%Z = 0).
  { unfold r0. apply (restrict_zero _ (lg d_wall 1)); [apply (lg_doubled d_wall wall_good); apply le_n | | rewrite lg_wall0; unfold cell; cbn [gx gy gz]; lia].
    intros k j i Hc. rewrite defect_eq by assumption. rewrite (P1 k j i Hc). ring. }
  assert (C0 : cell (lg d_wall 0) 1 1 1) by (rewrite lg_wall0; unfold cell; cbn [gx gy gz]; lia).
  assert (E2 : exists u, u 1%Z 1%Z 1%Z = 2 /\ forall h, h 0%nat = mkL zero3 r0 zero3 -> SolveCoarsestGrid d_wall h = set_level h 0 (mkL u r0 zero3)).
  { eexists. split; [|intros h Hh; unfold SolveCoarsestGrid; change (fsub d_wall) with false; cbn [andb]; cbv zeta; change (fas d_wall) with false; cbv iota; rewrite Hh; cbn [u_ src_ uold_]; reflexivity].
    change (Z.to_nat (iterations d_wall)) with 1%nat. cbn [times]. unfold presmooth. cbv zeta. change (redblack d_wall) with true. cbv iota.
    rewrite bnd_cell by exact C0. unfold smooth. change (second_color d_wall 0) with 1%Z. change (first_color d_wall 0) with 0%Z. change (coffset d_wall) with 0%Z.
    rewrite (proj2 (smooth_values _ _ _ _ _ _)) by (intros [_ X]; discriminate X). rewrite bnd_cell by exact C0.
    rewrite (proj1 (smooth_values _ _ _ _ _ _)) by (exact C0 || reflexivity). unfold relaxed. rewrite R0. rewrite (bnd_cell d_wall 0 zero3) by exact C0.
    assert (St : stencil (bnd d_wall 0 zero3) 1 1 1 = -12).
    { unfold stencil, bnd. rewrite lg_wall0. unfold ApplyPhysicalBoundaries, set_ox3, set_ix3, set_ox2, set_ix2, set_ox1, set_ix1. cbn. unfold zero3. ring. }
    rewrite St. cbn [omega d_wall]. unfold zero3. field. }
  destruct E2 as (u & Hu & E2). rewrite E2 by reflexivity. clear E2.
  unfold OneStepToFiner. cbv zeta. unfold ProlongateAndCorrectBlock. change (fas d_wall) with false. cbv iota zeta. cbn [set_level Nat.eqb u_ src_ uold_]. cbn [set_level Nat.eqb u_ src_ uold_].
  change (cubic d_wall) with false. pose proof (wall_coarse u Hu) as K. set (u1 := ProlongateAndCorrect false (lg d_wall 0) (bnd d_wall 0 u) one3) in *.
  change (ntotal d_wall) with 2%nat. cbv iota. change (npost d_wall) with 1%nat. cbn [times]. unfold postsmooth. cbv zeta. change (redblack d_wall) with true. cbv iota.
  unfold smooth. change (first_color d_wall 1) with 0%Z. change (second_color d_wall 1) with 1%Z. change (coffset d_wall) with 0%Z.
  assert (Cs : forall k j i, (1 <= k <= 2)%Z -> (1 <= j <= 2)%Z -> (1 <= i <= 2)%Z -> cell (lg d_wall 1) k j i) by (intros; rewrite lg_wall1; unfold cell; cbn [gx gy gz]; lia).
  rewrite bnd_cell by (apply Cs; lia). rewrite (proj1 (smooth_values _ _ _ _ _ _)) by (try (apply Cs; lia); reflexivity).
  set (u2 := Smooth (lg d_wall 1) (omega d_wall) 0 0 zero3 (bnd d_wall 1 u1)).
  assert (Fa : forall v k j, (1 <= k <= 2)%Z -> (1 <= j <= 2)%Z -> bnd d_wall 1 v k j 0%Z = 2 - v k j 1%Z /\ bnd d_wall 1 v k j 3%Z = 2 - v k j 2%Z).
  { intros v k j Hk Hj. unfold bnd. change 3%Z with (gx (lg d_wall 1) + 1)%Z. destruct (bc_x1 (lg d_wall 1) (bcs d_wall 1) v k j G1 Hk Hj) as [X Y]. rewrite X, Y. split; cbn [ghost d_wall bcs all_bc ix1 ox1]; [ring|]. change (gx (lg d_wall 1)) with 2%Z; ring. }
  assert (Fb : forall v k i, (1 <= k <= 2)%Z -> (1 <= i <= 2)%Z -> bnd d_wall 1 v k 0%Z i = 2 - v k 1%Z i /\ bnd d_wall 1 v k 3%Z i = 2 - v k 2%Z i).
  { intros v k i Hk Hi. unfold bnd. change 3%Z with (gy (lg d_wall 1) + 1)%Z. destruct (bc_x2 (lg d_wall 1) (bcs d_wall 1) v k i G1 Hk Hi) as [X Y]. rewrite X, Y. split; cbn [ghost d_wall bcs all_bc ix2 ox2]; [ring|]. change (gy (lg d_wall 1)) with 2%Z; ring. }
  assert (Fc : forall v j i, (1 <= j <= 2)%Z -> (1 <= i <= 2)%Z -> bnd d_wall 1 v 0%Z j i = 2 - v 1%Z j i /\ bnd d_wall 1 v 3%Z j i = 2 - v 2%Z j i).
  { intros v j i Hj Hi. unfold bnd. change 3%Z with (gz (lg d_wall 1) + 1)%Z. destruct (bc_x3 (lg d_wall 1) (bcs d_wall 1) v j i G1 Hj Hi) as [X Y]. rewrite X, Y. split; cbn [ghost d_wall bcs all_bc ix3 ox3]; [ring|]. change (gz (lg d_wall 1)) with 2%Z; ring. }
  (** red cells next to (1,1,2) *)
  assert (Rd : forall k j i, In (k, j, i) [(1, 1, 1); (2, 1, 2); (1, 2, 2)]%Z -> u2 k j i = 1).
  { intros k j i Hin. unfold u2. cbn [In] in Hin.
    destruct Hin as [X|[X|[X|[]]]]; injection X as <- <- <-; rewrite (proj1 (smooth_values _ _ _ _ _ _)) by (try (apply Cs; lia); reflexivity);
    unfold relaxed, stencil; cbn [Z.add Z.sub Z.opp Z.pos_sub Pos.add Pos.succ Pos.pred_double];
    repeat match goal with
    | |- context [bnd d_wall 1 u1 ?k ?j 0%Z] => rewrite (proj1 (Fa u1 k j ltac:(lia) ltac:(lia))) | |- context [bnd d_wall 1 u1 ?k ?j 3%Z] => rewrite (proj2 (Fa u1 k j ltac:(lia) ltac:(lia)))
    | |- context [bnd d_wall 1 u1 ?k 0%Z ?i] => rewrite (proj1 (Fb u1 k i ltac:(lia) ltac:(lia))) | |- context [bnd d_wall 1 u1 ?k 3%Z ?i] => rewrite (proj2 (Fb u1 k i ltac:(lia) ltac:(lia)))
    | |- context [bnd d_wall 1 u1 0%Z ?j ?i] => rewrite (proj1 (Fc u1 j i ltac:(lia) ltac:(lia))) | |- context [bnd d_wall 1 u1 3%Z ?j ?i] => rewrite (proj2 (Fc u1 j i ltac:(lia) ltac:(lia))) end;
    rewrite ?bnd_cell by (apply Cs; lia); rewrite !K by (apply Cs; lia); cbn [omega d_wall]; unfold zero3; field. }
  assert (Bk : u2 1%Z 1%Z 2%Z = 1 + 9 / 8).
  { unfold u2. rewrite (proj2 (smooth_values _ _ _ _ _ _)) by (intros [_ X]; discriminate X). rewrite bnd_cell by (apply Cs; lia). apply K. apply Cs; lia. }
  unfold relaxed, stencil. cbn [Z.add Z.sub Z.opp Z.pos_sub Pos.add Pos.succ Pos.pred_double].
  rewrite (proj2 (Fa u2 1%Z 1%Z ltac:(lia) ltac:(lia))), (proj1 (Fb u2 1%Z 2%Z ltac:(lia) ltac:(lia))), (proj1 (Fc u2 1%Z 2%Z ltac:(lia) ltac:(lia))).
  rewrite !bnd_cell by (apply Cs; lia). rewrite (Rd 1 1 1)%Z, (Rd 2 1 2)%Z, (Rd 1 2 2)%Z, Bk by (cbn [In]; tauto). cbn [omega d_wall]. unfold zero3. field.
Qed.
(** The average of the coarsest grid. *)
Definition d_ave : driver := mkDr (mkGr 4 2 2 1) 2 2 (fun _ => all_bc Periodic) true true false 1 1 1 0 true 1.
Definition h_ave : hier := fun l => mkL one3 zero3 zero3.
Lemma ave_good : good_driver d_ave.
Proof. unfold good_driver, d_ave, good_grid; cbn [nroot ntotal fmg top gx gy gz dx]. repeat apply conj; try lia; try lra; [exists 2%Z | exists 1%Z | exists 1%Z]; reflexivity. Qed.
Lemma lg_ave0 : lg d_ave 0 = mkGr 2 1 1 (1 * (2 * 1)). Proof. reflexivity. Qed.
Lemma ave_unchanged : u_ (SolveCoarsestGrid d_ave h_ave 0%nat) = bnd d_ave 0 one3.
Proof.
  unfold SolveCoarsestGrid. change (fsub d_ave && Z.eqb (iterations d_ave) 1) with false. cbv iota zeta. change (fsub d_ave) with true. cbv iota. change (fas d_ave) with true. cbv iota.
  unfold subtract_root at 1. cbv zeta. change (nroot d_ave - 1)%nat with 1%nat. cbn [set_level Nat.eqb u_ src_ uold_].
  unfold subtract_root. cbv zeta. change (nroot d_ave - 1)%nat with 1%nat. cbn [set_level Nat.eqb u_ src_ uold_].
  change (u_ (h_ave 0%nat)) with one3. change (src_ (h_ave 0%nat)) with zero3. apply times_id. apply (presmooth_id d_ave ave_good); [lia|].
  pose proof (lg_good d_ave ave_good 0 ltac:(lia)) as G. intros k j i Hc. rewrite fasrhs_eq by assumption. unfold zero3. ring.
Qed.
