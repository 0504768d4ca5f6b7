(** C51, C68, C69, C70: the multigrid Poisson solver. *)
From Coq Require Import Reals ZArith List Bool Permutation Lra Lia FunctionalExtensionality.
From Verif Require Import Fv_Model Fv_Spec Fv_Proofs2 Mg_Model Mg_Spec Mg_Proofs Mg_Proofs2 Mg_Proofs3 Mg_Proofs4 Mg_Proofs5.
Import ListNotations.
Local Open Scope R_scope.

(** ** C51 *)
(** Every accepted number of blocks and block size gives levels of which each halves the next finer one; the finest is the mesh itself. *)
Theorem C51_levels : forall n1 n2 n3 nx nb h, (0 < n1)%Z -> (0 < n2)%Z -> (0 < n3)%Z -> 0 < h -> block_levels nx = Some nb ->
  let mesh := mkGr (n1 * nx) (n2 * nx) (n3 * nx) h in let nt := (root_levels n1 n2 n3 + nb - 1)%nat in
  (1 <= root_levels n1 n2 n3 <= nt)%nat /\
  (forall l, (l < nt)%nat -> good_grid (level mesh nt l)) /\
  (forall l, (S l < nt)%nat -> doubled (level mesh nt l) (level mesh nt (S l))) /\
  (gx (level mesh nt (nt - 1)) = gx mesh /\ gy (level mesh nt (nt - 1)) = gy mesh /\ gz (level mesh nt (nt - 1)) = gz mesh /\ dx (level mesh nt (nt - 1)) = h) /\
  (gx (level mesh nt (root_levels n1 n2 n3 - 1)) = n1 /\ gy (level mesh nt (root_levels n1 n2 n3 - 1)) = n2 /\ gz (level mesh nt (root_levels n1 n2 n3 - 1)) = n3) /\
  ((root_levels n1 n2 n3 < 20)%nat -> ~ ((2 | gx (level mesh nt 0)) /\ (2 | gy (level mesh nt 0)) /\ (2 | gz (level mesh nt 0)))%Z).
Proof.
  intros n1 n2 n3 nx nb h H1 H2 H3 Hh Hb mesh nt. pose proof (block_levels_spec nx nb Hb) as [B1 B2]. pose proof (root_levels_spec n1 n2 n3 H1 H2 H3) as (R1 & R2 & R3).
  assert (P : (0 < nx)%Z) by (rewrite B2; apply Z.pow_pos_nonneg; lia).
  assert (G : good_grid mesh) by (split; [unfold mesh; cbn [gx gy gz]; nia | exact Hh]).
  assert (D : divisible mesh nt) by (apply levels_divisible; assumption).
  split; [unfold nt; lia|]. split; [intros; apply level_good; assumption|]. split; [intros; apply level_doubled; assumption|].
  split; [apply level_top; unfold nt; lia|].
  assert (Q : forall n m, Z.shiftr (n * nx) (Z.of_nat (nb - 1 + m)) = Z.shiftr n (Z.of_nat m)).
  { intros n m. rewrite Nat2Z.inj_add, <- Z.shiftr_shiftr by lia. f_equal. rewrite Z.shiftr_div_pow2 by lia. rewrite <- B2. apply Z.div_mul; lia. }
  split.
  - unfold level, mesh; cbn [gx gy gz]. replace (nt - 1 - (root_levels n1 n2 n3 - 1))%nat with (nb - 1 + 0)%nat by (unfold nt; lia). rewrite !Q. cbn [Z.of_nat]. rewrite !Z.shiftr_0_r. repeat split.
  - intros Hr. unfold level, mesh; cbn [gx gy gz]. replace (nt - 1 - 0)%nat with (nb - 1 + (root_levels n1 n2 n3 - 1))%nat by (unfold nt; lia). rewrite !Q. intros (E1 & E2 & E3).
    destruct R2 as (D1 & D2 & D3). cbn [gx gy gz] in *. set (r := root_levels n1 n2 n3) in *.
    assert (W : forall n, (2 ^ Z.of_nat (r - 1) | n)%Z -> (2 | Z.shiftr n (Z.of_nat (r - 1)))%Z -> (2 ^ Z.of_nat r | n)%Z).
    { intros n [q Eq] [p Ep]. rewrite Z.shiftr_div_pow2, Eq, Z.div_mul in Ep by (try lia; apply Z.pow_nonzero; lia). exists p. rewrite Eq, Ep. replace (Z.of_nat r) with (1 + Z.of_nat (r - 1))%Z by lia. rewrite Z.pow_add_r by lia. ring. }
    assert (X : (S r <= r)%nat).
    { apply R3; [exact Hr|]. unfold divisible; cbn [gx gy gz]. replace (S r - 1)%nat with r by lia. repeat split; apply W; assumption. }
    lia.
Qed.
(** Restriction keeps the volume integral and maps a constant to itself. *)
Theorem C51_restriction : forall c f u dst, doubled c f -> good_grid c ->
  CalculateTotal c (Restrict c u dst) = CalculateTotal f u /\
  (forall a, (forall k j i, cell f k j i -> u k j i = a) -> forall k j i, cell c k j i -> Restrict c u dst k j i = a) /\
  (forall k j i, ~ cell c k j i -> Restrict c u dst k j i = dst k j i).
Proof.
  intros c f u dst D G. split; [rewrite !total_integral; apply restrict_total; assumption|]. split.
  - intros a H k j i Hc. rewrite (restrict_shift c f u (fun _ _ _ : Z => 0) dst dst a D) by first [assumption | intros; rewrite H by assumption; ring].
    rewrite (restrict_zero c f (fun _ _ _ : Z => 0) dst D) by (assumption || reflexivity). ring.
  - intros k j i H. unfold Restrict. destruct (inside c k j i) eqn:E; [apply inside_iff in E; contradiction | reflexivity].
Qed.
(** Prolongation: if the coarse array (with its ghost cells) holds the cell-centre values of a polynomial of degree at most one in each variable (two for the cubic one and for the
    FMG prolongation), the values added to the fine cells are the values of that polynomial there; nothing else is changed. *)
Theorem C51_prolongation_exact : forall (tricubic : bool) c f p x0 y0 z0 s dst, doubled c f ->
  (if tricubic then quadratic_each p else affine_each p) ->
  (forall k j i, in_array c k j i -> s k j i = p (centre x0 (dx c) i) (centre y0 (dx c) j) (centre z0 (dx c) k)) ->
  (forall k j i, cell f k j i -> ProlongateAndCorrect tricubic c s dst k j i = dst k j i + p (centre x0 (dx f) i) (centre y0 (dx f) j) (centre z0 (dx f) k)) /\
  (tricubic = true -> forall k j i, cell f k j i -> FMGProlongate c s dst k j i = p (centre x0 (dx f) i) (centre y0 (dx f) j) (centre z0 (dx f) k)) /\
  (forall k j i, ~ cell f k j i -> ProlongateAndCorrect tricubic c s dst k j i = dst k j i /\ FMGProlongate c s dst k j i = dst k j i).
Proof.
  intros t c f p x0 y0 z0 s dst D Hp Hs.
  set (sp := fun k j i => p (centre x0 (2 * dx f) i) (centre y0 (2 * dx f) j) (centre z0 (2 * dx f) k)).
  assert (E : forall k j i, cell f k j i -> prolonged t s k j i = p (centre x0 (dx f) i) (centre y0 (dx f) j) (centre z0 (dx f) k)).
  { intros k j i Hc. rewrite (prolonged_shift t c f s sp k j i 0 D Hc) by (intros k' j' i' H; rewrite Hs by assumption; unfold sp; rewrite (proj2 D); ring).
    rewrite (prolong_exact t p x0 y0 z0 (dx f) sp k j i Hp) by reflexivity. ring. }
  split; [|split].
  - intros k j i Hc. unfold ProlongateAndCorrect. rewrite (parent_true _ _ _ _ _ D Hc), E by assumption. reflexivity.
  - intros -> k j i Hc. unfold FMGProlongate. rewrite (parent_true _ _ _ _ _ D Hc), E by assumption. reflexivity.
  - intros k j i H. unfold ProlongateAndCorrect, FMGProlongate. destruct (has_parent c k j i) eqn:Q; [apply (parent_iff c f) in Q; [contradiction | assumption] | split; reflexivity].
Qed.
(** The linear prolongation stays between the smallest and the largest coarse value. *)
Theorem C51_prolongation_bounded : forall c f s dst m M, doubled c f -> (forall k j i, in_array c k j i -> m <= s k j i <= M) ->
  forall k j i, cell f k j i -> m <= ProlongateAndCorrect false c s dst k j i - dst k j i <= M.
Proof.
  intros c f s dst m M D H k j i Hc. unfold ProlongateAndCorrect. rewrite (parent_true _ _ _ _ _ D Hc). replace (dst k j i + prolonged false s k j i - dst k j i) with (prolonged false s k j i) by ring.
  apply (prolong_bounds c f); assumption.
Qed.
(** The defect is source minus Laplacian; it vanishes in all cells exactly for solutions, which the smoother does not change. *)
Theorem C51_defect : forall g u src def, good_grid g ->
  (forall k j i, cell g k j i -> CalculateDefect g u src def k j i = src k j i - laplacian g u k j i) /\
  ((forall k j i, cell g k j i -> CalculateDefect g u src def k j i = 0) <-> poisson g src u) /\
  (defect_norm g u src = 0 <-> poisson g src u) /\
  (poisson g src u -> forall om co color, Smooth g om co color src u = u).
Proof.
  intros g u src def G. split; [intros; apply defect_eq; assumption|]. split; [|split; [apply norm_zero; assumption | intros; apply smooth_fixed; assumption]]. split.
  - intros H k j i Hc. specialize (H k j i Hc). rewrite defect_eq in H by assumption. lra.
  - intros P k j i Hc. rewrite defect_eq by assumption. rewrite (P k j i Hc). ring.
Qed.
(** With periodic and zero-gradient boundaries the total defect is the total source whatever the potential is, so a solution needs a source of zero average; subtracting the average provides it. *)
Theorem C51_compatible : forall g b src u def, good_grid g -> all_neutral b -> paired b ->
  CalculateTotal g (CalculateDefect g (ApplyPhysicalBoundaries g b u) src def) = CalculateTotal g src /\
  (solution g b src u -> CalculateTotal g src = 0) /\
  CalculateTotal g (SubtractAverage g (CalculateTotal g src / volume g) src) = 0.
Proof.
  intros g b src u def G Hn Hp. apply neutral_iff in Hn. pose proof (defect_total g b u src def G Hn Hp) as E. split; [exact E|]. split; [|apply subtract_total; assumption].
  intros S. apply solution_bc in S; [|assumption]. rewrite <- E. rewrite total_integral. unfold integral_. rewrite (gsum_ext g _ (fun _ _ _ => 0)).
  - rewrite gsum_const by assumption. ring.
  - intros k j i Hc. rewrite defect_eq by assumption. rewrite (S k j i Hc). ring.
Qed.
(** Finding F56: the check that the cells are cubes compares sizes with an absolute tolerance, so small cells of any shape pass. *)
Theorem C51_cubic_check_refuted : ~ (forall nx1 nx2 nx3 rdx rdy rdz, 0 < rdx -> 0 < rdy -> 0 < rdz -> accepts_block nx1 nx2 nx3 rdx rdy rdz = true -> rdy <= 2 * rdx).
Proof.
  intro H. specialize (H 8%Z 8%Z 8%Z (1 / 1000000) (9 / 1000000) (1 / 1000000)). specialize (H ltac:(lra) ltac:(lra) ltac:(lra)).
  assert (A : accepts_block 8 8 8 (1 / 1000000) (9 / 1000000) (1 / 1000000) = true).
  { unfold accepts_block. cbn [Z.eqb Pos.eqb andb].
    destruct (Rlt_dec (1 / 100000) (Rabs (1 / 1000000 - 9 / 1000000))) as [X|X]; [exfalso; rewrite Rabs_left in X by lra; lra|].
    destruct (Rlt_dec (1 / 100000) (Rabs (1 / 1000000 - 1 / 1000000))) as [Y|Y]; [exfalso; rewrite Rabs_right in Y by lra; lra|]. reflexivity. }
  specialize (H A). lra.
Qed.
(** Finding F55: on a coarsest grid of more than one cell the average of the coarsest level is subtracted from the finest level of the root grid, not from the coarsest one. *)
Theorem C51_coarsest_average_refuted : ~ (forall d h, good_driver d -> (0 < fmg d)%nat -> fsub d = true -> (forall l, all_neutral (bcs d l)) ->
  CalculateTotal (lg d 0) (u_ (SolveCoarsestGrid d h 0%nat)) = 0).
Proof.
  intro H. specialize (H d_ave h_ave ave_good ltac:(cbn; lia) eq_refl).
  assert (N : forall l, all_neutral (bcs d_ave l)) by (intros l; apply neutral_iff; reflexivity). specialize (H N). rewrite ave_unchanged in H.
  pose proof (lg_good d_ave ave_good 0 ltac:(cbn; lia)) as G. rewrite total_integral in H. unfold integral_ in H.
  rewrite (gsum_ext _ _ (fun _ _ _ => 1)) in H by (intros; rewrite bnd_cell by assumption; reflexivity). rewrite gsum_const in H by assumption. rewrite lg_ave0 in H. cbn [gx gy gz dx] in H. lra.
Qed.
Example C51_ex : doubled (mkGr 2 2 2 (1 / 4)) (mkGr 4 4 4 (1 / 8)) /\ good_grid (mkGr 2 2 2 (1 / 4)) /\ block_levels 16 = Some 5%nat /\ block_levels 12 = None /\ root_levels 6 4 2 = 2%nat /\
  quadratic_each (fun x y z => x * x + y * z) /\ affine_each (fun x y z => 1 + x * y * z) /\ all_neutral (mkBC Periodic Periodic ZeroGrad ZeroGrad Periodic Periodic) /\ paired (mkBC Periodic Periodic ZeroGrad ZeroGrad Periodic Periodic).
Proof.
  split; [split; [cbn [gx gy gz]; lia | cbn [dx]; lra]|]. split; [split; [cbn [gx gy gz]; lia | cbn [dx]; lra]|]. split; [reflexivity|]. split; [reflexivity|]. split; [reflexivity|].
  split; [unfold quadratic_each; repeat split; intros a b; [exists (a * b), 0, 1 | exists (a * a), b, 0 | exists (a * a), b, 0]; intros; unfold Rsqr; ring|].
  split; [unfold affine_each; repeat split; intros a b; [exists 1, (a * b) | exists 1, (a * b) | exists 1, (a * b)]; intros; ring|].
  split; [apply neutral_iff; reflexivity|]. unfold paired; cbn. repeat split; intro X; (reflexivity || discriminate X).
Qed.

(** ** C68 *)
(** The discrete problem has at most one solution, up to a constant when all boundaries are periodic or have zero gradient. *)
Theorem C68_unique : forall g b src u v, good_grid g -> solution g b src u -> solution g b src v ->
  (~ all_neutral b -> forall k j i, cell g k j i -> u k j i = v k j i) /\ exists a, forall k j i, cell g k j i -> u k j i = v k j i + a.
Proof.
  intros g b src u v G Su Sv. destruct (unique g b src u v G Su Sv) as (a & A & E). split; [|exists a; exact E].
  intros Hn k j i Hc. destruct A as [->|A]; [rewrite E by assumption; ring | apply neutral_iff in A; contradiction].
Qed.
(** A V-cycle started from the exact discrete solution returns it, whatever the number of levels, smoothing steps, relaxation parameter, colours and prolongation: exactly if no average is subtracted,
    else up to a constant, which the final subtraction of the average removes. *)
Theorem C68_fixed_point : forall d h, good_driver d -> (0 < fmg d)%nat ->
  (fsub d = true -> forall l, (l <= fmg d)%nat -> all_neutral (bcs d l)) -> (fas d = false -> forall l, (l < fmg d)%nat -> homogeneous (bcs d l)) ->
  let g := lg d (fmg d) in let u := u_ (h (fmg d)) in let u' := u_ (SolveVCycle d h (fmg d)) in
  solution g (bcs d (fmg d)) (src_ (h (fmg d))) u ->
  src_ (SolveVCycle d h (fmg d)) = src_ (h (fmg d)) /\
  solution g (bcs d (fmg d)) (src_ (h (fmg d))) u' /\
  (fsub d = false -> forall k j i, cell g k j i -> u' k j i = u k j i) /\
  (exists a, forall k j i, cell g k j i -> u' k j i = u k j i + a) /\
  (forall k j i, cell g k j i -> SubtractAverage g (CalculateTotal g u' / volume g) u' k j i = u k j i - CalculateTotal g u / volume g).
Proof.
  intros d h G H0 Hn Hf g u u' Sol. assert (Hn' : fsub d = true -> forall l, (l <= fmg d)%nat -> neutral (bcs d l) = true) by (intros F l Hl; apply neutral_iff; apply Hn; assumption).
  pose proof (lg_good d G (fmg d) (le_n _)) as Gg.
  destruct (vcycle_fixed d h G H0 Hn' Hf Sol) as (E & a & A & E1). fold g u u' in E1.
  split; [exact E|]. split; [|split; [|split]].
  - apply solution_bc; [assumption|]. apply solution_bc in Sol; [|assumption]. apply (poisson_shift d G Hn' (fmg d) u' u a); [apply le_n | exact A | exact E1 | exact Sol].
  - intros F k j i Hc. destruct A as [->|A]; [rewrite E1 by assumption; ring | congruence].
  - exists a. exact E1.
  - intros k j i Hc. apply (average_invariant g u' u a); assumption.
Qed.
(** Finding F53: without FAS this fails for a prescribed potential on the walls, because the corrections on the coarser levels get the same inhomogeneous condition. *)
Theorem C68_prescribed_potential_refuted : ~ (forall d h, good_driver d -> (0 < fmg d)%nat -> fsub d = false ->
  solution (lg d (fmg d)) (bcs d (fmg d)) (src_ (h (fmg d))) (u_ (h (fmg d))) -> forall k j i, cell (lg d (fmg d)) k j i -> u_ (SolveVCycle d h (fmg d)) k j i = u_ (h (fmg d)) k j i).
Proof.
  intro H. specialize (H d_wall h_wall wall_good ltac:(cbn; lia) eq_refl wall_solution 1 1 2)%Z. change (fmg d_wall) with 1%nat in H. rewrite wall_changed in H.
  assert (C : cell (lg d_wall 1) 1 1 2) by (rewrite lg_wall1; unfold cell; cbn [gx gy gz]; lia). specialize (H C). cbn [h_wall u_] in H. unfold one3 in H. lra.
Qed.
(** Finding F54: with FAS it fails if the cycle starts on the coarsest level (first step of the full multigrid), because the right-hand side is modified there although it already is the true source. *)
Theorem C68_coarsest_start_refuted : ~ (forall d h, (1 <= nroot d <= ntotal d)%nat -> good_grid (lg d (fmg d)) -> fmg d = 0%nat -> fsub d = false -> (forall l, homogeneous (bcs d l)) ->
  solution (lg d (fmg d)) (bcs d (fmg d)) (src_ (h (fmg d))) (u_ (h (fmg d))) -> forall k j i, cell (lg d (fmg d)) k j i -> u_ (SolveVCycle d h (fmg d)) k j i = u_ (h (fmg d)) k j i).
Proof.
  intro H. specialize (H d_fmg0 h_fmg0). specialize (H ltac:(cbn; lia)). change (fmg d_fmg0) with 0%nat in H.
  assert (G : good_grid (lg d_fmg0 0)) by (rewrite lg_fmg0; split; [cbn [gx gy gz]; lia | cbn [dx]; lra]).
  assert (Hh : forall l, homogeneous (bcs d_fmg0 l)) by (intros l x Hx; cbn in Hx; right; right; destruct Hx as [<-|[<-|[<-|[<-|[<-|[<-|[]]]]]]]; reflexivity).
  specialize (H G eq_refl eq_refl Hh fmg0_solution 1 1 1)%Z. rewrite fmg0_changed in H.
  assert (C : cell (lg d_fmg0 0) 1 1 1) by (rewrite lg_fmg0; unfold cell; cbn [gx gy gz]; lia). specialize (H C). cbn [h_fmg0 u_] in H. lra.
Qed.
(** A non-trivial solution: the alternating potential on a periodic mesh, for FAS and non-FAS drivers with two levels. *)
Definition alternating : arr := fun _ _ i => if Z.odd i then 1 else -1.
Definition d_ex (fas_ : bool) : driver := mkDr (mkGr 4 2 2 (1 / 2)) 2 1 (fun _ => all_bc Periodic) fas_ true true (115 / 100) 1 1 0 true 1.
Definition h_ex : hier := fun _ => mkL alternating (fun k j i => -16 * alternating k j i) (fun _ _ _ => 0).
Example C68_ex : forall f, good_driver (d_ex f) /\ (forall l, all_neutral (bcs (d_ex f) l)) /\ (forall l, homogeneous (bcs (d_ex f) l)) /\
  solution (lg (d_ex f) 1) (bcs (d_ex f) 1) (src_ (h_ex 1%nat)) (u_ (h_ex 1%nat)) /\ iterations (d_ex f) = 2%Z.
Proof.
  intros f. assert (N : forall l, all_neutral (bcs (d_ex f) l)) by (intros l; apply neutral_iff; reflexivity).
  split; [unfold good_driver, d_ex, good_grid; cbn [nroot ntotal fmg top gx gy gz dx]; repeat apply conj; try lia; try lra; [exists 2%Z | exists 1%Z | exists 1%Z]; reflexivity|].
  split; [exact N|]. split; [intros l; apply neutral_homogeneous; apply neutral_iff; apply N|]. split; [|reflexivity].
  exists alternating. split; [reflexivity|]. split; [unfold meets; repeat split; reflexivity|].
  intros k j i _. unfold laplacian. cbn [src_ h_ex]. unfold alternating.
  assert (O1 : Z.odd (i + 1) = negb (Z.odd i)) by apply odd_step. assert (O2 : Z.odd (i - 1) = negb (Z.odd i)).
  { replace i with (i - 1 + 1)%Z at 2 by lia. rewrite odd_step, negb_involutive. reflexivity. }
  rewrite O1, O2. change (dx (lg (d_ex f) 1)) with (1 / 2 * 1). unfold Rsqr. destruct (Z.odd i); cbn [negb]; field.
Qed.

(** ** C69 *)
(** The result of a sweep does not depend on the order in which the cells of its colour are visited. *)
Theorem C69_any_order : forall g om co color src u order, Permutation order (sweep_cells g (Z.lxor color co)) ->
  fold_left (relax om (dx g * dx g) src) order u = Smooth g om co color src u.
Proof. intros g om co color src u order P. unfold Smooth. eapply sweep_order; [apply nodup_sweep | apply sweep_coloured | apply Permutation_sym; assumption]. Qed.
(** Two sweeps of different colours update every cell exactly once; each updated value uses only values from before the sweep, and no other element of the array changes. *)
Theorem C69_colours : forall g om co color src u k j i, (color = 0 \/ color = 1)%Z -> (co = 0 \/ co = 1)%Z ->
  (cell g k j i -> (In (k, j, i) (sweep_cells g (Z.lxor color co)) <-> ~ In (k, j, i) (sweep_cells g (Z.lxor (1 - color) co)))) /\
  NoDup (sweep_cells g (Z.lxor color co)) /\
  (In (k, j, i) (sweep_cells g (Z.lxor color co)) -> cell g k j i /\
     Smooth g om co color src u k j i = u k j i + (om / 6) * (u (k + 1)%Z j i + u (k - 1)%Z j i + u k (j + 1)%Z i + u k (j - 1)%Z i + u k j (i + 1)%Z + u k j (i - 1)%Z - 6 * u k j i - src k j i * (dx g)²)) /\
  (~ In (k, j, i) (sweep_cells g (Z.lxor color co)) -> Smooth g om co color src u k j i = u k j i).
Proof.
  intros g om co color src u k j i Hcol Hco. destruct (smooth_values g om co color src u) as [A B]. split; [|split; [apply nodup_sweep | split]].
  - intros Hc. rewrite !in_sweep. assert (E : Z.odd (Z.lxor (1 - color) co + k + j + i) = negb (Z.odd (Z.lxor color co + k + j + i))).
    { rewrite <- !Z.add_assoc, !(Z.odd_add _ (k + (j + i))). destruct Hcol as [->| ->], Hco as [->| ->]; cbn [Z.sub Z.lxor Z.odd Pos.lxor Z.opp Z.add]; cbn; destruct (Z.odd (k + (j + i))); reflexivity. }
    rewrite E. destruct (Z.odd (Z.lxor color co + k + j + i)); cbn [negb]; split; intros H; try tauto; try (split; [assumption | reflexivity]); try (intros [_ X]; discriminate X); try (destruct H as [_ H]; discriminate H).
  - intros H. apply in_sweep in H. destruct H as [Hc Ho]. split; [assumption|]. rewrite A by assumption. unfold relaxed, stencil, Rsqr. field.
  - intros H. apply B. rewrite <- in_sweep. assumption.
Qed.
(** A sweep multiplies the defect of each updated cell by 1 - omega (so it vanishes for omega = 1). *)
Theorem C69_defect_reduction : forall g om co color src u k j i, good_grid g -> In (k, j, i) (sweep_cells g (Z.lxor color co)) ->
  src k j i - laplacian g (Smooth g om co color src u) k j i = (1 - om) * (src k j i - laplacian g u k j i).
Proof. intros g om co color src u k j i G H. apply in_sweep in H. destruct H as [Hc Ho]. apply smooth_defect; assumption. Qed.
(** For a relaxation parameter in [0,1] a sweep followed by the boundary conditions does not increase the largest distance of two potentials, in particular the largest error. *)
Theorem C69_stable : forall g b om co color src u v M, good_grid g -> 0 <= om <= 1 -> (forall k j i, cell g k j i -> Rabs (u k j i - v k j i) <= M) ->
  let sweep := fun w => Smooth g om co color src (ApplyPhysicalBoundaries g b w) in
  forall k j i, cell g k j i -> Rabs (sweep u k j i - sweep v k j i) <= M.
Proof.
  intros g b om co color src u v M G Ho H sweep k j i Hc. unfold sweep.
  destruct (smooth_values g om co color src (ApplyPhysicalBoundaries g b u)) as [A B], (smooth_values g om co color src (ApplyPhysicalBoundaries g b v)) as [A' B'].
  destruct (Z.odd (Z.lxor color co + k + j + i)) eqn:P.
  - rewrite A, A' by assumption. unfold relaxed, stencil.
    set (e := fun k j i => ApplyPhysicalBoundaries g b u k j i - ApplyPhysicalBoundaries g b v k j i).
    assert (Bd : forall k' j' i', next_to k j i k' j' i' -> - M <= e k' j' i' <= M).
    { intros k' j' i' N. pose proof (bc_difference g b u v M G H k j i k' j' i' Hc N) as Q. fold (e k' j' i') in Q. unfold Rabs in Q. destruct (Rcase_abs _); lra. }
    assert (B0 : - M <= e k j i <= M). { unfold e. rewrite !bc_cell by assumption. pose proof (H k j i Hc) as Q. unfold Rabs in Q. destruct (Rcase_abs _); lra. }
    pose proof (Bd (k + 1)%Z j i ltac:(unfold next_to; tauto)) as B1. pose proof (Bd (k - 1)%Z j i ltac:(unfold next_to; tauto)) as B2. pose proof (Bd k (j + 1)%Z i ltac:(unfold next_to; tauto)) as B3.
    pose proof (Bd k (j - 1)%Z i ltac:(unfold next_to; tauto)) as B4. pose proof (Bd k j (i + 1)%Z ltac:(unfold next_to; tauto)) as B5. pose proof (Bd k j (i - 1)%Z ltac:(unfold next_to; tauto)) as B6.
    match goal with |- Rabs ?X <= _ => replace X with ((1 - om) * e k j i + om * ((e (k + 1)%Z j i + e (k - 1)%Z j i + e k (j + 1)%Z i + e k (j - 1)%Z i + e k j (i + 1)%Z + e k j (i - 1)%Z) / 6)) by (unfold e; field) end.
    clearbody e. set (s := (_ / 6)). assert (Hs : - M <= s <= M) by (unfold s; lra). clearbody s. apply Rabs_le. nra.
  - rewrite B, B' by (rewrite P; intros [_ X]; discriminate X). rewrite !bc_cell by assumption. apply H; assumption.
Qed.
Example C69_ex : sweep_cells (mkGr 2 2 2 1) 0 = [(1, 1, 1); (1, 2, 2); (2, 1, 2); (2, 2, 1)]%Z /\ sweep_cells (mkGr 2 2 2 1) 1 = [(1, 1, 2); (1, 2, 1); (2, 1, 1); (2, 2, 2)]%Z.
Proof. split; reflexivity. Qed.

(** ** C70 *)
(** The iteration ends after at most 102 cycles, whatever a cycle does and for every threshold; it reports convergence only if the norm is at most the threshold, and gives up early only when the last
    cycle reduced the norm by less than a tenth (zero threshold) or increased it. *)
Theorem C70_iteration_ends : forall (St : Type) (cycle : St -> St) (norm : St -> R) eps s,
  exists n s' e, (n <= 102)%nat /\ SolveIterative cycle norm eps 102 s = Some (s', e) /\ s' = times n cycle s /\
    match e with
    | Converged => norm s' <= eps
    | Saturated => eps = 0 /\ exists p, n = S p /\ norm s' / norm (times p cycle s) > 9 / 10
    | Diverging => exists p, n = S p /\ norm s' / norm (times p cycle s) > 1
    | TooMany => n = 102%nat
    end.
Proof. intros. unfold SolveIterative. apply iterate_spec; [lia | reflexivity | reflexivity]. Qed.
(** Convergence bounds the residual of the discrete equation in every cell. *)
Theorem C70_converged : forall g u src eps, good_grid g -> 0 <= eps -> defect_norm g u src <= eps ->
  forall k j i, cell g k j i -> (laplacian g u k j i - src k j i)² <= eps² * (IZR (gx g) * IZR (gy g) * IZR (gz g)).
Proof. intros; apply norm_bound; assumption. Qed.
Lemma C70_ex_fuel : forall f, SolveIterative (fun x => x / 2) (fun x => x) 1 (S (S (S f))) 3 = Some (3 / 2 / 2, Converged).
Proof.
  intros f. unfold SolveIterative. cbn [iterate]. destruct (Rlt_dec 1 3) as [_|X]; [|lra]. cbv zeta.
  destruct (Rlt_dec (9 / 10) (3 / 2 / 3)) as [X|_]; [lra|]. cbn [andb]. change (Z.ltb 100 0) with false. cbv iota.
  destruct (Rlt_dec 1 (3 / 2)) as [_|X]; [|lra]. destruct (Rlt_dec (9 / 10) (3 / 2 / 2 / (3 / 2))) as [X|_].
  - exfalso. replace (3 / 2 / 2 / (3 / 2)) with (1 / 2) in X by field. lra.
  - cbn [andb]. change (Z.ltb 100 (0 + 1)) with false. cbv iota. destruct (Rlt_dec 1 (3 / 2 / 2)) as [X|_]; [lra | reflexivity].
Qed.
Example C70_ex : SolveIterative (fun x => x / 2) (fun x => x) 1 102 3 = Some (3 / 2 / 2, Converged).
Proof. apply (C70_ex_fuel 99). Qed.

Print Assumptions C51_levels.
Print Assumptions C51_restriction.
Print Assumptions C51_prolongation_exact.
Print Assumptions C51_prolongation_bounded.
Print Assumptions C51_defect.
Print Assumptions C51_compatible.
Print Assumptions C51_cubic_check_refuted.
Print Assumptions C51_coarsest_average_refuted.
Print Assumptions C68_unique.
Print Assumptions C68_fixed_point.
Print Assumptions C68_prescribed_potential_refuted.
Print Assumptions C68_coarsest_start_refuted.
Print Assumptions C69_any_order.
Print Assumptions C69_colours.
Print Assumptions C69_defect_reduction.
Print Assumptions C69_stable.
Print Assumptions C70_iteration_ends.
Print Assumptions C70_converged.
