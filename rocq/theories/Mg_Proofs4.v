(** Proofs for C51, C68, C70: uniqueness, compatibility, number of levels, iteration. *)
From Coq Require Import Reals ZArith List Bool Permutation Lra Lia FunctionalExtensionality.
From Verif Require Import Fv_Model Fv_Spec Fv_Proofs2 Mg_Model Mg_Spec Mg_Proofs Mg_Proofs2 Mg_Proofs3.
Import ListNotations.
Local Open Scope R_scope.

(** *** The defect and the source have the same total when all boundaries are periodic or have zero gradient *)
Lemma line_zero : forall (e : Z -> R) n c, (1 <= n)%Z -> e (n + 1)%Z - e n = e 1%Z - e 0%Z -> sum (map (fun i => (e (i + 1)%Z - 2 * e i + e (i - 1)%Z) / c) (upto 1 n)) = 0.
Proof.
  intros e n c Hn H. rewrite (sum_ext Z _ (fun i => / c * ((fun i => e i - e (i - 1)%Z) (i + 1)%Z - (fun i => e i - e (i - 1)%Z) i))).
  - rewrite sum_scale, (telescope' (fun i => e i - e (i - 1)%Z)) by lia. replace (n + 1 - 1)%Z with n by lia. change (1 - 1)%Z with 0%Z. rewrite H. ring.
  - intros i _. replace (i + 1 - 1)%Z with i by lia. unfold Rdiv; ring.
Qed.
Lemma ghosts_balance : forall bi bo n f a c, neutral1 bi = true -> neutral1 bo = true -> (bi = Periodic <-> bo = Periodic) -> ghost bo f n a c - f = n - ghost bi n f a c.
Proof. intros [] [] n f a c H1 H2 H; cbn [ghost]; try ring; try discriminate H1; try discriminate H2; exfalso; destruct H as [Ha Hb]; (discriminate (Ha eq_refl) || discriminate (Hb eq_refl)). Qed.
Lemma laplacian_total : forall g b u, good_grid g -> neutral b = true -> paired b -> gsum g (laplacian g (ApplyPhysicalBoundaries g b u)) = 0.
Proof.
  intros g b u G Hn (P1 & P2 & P3). pose proof G as [(G1 & G2 & G3) _]. set (e := ApplyPhysicalBoundaries g b u).
  unfold neutral in Hn. rewrite !andb_true_iff in Hn. destruct Hn as (((((N1 & N2) & N3) & N4) & N5) & N6).
  unfold laplacian. rewrite !gsum_plus. unfold gsum.
  assert (A : sum (map (fun k => sum (map (fun j => sum (map (fun i => (e k j (i + 1)%Z - 2 * e k j i + e k j (i - 1)%Z) / (dx g)²) (upto 1 (gx g)))) (upto 1 (gy g)))) (upto 1 (gz g))) = 0).
  { rewrite (sum_ext Z _ (fun _ => 0)); [apply sum_zero|]. intros k Hk. apply in_upto in Hk. rewrite (sum_ext Z _ (fun _ => 0)); [apply sum_zero|]. intros j Hj. apply in_upto in Hj.
    apply (line_zero (fun i => e k j i)); [assumption|]. unfold e. rewrite (proj1 (bc_x1 g b u k j G Hk Hj)), (proj2 (bc_x1 g b u k j G Hk Hj)), !bc_cell by (unfold cell; lia). apply ghosts_balance; assumption. }
  assert (B : sum (map (fun k => sum (map (fun j => sum (map (fun i => (e k (j + 1)%Z i - 2 * e k j i + e k (j - 1)%Z i) / (dx g)²) (upto 1 (gx g)))) (upto 1 (gy g)))) (upto 1 (gz g))) = 0).
  { rewrite (sum_ext Z _ (fun _ => 0)); [apply sum_zero|]. intros k Hk. apply in_upto in Hk. rewrite sum_swap. rewrite (sum_ext Z _ (fun _ => 0)); [apply sum_zero|]. intros i Hi. apply in_upto in Hi.
    apply (line_zero (fun j => e k j i)); [assumption|]. unfold e. rewrite (proj1 (bc_x2 g b u k i G Hk Hi)), (proj2 (bc_x2 g b u k i G Hk Hi)), !bc_cell by (unfold cell; lia). apply ghosts_balance; assumption. }
  assert (C : sum (map (fun k => sum (map (fun j => sum (map (fun i => (e (k + 1)%Z j i - 2 * e k j i + e (k - 1)%Z j i) / (dx g)²) (upto 1 (gx g)))) (upto 1 (gy g)))) (upto 1 (gz g))) = 0).
  { rewrite sum_swap. rewrite (sum_ext Z _ (fun _ => 0)); [apply sum_zero|]. intros j Hj. apply in_upto in Hj. rewrite sum_swap. rewrite (sum_ext Z _ (fun _ => 0)); [apply sum_zero|]. intros i Hi. apply in_upto in Hi.
    apply (line_zero (fun k => e k j i)); [assumption|]. unfold e. rewrite (proj1 (bc_x3 g b u j i G Hj Hi)), (proj2 (bc_x3 g b u j i G Hj Hi)), !bc_cell by (unfold cell; lia). apply ghosts_balance; assumption. }
  rewrite A, B, C. ring.
Qed.
Lemma defect_total : forall g b u src d, good_grid g -> neutral b = true -> paired b -> CalculateTotal g (CalculateDefect g (ApplyPhysicalBoundaries g b u) src d) = CalculateTotal g src.
Proof.
  intros g b u src d G Hn Hp. rewrite !total_integral. unfold integral_. f_equal.
  rewrite (gsum_ext g _ (fun k j i => src k j i + (-1) * laplacian g (ApplyPhysicalBoundaries g b u) k j i)) by (intros; rewrite defect_eq by assumption; ring).
  rewrite gsum_plus, gsum_scale, laplacian_total by assumption. ring.
Qed.
Lemma subtract_total : forall g u, good_grid g -> CalculateTotal g (SubtractAverage g (CalculateTotal g u / volume g) u) = 0.
Proof.
  intros g u G. set (a := CalculateTotal g u / volume g). rewrite total_integral. unfold integral_.
  rewrite (gsum_ext g _ (fun k j i => u k j i + (- a))) by (intros; unfold SubtractAverage; rewrite boxed_cell by assumption; ring).
  rewrite (gsum_plus g u (fun _ _ _ => - a)), gsum_const by assumption. unfold a. rewrite total_integral. unfold integral_, volume. pose proof (volume_pos g G) as V. unfold volume in V.
  destruct G as [(G1 & G2 & G3) G4]. apply IZR_le in G1, G2, G3. field. repeat apply conj; intro X0; lra.
Qed.

(** *** Uniqueness *)
Definition cells_of (g : grid) : list (Z * Z * Z) := flat_map (fun k => flat_map (fun j => map (fun i => (k, j, i)) (upto 1 (gx g))) (upto 1 (gy g))) (upto 1 (gz g)).
Lemma in_cells_of : forall g k j i, In (k, j, i) (cells_of g) <-> cell g k j i.
Proof.
  intros; unfold cells_of, cell; rewrite in_flat_map; split.
  - intros (k' & Hk & H). apply in_flat_map in H. destruct H as (j' & Hj & H). apply in_map_iff in H. destruct H as (i' & E & Hi). injection E as -> -> ->. apply in_upto in Hk, Hj, Hi. lia.
  - intros H. exists k. split; [apply in_upto; lia|]. apply in_flat_map. exists j. split; [apply in_upto; lia|]. apply in_map. apply in_upto; lia.
Qed.
Lemma list_max : forall A (f : A -> R) l, l <> [] -> exists p, In p l /\ forall q, In q l -> f q <= f p.
Proof.
  intros A f l; induction l as [|a l IH]; intros H; [contradiction|]. destruct l as [|b l].
  - exists a. split; [left; reflexivity|]. intros q [<-|[]]. apply Rle_refl.
  - destruct IH as (p & Hp & Hm); [discriminate|]. destruct (Rle_dec (f p) (f a)) as [L|L].
    + exists a. split; [left; reflexivity|]. intros q [<-|Hq]; [apply Rle_refl | eapply Rle_trans; [apply Hm; assumption | assumption]].
    + exists p. split; [right; assumption|]. intros q [<-|Hq]; [lra | apply Hm; assumption].
Qed.
Lemma grid_max : forall g (f : arr), good_grid g -> exists k j i, cell g k j i /\ forall k' j' i', cell g k' j' i' -> f k' j' i' <= f k j i.
Proof.
  intros g f [G _]. destruct (list_max _ (fun p => f (fst (fst p)) (snd (fst p)) (snd p)) (cells_of g)) as ([[k j] i] & Hp & Hm).
  - intro X. assert (Y : In (1%Z, 1%Z, 1%Z) (cells_of g)) by (apply in_cells_of; unfold cell; lia). rewrite X in Y. destruct Y.
  - exists k, j, i. split; [apply in_cells_of; assumption|]. intros k' j' i' Hc. apply (Hm (k', j', i')). apply in_cells_of; assumption.
Qed.
Lemma spread1 : forall (P : Z -> Prop) a b x0, (a <= x0 <= b)%Z -> P x0 -> (forall x, (a <= x <= b)%Z -> P x -> ((x + 1 <= b)%Z -> P (x + 1)%Z) /\ ((a <= x - 1)%Z -> P (x - 1)%Z)) -> forall x, (a <= x <= b)%Z -> P x.
Proof.
  intros P a b x0 H0 P0 St.
  assert (U : forall n, (x0 + Z.of_nat n <= b)%Z -> P (x0 + Z.of_nat n)%Z).
  { induction n as [|n IH]; intros H; [replace (x0 + Z.of_nat 0)%Z with x0 by lia; assumption|].
    replace (x0 + Z.of_nat (S n))%Z with (x0 + Z.of_nat n + 1)%Z by lia. apply St; [lia | apply IH; lia | lia]. }
  assert (D : forall n, (a <= x0 - Z.of_nat n)%Z -> P (x0 - Z.of_nat n)%Z).
  { induction n as [|n IH]; intros H; [replace (x0 - Z.of_nat 0)%Z with x0 by lia; assumption|].
    replace (x0 - Z.of_nat (S n))%Z with (x0 - Z.of_nat n - 1)%Z by lia. apply St; [lia | apply IH; lia | lia]. }
  intros x Hx. destruct (Z_le_dec x0 x).
  - replace x with (x0 + Z.of_nat (Z.to_nat (x - x0)))%Z by lia. apply U; lia.
  - replace x with (x0 - Z.of_nat (Z.to_nat (x0 - x)))%Z by lia. apply D; lia.
Qed.
Definition next_to (k j i k' j' i' : Z) : Prop := (k', j', i') = (k + 1, j, i)%Z \/ (k', j', i') = (k - 1, j, i)%Z \/ (k', j', i') = (k, j + 1, i)%Z \/ (k', j', i') = (k, j - 1, i)%Z \/ (k', j', i') = (k, j, i + 1)%Z \/ (k', j', i') = (k, j, i - 1)%Z.
(** A harmonic array that attains its bound in a cell has that value in every cell and in every ghost cell behind a face. *)
Lemma harmonic_max : forall g (e : arr) M k0 j0 i0, good_grid g -> (forall k j i, cell g k j i -> laplacian g e k j i = 0) ->
  (forall k j i k' j' i', cell g k j i -> next_to k j i k' j' i' -> e k' j' i' <= M) -> cell g k0 j0 i0 -> e k0 j0 i0 = M ->
  (forall k j i, cell g k j i -> e k j i = M) /\ (forall k j i k' j' i', cell g k j i -> next_to k j i k' j' i' -> e k' j' i' = M).
Proof.
  intros g e M k0 j0 i0 G L B C0 E0.
  assert (St : forall k j i k' j' i', cell g k j i -> e k j i = M -> next_to k j i k' j' i' -> e k' j' i' = M).
  { intros k j i k' j' i' Hc E N. specialize (L k j i Hc). unfold laplacian, Rsqr in L. destruct G as [_ G].
    assert (S : (e k j (i + 1)%Z + e k j (i - 1)%Z + e k (j + 1)%Z i + e k (j - 1)%Z i + e (k + 1)%Z j i + e (k - 1)%Z j i - 6 * M) = 0).
    { rewrite E in L. apply Rmult_eq_reg_r with (/ (dx g * dx g)); [|apply Rinv_neq_0_compat; intro X0; nra]. rewrite Rmult_0_l, <- L. field. lra. }
    pose proof (B k j i (k + 1)%Z j i Hc ltac:(unfold next_to; tauto)). pose proof (B k j i (k - 1)%Z j i Hc ltac:(unfold next_to; tauto)).
    pose proof (B k j i k (j + 1)%Z i Hc ltac:(unfold next_to; tauto)). pose proof (B k j i k (j - 1)%Z i Hc ltac:(unfold next_to; tauto)).
    pose proof (B k j i k j (i + 1)%Z Hc ltac:(unfold next_to; tauto)). pose proof (B k j i k j (i - 1)%Z Hc ltac:(unfold next_to; tauto)).
    destruct N as [X|[X|[X|[X|[X|X]]]]]; injection X as -> -> ->; lra. }
  assert (A : forall k j i, cell g k j i -> e k j i = M).
  { assert (A1 : forall k, (1 <= k <= gz g)%Z -> e k j0 i0 = M).
    { unfold cell in C0. apply (spread1 (fun k => e k j0 i0 = M) 1 (gz g) k0); [lia | assumption|]. intros x Hx Ex. split; intros; eapply St; try exact Ex; try (unfold cell; lia); unfold next_to; tauto. }
    assert (A2 : forall k j, (1 <= k <= gz g)%Z -> (1 <= j <= gy g)%Z -> e k j i0 = M).
    { intros k j Hk. revert j. unfold cell in C0. apply (spread1 (fun j => e k j i0 = M) 1 (gy g) j0); [lia | apply A1; assumption|]. intros x Hx Ex. split; intros; eapply St; try exact Ex; try (unfold cell; lia); unfold next_to; tauto. }
    intros k j i (Hk & Hj & Hi). revert i Hi. unfold cell in C0. apply (spread1 (fun i => e k j i = M) 1 (gx g) i0); [lia | apply A2; assumption|]. intros x Hx Ex. split; intros; eapply St; try exact Ex; try (unfold cell; lia); unfold next_to; tauto. }
  split; [assumption|]. intros k j i k' j' i' Hc N. apply (St k j i); [assumption | apply A; assumption | assumption].
Qed.
Lemma ghost_difference : forall b n f n' f' a c M, Rabs (n - n') <= M -> Rabs (f - f') <= M -> Rabs (ghost b n f a c - ghost b n' f' a c) <= M.
Proof. intros [] n f n' f' a c M H1 H2; cbn [ghost]; try assumption; [replace (- n - - n') with (- (n - n')) by ring | replace (2 * phi a c - n - (2 * phi a c - n')) with (- (n - n')) by ring]; rewrite Rabs_Ropp; assumption. Qed.
Lemma bc_difference : forall g b u v M, good_grid g -> (forall k j i, cell g k j i -> Rabs (u k j i - v k j i) <= M) ->
  forall k j i k' j' i', cell g k j i -> next_to k j i k' j' i' -> Rabs (ApplyPhysicalBoundaries g b u k' j' i' - ApplyPhysicalBoundaries g b v k' j' i') <= M.
Proof.
  intros g b u v M G H k j i k' j' i' Hc N. pose proof Hc as (Hk & Hj & Hi). pose proof G as [(G1 & G2 & G3) _].
  assert (W : cell g k' j' i' \/ (k' = k /\ j' = j /\ (i' = 0 \/ i' = gx g + 1))%Z \/ (k' = k /\ i' = i /\ (j' = 0 \/ j' = gy g + 1))%Z \/ (j' = j /\ i' = i /\ (k' = 0 \/ k' = gz g + 1))%Z).
  { unfold cell. destruct N as [X|[X|[X|[X|[X|X]]]]]; injection X as -> -> ->; lia. }
  destruct W as [W|[(-> & -> & [->| ->])|[(-> & -> & [->| ->])|(-> & -> & [->| ->])]]].
  - rewrite !bc_cell by assumption. apply H; assumption.
  - rewrite !(proj1 (bc_x1 g b _ k j G Hk Hj)). apply ghost_difference; apply H; unfold cell; lia.
  - rewrite !(proj2 (bc_x1 g b _ k j G Hk Hj)). apply ghost_difference; apply H; unfold cell; lia.
  - rewrite !(proj1 (bc_x2 g b _ k i G Hk Hi)). apply ghost_difference; apply H; unfold cell; lia.
  - rewrite !(proj2 (bc_x2 g b _ k i G Hk Hi)). apply ghost_difference; apply H; unfold cell; lia.
  - rewrite !(proj1 (bc_x3 g b _ j i G Hj Hi)). apply ghost_difference; apply H; unfold cell; lia.
  - rewrite !(proj2 (bc_x3 g b _ j i G Hj Hi)). apply ghost_difference; apply H; unfold cell; lia.
Qed.
Lemma fixed_difference : forall b n f n' f' a c, neutral1 b = false -> ghost b n f a c - ghost b n' f' a c = - (n - n').
Proof. intros [] n f n' f' a c H; cbn [ghost]; try discriminate H; ring. Qed.
Lemma laplacian_minus : forall g u v k j i, laplacian g (fun k j i => u k j i - v k j i) k j i = laplacian g u k j i - laplacian g v k j i.
Proof. intros; unfold laplacian, Rdiv; ring. Qed.
Lemma unique_signed : forall g b src u v k0 j0 i0, good_grid g -> solution g b src u -> solution g b src v -> cell g k0 j0 i0 ->
  (forall k j i, cell g k j i -> Rabs (u k j i - v k j i) <= u k0 j0 i0 - v k0 j0 i0) ->
  (forall k j i, cell g k j i -> u k j i - v k j i = u k0 j0 i0 - v k0 j0 i0) /\ (neutral b = false -> u k0 j0 i0 - v k0 j0 i0 = 0).
Proof.
  intros g b src u v k0 j0 i0 G Su Sv C0 Mx. apply solution_bc in Su, Sv; try assumption. set (M := u k0 j0 i0 - v k0 j0 i0) in *.
  set (e := fun k j i => ApplyPhysicalBoundaries g b u k j i - ApplyPhysicalBoundaries g b v k j i).
  destruct (harmonic_max g e M k0 j0 i0 G) as [A1 A2].
  - intros k j i Hc. unfold e. rewrite laplacian_minus, (Su k j i Hc), (Sv k j i Hc). ring.
  - intros k j i k' j' i' Hc N. pose proof (bc_difference g b u v M G Mx k j i k' j' i' Hc N) as Q. fold (e k' j' i') in Q. eapply Rle_trans; [apply Rle_abs | exact Q].
  - assumption.
  - unfold e. rewrite !bc_cell by assumption. reflexivity.
  - assert (U : forall k j i, cell g k j i -> u k j i - v k j i = M) by (intros k j i Hc; rewrite <- (A1 k j i Hc); unfold e; rewrite !bc_cell by assumption; reflexivity).
    split; [assumption|]. intros Hn. pose proof G as [(G1 & G2 & G3) _].
    assert (Q : exists r, r = M /\ r = - M).
    { unfold neutral in Hn. rewrite !andb_false_iff in Hn. destruct Hn as [[[[[Hn|Hn]|Hn]|Hn]|Hn]|Hn].
      - exists (e 1 1 0)%Z. split; [apply (A2 1 1 1 1 1 0)%Z; unfold cell, next_to; (lia || tauto)|]. unfold e. rewrite !(proj1 (bc_x1 g b _ 1 1 G ltac:(lia) ltac:(lia)))%Z. rewrite fixed_difference by assumption. rewrite U by (unfold cell; lia). reflexivity.
      - exists (e 1 1 (gx g + 1))%Z. split; [apply (A2 1 1 (gx g) 1 1 (gx g + 1))%Z; unfold cell, next_to; (lia || tauto)|]. unfold e. rewrite !(proj2 (bc_x1 g b _ 1 1 G ltac:(lia) ltac:(lia)))%Z. rewrite fixed_difference by assumption. rewrite U by (unfold cell; lia). reflexivity.
      - exists (e 1 0 1)%Z. split; [apply (A2 1 1 1 1 0 1)%Z; unfold cell, next_to; (lia || tauto)|]. unfold e. rewrite !(proj1 (bc_x2 g b _ 1 1 G ltac:(lia) ltac:(lia)))%Z. rewrite fixed_difference by assumption. rewrite U by (unfold cell; lia). reflexivity.
      - exists (e 1 (gy g + 1) 1)%Z. split; [apply (A2 1 (gy g) 1 1 (gy g + 1) 1)%Z; unfold cell, next_to; (lia || tauto)|]. unfold e. rewrite !(proj2 (bc_x2 g b _ 1 1 G ltac:(lia) ltac:(lia)))%Z. rewrite fixed_difference by assumption. rewrite U by (unfold cell; lia). reflexivity.
      - exists (e 0 1 1)%Z. split; [apply (A2 1 1 1 0 1 1)%Z; unfold cell, next_to; (lia || tauto)|]. unfold e. rewrite !(proj1 (bc_x3 g b _ 1 1 G ltac:(lia) ltac:(lia)))%Z. rewrite fixed_difference by assumption. rewrite U by (unfold cell; lia). reflexivity.
      - exists (e (gz g + 1) 1 1)%Z. split; [apply (A2 (gz g) 1 1 (gz g + 1) 1 1)%Z; unfold cell, next_to; (lia || tauto)|]. unfold e. rewrite !(proj2 (bc_x3 g b _ 1 1 G ltac:(lia) ltac:(lia)))%Z. rewrite fixed_difference by assumption. rewrite U by (unfold cell; lia). reflexivity. }
    destruct Q as (r & Q1 & Q2). lra.
Qed.
Lemma unique : forall g b src u v, good_grid g -> solution g b src u -> solution g b src v ->
  exists a, (a = 0 \/ neutral b = true) /\ forall k j i, cell g k j i -> u k j i = v k j i + a.
Proof.
  intros g b src u v G Su Sv. destruct (grid_max g (fun k j i => Rabs (u k j i - v k j i)) G) as (k0 & j0 & i0 & C0 & Mx).
  destruct (Rle_dec 0 (u k0 j0 i0 - v k0 j0 i0)) as [S|S].
  - rewrite (Rabs_right (u k0 j0 i0 - v k0 j0 i0)) in Mx by lra. destruct (unique_signed g b src u v k0 j0 i0 G Su Sv C0 Mx) as [A1 A2].
    exists (u k0 j0 i0 - v k0 j0 i0). split; [destruct (neutral b); [right; reflexivity | left; apply A2; reflexivity]|]. intros k j i Hc. rewrite <- (A1 k j i Hc). ring.
  - assert (Mx' : forall k j i, cell g k j i -> Rabs (v k j i - u k j i) <= v k0 j0 i0 - u k0 j0 i0).
    { intros k j i Hc. rewrite Rabs_minus_sym. eapply Rle_trans; [apply Mx; assumption|]. rewrite (Rabs_left (u k0 j0 i0 - v k0 j0 i0)) by lra. lra. }
    destruct (unique_signed g b src v u k0 j0 i0 G Sv Su C0 Mx') as [A1 A2].
    exists (- (v k0 j0 i0 - u k0 j0 i0)). split; [destruct (neutral b); [right; reflexivity | left; rewrite A2 by reflexivity; ring]|]. intros k j i Hc. rewrite <- (A1 k j i Hc). ring.
Qed.

(** *** Numbers of levels *)
Lemma fold_last : forall (P : nat -> bool) len a n0, (n0 <= a)%nat ->
  let r := fold_left (fun n l => if P l then S l else n) (seq a len) n0 in
  (r = n0 \/ exists l, (a <= l < a + len)%nat /\ P l = true /\ r = S l) /\ (n0 <= r)%nat /\ (forall l, (a <= l < a + len)%nat -> P l = true -> (S l <= r)%nat).
Proof.
  intros P; induction len as [|len IH]; intros a n0 H; cbn [seq fold_left]; cbv zeta.
  - split; [left; reflexivity|]. split; [lia | intros; lia].
  - destruct (P a) eqn:E.
    + destruct (IH (S a) (S a) ltac:(lia)) as (I1 & I2 & I3). split; [|split].
      * right. destruct I1 as [->|(l & Hl & Pl & ->)]; [exists a; repeat split; (assumption || lia) | exists l; repeat split; (assumption || lia)].
      * lia.
      * intros l Hl Pl. destruct (Nat.eq_dec l a) as [->|N]; [lia | apply I3; [lia | assumption]].
    + destruct (IH (S a) n0 ltac:(lia)) as (I1 & I2 & I3). split; [|split].
      * destruct I1 as [->|(l & Hl & Pl & ->)]; [left; reflexivity | right; exists l; repeat split; (assumption || lia)].
      * lia.
      * intros l Hl Pl. destruct (Nat.eq_dec l a) as [->|N]; [congruence | apply I3; [lia | assumption]].
Qed.
Lemma root_levels_spec : forall n1 n2 n3, (0 < n1)%Z -> (0 < n2)%Z -> (0 < n3)%Z ->
  (1 <= root_levels n1 n2 n3 <= 20)%nat /\ divisible (mkGr n1 n2 n3 1) (root_levels n1 n2 n3) /\
  (forall l, (l < 20)%nat -> divisible (mkGr n1 n2 n3 1) (S l) -> (S l <= root_levels n1 n2 n3)%nat).
Proof.
  intros n1 n2 n3 H1 H2 H3. unfold root_levels.
  pose proof (fold_last (fun l => Z.eqb (n1 mod 2 ^ Z.of_nat l) 0 && Z.eqb (n2 mod 2 ^ Z.of_nat l) 0 && Z.eqb (n3 mod 2 ^ Z.of_nat l) 0) 20 0 0 (le_n 0)) as F. cbv zeta in F.
  set (r := fold_left _ (seq 0 20) 0%nat) in *. destruct F as (F1 & F2 & F3).
  assert (P0 : (1 <= r)%nat) by (apply (F3 0%nat); [lia | cbn [Z.of_nat]; rewrite Z.pow_0_r, !Z.mod_1_r; reflexivity]).
  destruct F1 as [F1|(l & Hl & Pl & F1)]; [lia|]. rewrite !andb_true_iff, !Z.eqb_eq in Pl. destruct Pl as ((Q1 & Q2) & Q3).
  assert (Pp : (2 ^ Z.of_nat l <> 0)%Z) by (apply Z.pow_nonzero; lia).
  split; [lia|]. split.
  - unfold divisible; cbn [gx gy gz]. replace (r - 1)%nat with l by lia. repeat split; apply Z.mod_divide; assumption.
  - intros m Hm (D1 & D2 & D3). cbn [gx gy gz] in D1, D2, D3. replace (S m - 1)%nat with m in D1, D2, D3 by lia. apply F3; [lia|].
    assert (Pm : (2 ^ Z.of_nat m <> 0)%Z) by (apply Z.pow_nonzero; lia). rewrite !andb_true_iff, !Z.eqb_eq. repeat split; apply Z.mod_divide; assumption.
Qed.
Lemma block_levels_spec : forall n nb, block_levels n = Some nb -> (1 <= nb)%nat /\ n = (2 ^ Z.of_nat (nb - 1))%Z.
Proof.
  intros n nb H. unfold block_levels in H. destruct (find _ _) as [l|] eqn:E; [|discriminate H]. apply find_some in E. destruct E as [_ E]. apply Z.eqb_eq in E. cbn [option_map] in H. injection H as <-.
  split; [lia|]. replace (S l - 1)%nat with l by lia. symmetry; assumption.
Qed.
Lemma levels_divisible : forall n1 n2 n3 nx nb h, (0 < n1)%Z -> (0 < n2)%Z -> (0 < n3)%Z -> block_levels nx = Some nb ->
  divisible (mkGr (n1 * nx) (n2 * nx) (n3 * nx) h) (root_levels n1 n2 n3 + nb - 1).
Proof.
  intros n1 n2 n3 nx nb h H1 H2 H3 Hb. apply block_levels_spec in Hb. destruct Hb as [Hb ->]. destruct (root_levels_spec n1 n2 n3 H1 H2 H3) as (R1 & (D1 & D2 & D3) & _). cbn [gx gy gz] in *.
  unfold divisible; cbn [gx gy gz]. replace (Z.of_nat (root_levels n1 n2 n3 + nb - 1 - 1)) with (Z.of_nat (root_levels n1 n2 n3 - 1) + Z.of_nat (nb - 1))%Z by lia. rewrite Z.pow_add_r by lia.
  repeat split; apply Z.mul_divide_mono_r; assumption.
Qed.

(** *** Iteration *)
Lemma iterate_spec : forall (St : Type) (cycle : St -> St) (norm : St -> R) eps fuel n def s, (0 <= n <= 101)%Z -> (Z.of_nat fuel + n = 102)%Z -> def = norm s ->
  exists m s' e, (m <= fuel)%nat /\ iterate cycle norm eps fuel n def s = Some (s', e) /\ s' = times m cycle s /\
    match e with
    | Converged => norm s' <= eps
    | Saturated => eps = 0 /\ exists p, m = S p /\ norm s' / norm (times p cycle s) > 9 / 10
    | Diverging => exists p, m = S p /\ norm s' / norm (times p cycle s) > 1
    | TooMany => m = fuel
    end.
Proof.
  intros St cycle norm eps fuel; induction fuel as [|fuel IH]; intros n def s Hn Hf Hd; [lia|]. cbn [iterate].
  destruct (Rlt_dec eps def) as [L|L].
  - cbv zeta. set (s1 := cycle s). set (def1 := norm s1).
    assert (B : exists e, (if (if Rlt_dec (9 / 10) (def1 / def) then true else false) && (if Req_EM_T eps 0 then true else false) then Some (s1, Saturated)
        else if (if Rlt_dec (9 / 10) (def1 / def) then true else false) && (if Rlt_dec 1 (def1 / def) then true else false) then Some (s1, Diverging)
        else if Z.ltb 100 n then Some (s1, TooMany) else None) = e /\ match e with
          | Some (_, Converged) => False
          | Some (s', Saturated) => s' = s1 /\ eps = 0 /\ norm s' / norm s > 9 / 10
          | Some (s', Diverging) => s' = s1 /\ norm s' / norm s > 1
          | Some (s', TooMany) => s' = s1 /\ (100 < n)%Z
          | None => (n <= 100)%Z end).
    { eexists; split; [reflexivity|]. unfold def1 in *. rewrite Hd. destruct (Rlt_dec (9 / 10) (norm s1 / norm s)) as [R1|R1], (Req_EM_T eps 0) as [R2|R2], (Rlt_dec 1 (norm s1 / norm s)) as [R3|R3]; cbn [andb]; try (repeat split; (assumption || lra)); destruct (Z.ltb_spec 100 n); repeat split; (assumption || lia). }
    destruct ((if Rlt_dec (9 / 10) (def1 / def) then true else false) && (if Req_EM_T eps 0 then true else false)) eqn:T1.
    { destruct B as (e & <- & B). destruct B as (_ & B1 & B2). exists 1%nat, s1, Saturated. repeat split; try lia; try assumption. exists 0%nat. split; [reflexivity | exact B2]. }
    destruct ((if Rlt_dec (9 / 10) (def1 / def) then true else false) && (if Rlt_dec 1 (def1 / def) then true else false)) eqn:T2.
    { destruct B as (e & <- & B). destruct B as (_ & B2). exists 1%nat, s1, Diverging. repeat split; try lia; try assumption. exists 0%nat. split; [reflexivity | exact B2]. }
    destruct (Z.ltb 100 n) eqn:T3.
    { apply Z.ltb_lt in T3. exists 1%nat, s1, TooMany. repeat split; lia. }
    apply Z.ltb_ge in T3. destruct (IH (n + 1)%Z def1 s1) as (m & s' & e & M1 & M2 & M3 & M4); [lia | lia | reflexivity|].
    exists (S m), s', e. split; [lia|]. split; [exact M2|]. split; [exact M3|].
    destruct e; try assumption.
    + destruct M4 as (E0 & p & -> & Q). split; [assumption|]. exists (S p). split; [reflexivity | exact Q].
    + destruct M4 as (p & -> & Q). exists (S p). split; [reflexivity | exact Q].
    + lia.
  - exists 0%nat, s, Converged. split; [lia|]. split; [reflexivity|]. split; [reflexivity|]. rewrite Hd in L. lra.
Qed.
