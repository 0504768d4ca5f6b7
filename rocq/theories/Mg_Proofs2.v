(** Proofs for C51, C69: the smoother, the defect and the boundary conditions. *)
From Coq Require Import Reals ZArith List Bool Permutation Lra Lia FunctionalExtensionality.
From Verif Require Import Fv_Model Fv_Spec Fv_Proofs2 Mg_Model Mg_Spec Mg_Proofs.
Import ListNotations.
Local Open Scope R_scope.

(** *** The defect *)
Lemma stencil_laplacian : forall g u k j i, good_grid g -> stencil u k j i = - laplacian g u k j i * (dx g * dx g).
Proof. intros g u k j i [_ H]; unfold stencil, laplacian, Rsqr; field; lra. Qed.
Lemma defect_eq : forall g u src d k j i, good_grid g -> cell g k j i -> CalculateDefect g u src d k j i = src k j i - laplacian g u k j i.
Proof.
  intros g u src d k j i G H; unfold CalculateDefect; rewrite (inside_true _ _ _ _ H), (stencil_laplacian g) by assumption.
  destruct G as [_ G]; field; lra.
Qed.
Lemma residual_eq : forall g u src k j i, good_grid g -> stencil u k j i + src k j i * (dx g * dx g) = (src k j i - laplacian g u k j i) * (dx g * dx g).
Proof. intros g u src k j i G; rewrite (stencil_laplacian g) by assumption; ring. Qed.
Lemma fasrhs_eq : forall g u src k j i, good_grid g -> cell g k j i -> CalculateFASRHS g u src k j i = src k j i + laplacian g u k j i.
Proof.
  intros g u src k j i G H; unfold CalculateFASRHS; rewrite (inside_true _ _ _ _ H), (stencil_laplacian g) by assumption.
  destruct G as [_ G]; field; lra.
Qed.
Lemma laplacian_shift : forall g u v a k j i, cell g k j i -> (forall k j i, in_array g k j i -> u k j i = v k j i + a) -> laplacian g u k j i = laplacian g v k j i.
Proof.
  intros g u v a k j i Hc H; unfold laplacian. unfold cell, in_array in *. rewrite !H by lia.
  f_equal; [f_equal|]; f_equal; ring.
Qed.

(** *** One sweep *)
Lemma in_by2 : forall a b x, In x (by2 a b) <-> (a <= x <= b)%Z /\ Z.even (x - a) = true.
Proof.
  intros a b x; unfold by2; rewrite in_map_iff; split.
  - intros (n & <- & Hn). apply in_seq in Hn. split.
    + pose proof (Z.mul_div_le (b - a) 2 ltac:(lia)). lia.
    + replace (a + 2 * Z.of_nat n - a)%Z with (2 * Z.of_nat n)%Z by lia. rewrite Z.even_mul; reflexivity.
  - intros [H E]. apply Z.even_spec in E. destruct E as [m E]. exists (Z.to_nat m). split; [lia|]. apply in_seq.
    assert (m <= (b - a) / 2)%Z by (apply Z.div_le_lower_bound; lia). lia.
Qed.
Lemma land1 : forall z, Z.land z 1 = if Z.odd z then 1%Z else 0%Z.
Proof. intros z. change 1%Z with (Z.ones 1) at 1. rewrite Z.land_ones by lia. change (2 ^ 1)%Z with 2%Z. rewrite Zmod_odd. reflexivity. Qed.
Lemma in_sweep : forall g color k j i, In (k, j, i) (sweep_cells g color) <-> cell g k j i /\ Z.odd (color + k + j + i) = true.
Proof.
  intros g color k j i; unfold sweep_cells; rewrite in_flat_map; split.
  - intros (k' & Hk & H). apply in_flat_map in H. destruct H as (j' & Hj & H). apply in_map_iff in H. destruct H as (i' & E & Hi). injection E as -> -> ->.
    apply in_upto in Hk, Hj. apply in_by2 in Hi. destruct Hi as [Hi E]. rewrite land1 in *. unfold cell.
    assert (0 <= (if Z.odd (color + k + j) then 1 else 0))%Z by (destruct (Z.odd _); lia).
    split; [repeat split; lia|]. rewrite Z.odd_add. destruct (Z.odd (color + k + j)).
    + replace (i - (1 + 1))%Z with (i - 2)%Z in E by lia. rewrite Z.even_sub in E. change (Z.even 2) with true in E. rewrite <- Z.negb_even. destruct (Z.even i); [reflexivity | discriminate E].
    + rewrite Z.add_0_r, Z.even_sub in E. change (Z.even 1) with false in E. rewrite <- Z.negb_even. destruct (Z.even i); [discriminate E | reflexivity].
  - intros [H O]. unfold cell in H. exists k. split; [apply in_upto; lia|]. apply in_flat_map. exists j. split; [apply in_upto; lia|]. apply in_map. apply in_by2. rewrite land1.
    rewrite Z.odd_add in O. rewrite <- (Z.negb_even i) in O. destruct (Z.odd (color + k + j)).
    + destruct (Z.even i) eqn:E; [|discriminate O]. split.
      * apply Z.even_spec in E. destruct E as [m E]. lia.
      * rewrite Z.even_sub, E. reflexivity.
    + destruct (Z.even i) eqn:E; [discriminate O|]. split; [lia|]. rewrite Z.add_0_r, Z.even_sub, E. reflexivity.
Qed.
Lemma nodup_flat : forall A B (f : A -> list B) (key : B -> A) l, NoDup l -> (forall a, In a l -> NoDup (f a)) -> (forall a b, In a l -> In b (f a) -> key b = a) -> NoDup (flat_map f l).
Proof.
  intros A B f key l; induction l as [|a l IH]; intros ND Hf Hk; [constructor|]. cbn [flat_map]. inversion ND as [|? ? Ha ND']; subst.
  assert (IH' : NoDup (flat_map f l)) by (apply IH; [assumption | intros; apply Hf; right; assumption | intros; apply Hk; [right; assumption | assumption]]).
  assert (Ff : NoDup (f a)) by (apply Hf; left; reflexivity).
  assert (D : forall b, In b (f a) -> ~ In b (flat_map f l)).
  { intros b Hb Hl. apply in_flat_map in Hl. destruct Hl as (a' & Ha' & Hb'). apply Ha. rewrite <- (Hk a b (or_introl eq_refl) Hb), (Hk a' b (or_intror Ha') Hb'). assumption. }
  clear -IH' Ff D. induction (f a) as [|b fb IHb]; [assumption|]. cbn [app]. inversion Ff; subst. constructor.
  - intro X. apply in_app_or in X. destruct X as [X|X]; [contradiction | apply (D b (or_introl eq_refl) X)].
  - apply IHb; [assumption | intros; apply D; right; assumption].
Qed.
Lemma nodup_map_inj : forall A B (f : A -> B) l, (forall x y, f x = f y -> x = y) -> NoDup l -> NoDup (map f l).
Proof. intros A B f l H ND; induction ND as [|x l Hx ND IH]; [constructor|]. cbn [map]; constructor; [|assumption]. intro X. apply in_map_iff in X. destruct X as (y & E & Hy). apply H in E. subst; contradiction. Qed.
Lemma nodup_upto : forall a b, NoDup (upto a b).
Proof. intros; unfold upto; apply nodup_map_inj; [intros; lia | apply seq_NoDup]. Qed.
Lemma nodup_sweep : forall g color, NoDup (sweep_cells g color).
Proof.
  intros; unfold sweep_cells. apply nodup_flat with (key := fun p => fst (fst p)); [apply nodup_upto | | ].
  - intros k _. apply nodup_flat with (key := fun p => snd (fst p)); [apply nodup_upto | |].
    + intros j _. apply nodup_map_inj; [intros x y E; injection E; auto|]. unfold by2. apply nodup_map_inj; [intros; lia | apply seq_NoDup].
    + intros j b _ Hb. apply in_map_iff in Hb. destruct Hb as (i & <- & _). reflexivity.
  - intros k b _ Hb. apply in_flat_map in Hb. destruct Hb as (j & _ & Hb). apply in_map_iff in Hb. destruct Hb as (i & <- & _). reflexivity.
Qed.

(** The value of a cell after its update. *)
Definition relaxed (om dx2 : R) (src u : arr) (k j i : Z) : R := u k j i - (stencil u k j i + src k j i * dx2) * (om / 6).
Lemma relax_same : forall om dx2 src u k j i, relax om dx2 src u (k, j, i) k j i = relaxed om dx2 src u k j i.
Proof. intros; unfold relax, put, relaxed; rewrite !Z.eqb_refl; reflexivity. Qed.
Lemma relax_other : forall om dx2 src u k j i k' j' i', (k', j', i') <> (k, j, i) -> relax om dx2 src u (k, j, i) k' j' i' = u k' j' i'.
Proof.
  intros om dx2 src u k j i k' j' i' H; unfold relax, put. destruct (Z.eqb_spec k' k), (Z.eqb_spec j' j), (Z.eqb_spec i' i); cbn [andb]; try reflexivity. exfalso; apply H; congruence.
Qed.
(** Cells of one colour do not read one another. *)
Definition coloured (par : bool) (l : list (Z * Z * Z)) : Prop := forall k j i, In (k, j, i) l -> Z.odd (k + j + i) = par.
Lemma sweep_coloured : forall g color, coloured (negb (Z.odd color)) (sweep_cells g color).
Proof.
  intros g color k j i H. apply in_sweep in H. destruct H as [_ H]. replace (color + k + j + i)%Z with (color + (k + j + i))%Z in H by lia.
  rewrite Z.odd_add in H. destruct (Z.odd color), (Z.odd (k + j + i)); (reflexivity || discriminate H).
Qed.
Lemma relaxed_unaffected : forall om dx2 src u k j i k' j' i', Z.odd (k + j + i) = Z.odd (k' + j' + i') -> (k', j', i') <> (k, j, i) ->
  relaxed om dx2 src (relax om dx2 src u (k, j, i)) k' j' i' = relaxed om dx2 src u k' j' i'.
Proof.
  intros om dx2 src u k j i k' j' i' P N. unfold relaxed, stencil.
  assert (Q : forall a b c, (a + b + c = k' + j' + i' + 1 \/ a + b + c = k' + j' + i' - 1)%Z -> (a, b, c) <> (k, j, i)).
  { intros a b c H E. injection E as -> -> ->. rewrite (Z.add_comm) in P. destruct H as [H|H].
    - replace (k' + j' + i' + 1)%Z with (1 + (k' + j' + i'))%Z in H by lia. rewrite Z.add_comm in P. rewrite H, Z.odd_add in P. destruct (Z.odd (k' + j' + i')); discriminate P.
    - replace (k' + j' + i' - 1)%Z with (-1 + (k' + j' + i'))%Z in H by lia. rewrite Z.add_comm in P. rewrite H, Z.odd_add in P. destruct (Z.odd (k' + j' + i')); discriminate P. }
  rewrite (relax_other _ _ _ _ _ _ _ k' j' i') by assumption. rewrite !relax_other by (apply Q; lia). reflexivity.
Qed.
Lemma fold_coloured : forall om dx2 src par l u, NoDup l -> coloured par l ->
  (forall k j i, In (k, j, i) l -> fold_left (relax om dx2 src) l u k j i = relaxed om dx2 src u k j i) /\
  (forall k j i, ~ In (k, j, i) l -> fold_left (relax om dx2 src) l u k j i = u k j i).
Proof.
  intros om dx2 src par l; induction l as [|[[k0 j0] i0] l IH]; intros u ND C; cbn [fold_left]; [split; [intros ? ? ? [] | reflexivity]|].
  inversion ND as [|? ? Hn ND']; subst. destruct (IH (relax om dx2 src u (k0, j0, i0)) ND') as [I1 I2]; [intros a b c H; apply C; right; assumption|]. split.
  - intros k j i [E|H].
    + injection E as <- <- <-. rewrite I2 by assumption. apply relax_same.
    + rewrite I1 by assumption. apply relaxed_unaffected.
      * rewrite (C k0 j0 i0 (or_introl eq_refl)), (C k j i (or_intror H)). reflexivity.
      * intro E. injection E as -> -> ->. contradiction.
  - intros k j i H. rewrite I2 by (intro; apply H; right; assumption). apply relax_other. intro E; apply H; left; congruence.
Qed.
Lemma point_dec : forall p q : Z * Z * Z, {p = q} + {p <> q}.
Proof. intros [[a b] c] [[a' b'] c']; destruct (Z.eq_dec a a'), (Z.eq_dec b b'), (Z.eq_dec c c'); subst; (left; reflexivity) || (right; congruence). Qed.
Lemma sweep_order : forall om dx2 src par l l' u, NoDup l -> coloured par l -> Permutation l l' -> fold_left (relax om dx2 src) l' u = fold_left (relax om dx2 src) l u.
Proof.
  intros om dx2 src par l l' u ND C P. destruct (fold_coloured om dx2 src par l u ND C) as [A B].
  destruct (fold_coloured om dx2 src par l' u) as [A' B']; [eapply Permutation_NoDup; eassumption | intros k j i H; apply C; eapply Permutation_in; [apply Permutation_sym; eassumption | assumption] |].
  extensionality k; extensionality j; extensionality i. destruct (in_dec point_dec (k, j, i) l) as [H|H].
  - rewrite A, A' by first [assumption | eapply Permutation_in; eassumption]. reflexivity.
  - rewrite B, B' by first [assumption | intro X; apply H; eapply Permutation_in; [apply Permutation_sym; eassumption | assumption]]. reflexivity.
Qed.
Lemma smooth_values : forall g om co color src u,
  (forall k j i, cell g k j i -> Z.odd (Z.lxor color co + k + j + i) = true -> Smooth g om co color src u k j i = relaxed om (dx g * dx g) src u k j i) /\
  (forall k j i, ~ (cell g k j i /\ Z.odd (Z.lxor color co + k + j + i) = true) -> Smooth g om co color src u k j i = u k j i).
Proof.
  intros. unfold Smooth. destruct (fold_coloured om (dx g * dx g) src _ (sweep_cells g (Z.lxor color co)) u (nodup_sweep _ _) (sweep_coloured _ _)) as [A B]. split; intros k j i.
  - intros Hc Ho. apply A. apply in_sweep. split; assumption.
  - intros H. apply B. rewrite in_sweep. assumption.
Qed.
(** A solution is not changed. *)
Lemma smooth_fixed : forall g om co color src u, good_grid g -> poisson g src u -> Smooth g om co color src u = u.
Proof.
  intros g om co color src u G P. destruct (smooth_values g om co color src u) as [A B].
  extensionality k; extensionality j; extensionality i.
  destruct (inside g k j i) eqn:E.
  - apply inside_iff in E. destruct (Z.odd (Z.lxor color co + k + j + i)) eqn:O.
    + rewrite A by assumption. unfold relaxed. rewrite (residual_eq g) by assumption. rewrite (P k j i E). ring.
    + apply B. rewrite O. intros [_ X]; discriminate X.
  - apply B. intros [X _]. apply inside_iff in X. congruence.
Qed.
(** The defect of an updated cell is multiplied by 1 - omega. *)
Lemma odd_step : forall z, Z.odd (z + 1) = negb (Z.odd z).
Proof. intros; rewrite Z.odd_add; destruct (Z.odd z); reflexivity. Qed.
Lemma smooth_defect : forall g om co color src u k j i, good_grid g -> cell g k j i -> Z.odd (Z.lxor color co + k + j + i) = true ->
  src k j i - laplacian g (Smooth g om co color src u) k j i = (1 - om) * (src k j i - laplacian g u k j i).
Proof.
  intros g om co color src u k j i G Hc Ho. destruct (smooth_values g om co color src u) as [A B].
  assert (N : forall a b c, (a + b + c = k + j + i + 1 \/ a + b + c = k + j + i - 1)%Z -> Smooth g om co color src u a b c = u a b c).
  { intros a b c H. apply B. intros [_ X]. destruct H as [H|H].
    - replace (Z.lxor color co + a + b + c)%Z with (Z.lxor color co + k + j + i + 1)%Z in X by lia. rewrite odd_step, Ho in X. discriminate X.
    - replace (Z.lxor color co + k + j + i)%Z with (Z.lxor color co + a + b + c + 1)%Z in Ho by lia. rewrite odd_step, X in Ho. discriminate Ho. }
  unfold laplacian. rewrite (A k j i) by assumption. rewrite !N by lia. unfold relaxed. rewrite (residual_eq g) by assumption. unfold laplacian, Rsqr. destruct G as [_ G]. field. lra.
Qed.
(** Two iterates do not move apart in the maximum norm for omega in [0,1]. *)
Lemma relaxed_close : forall g om src u v M k j i, 0 <= om <= 1 -> cell g k j i -> (forall k j i, in_array g k j i -> Rabs (u k j i - v k j i) <= M) ->
  Rabs (relaxed om (dx g * dx g) src u k j i - relaxed om (dx g * dx g) src v k j i) <= M.
Proof.
  intros g om src u v M k j i O Hc H. unfold cell in Hc. unfold relaxed, stencil.
  assert (B : forall a b c, in_array g a b c -> - M <= u a b c - v a b c <= M).
  { intros a b c Hb. specialize (H a b c Hb). unfold Rabs in H. destruct (Rcase_abs _); lra. }
  pose proof (B k j i ltac:(unfold in_array; lia)) as B0.
  pose proof (B (k + 1)%Z j i ltac:(unfold in_array; lia)) as B1. pose proof (B (k - 1)%Z j i ltac:(unfold in_array; lia)) as B2.
  pose proof (B k (j + 1)%Z i ltac:(unfold in_array; lia)) as B3. pose proof (B k (j - 1)%Z i ltac:(unfold in_array; lia)) as B4.
  pose proof (B k j (i + 1)%Z ltac:(unfold in_array; lia)) as B5. pose proof (B k j (i - 1)%Z ltac:(unfold in_array; lia)) as B6.
  clear B H Hc.
  set (e0 := u k j i - v k j i) in *.
  set (S := (u (k + 1)%Z j i - v (k + 1)%Z j i) + (u (k - 1)%Z j i - v (k - 1)%Z j i) + (u k (j + 1)%Z i - v k (j + 1)%Z i) + (u k (j - 1)%Z i - v k (j - 1)%Z i) + (u k j (i + 1)%Z - v k j (i + 1)%Z) + (u k j (i - 1)%Z - v k j (i - 1)%Z)).
  match goal with |- Rabs ?X <= _ => replace X with ((1 - om) * e0 + om * (S / 6)) by (unfold e0, S; field) end.
  assert (HS : - M <= S / 6 <= M) by (unfold S; lra). clearbody e0 S. clear B1 B2 B3 B4 B5 B6.
  apply Rabs_le. nra.
Qed.
Lemma smooth_close : forall g om co color src u v M, 0 <= om <= 1 -> (forall k j i, in_array g k j i -> Rabs (u k j i - v k j i) <= M) ->
  forall k j i, in_array g k j i -> Rabs (Smooth g om co color src u k j i - Smooth g om co color src v k j i) <= M.
Proof.
  intros g om co color src u v M O H k j i Hb. destruct (smooth_values g om co color src u) as [A B], (smooth_values g om co color src v) as [A' B'].
  destruct (inside g k j i) eqn:E.
  - apply inside_iff in E. destruct (Z.odd (Z.lxor color co + k + j + i)) eqn:P.
    + rewrite A, A' by assumption. apply relaxed_close; assumption.
    + rewrite B, B' by (rewrite P; intros [_ X]; discriminate X). apply H; assumption.
  - rewrite B, B' by (intros [X _]; apply inside_iff in X; congruence). apply H; assumption.
Qed.

(** *** Boundary conditions *)
Lemma wall_iff : forall b x n f a c, wall b x n f a c <-> x = ghost b n f a c.
Proof. intros [] x n f a c; cbn [wall ghost]; split; intros; lra. Qed.
Lemma ghost_shift : forall b n f a c s, s = 0 \/ neutral1 b = true -> ghost b (n + s) (f + s) a c = ghost b n f a c + s.
Proof. intros [] n f a c s [->|H]; cbn [ghost]; try ring; discriminate H. Qed.
Definition shiftable (b : bcset) (s : R) : Prop := s = 0 \/ neutral b = true.
Lemma shiftable_each : forall b s, shiftable b s -> (s = 0 \/ neutral1 (ix1 b) = true) /\ (s = 0 \/ neutral1 (ox1 b) = true) /\ (s = 0 \/ neutral1 (ix2 b) = true) /\ (s = 0 \/ neutral1 (ox2 b) = true) /\ (s = 0 \/ neutral1 (ix3 b) = true) /\ (s = 0 \/ neutral1 (ox3 b) = true).
Proof. intros b s [->|H]; [repeat split; left; reflexivity|]. unfold neutral in H. rewrite !andb_true_iff in H. tauto. Qed.
Ltac decide_within := repeat match goal with
  | |- context [within ?a ?b ?x] => first [ rewrite (proj2 (within_cases a b x)) by lia | let E := fresh in destruct (within a b x) eqn:E; [apply within_cases in E; lia|] ]
  | |- context [Z.eqb ?a ?b] => let E := fresh in destruct (Z.eqb_spec a b) as [E|E]; [try (exfalso; lia) | try (exfalso; lia)] end; cbn [andb].
Lemma axis1_shift : forall g b u v s, good_grid g -> shiftable b s -> (forall k j i, cell g k j i -> u k j i = v k j i + s) ->
  forall k j i, (1 <= k <= gz g)%Z -> (1 <= j <= gy g)%Z -> (0 <= i <= gx g + 1)%Z ->
  set_ox1 g (ox1 b) (set_ix1 g (ix1 b) u) k j i = set_ox1 g (ox1 b) (set_ix1 g (ix1 b) v) k j i + s.
Proof.
  intros g b u v s [G _] Sh H k j i Hk Hj Hi. apply shiftable_each in Sh. destruct Sh as (S1 & S2 & _). unfold cell in H. unfold set_ox1, set_ix1.
  decide_within; subst; rewrite ?H by lia; try (apply ghost_shift; assumption); reflexivity.
Qed.
Lemma axis2_shift : forall g b u v s, good_grid g -> shiftable b s -> (forall k j i, (1 <= k <= gz g)%Z -> (1 <= j <= gy g)%Z -> (0 <= i <= gx g + 1)%Z -> u k j i = v k j i + s) ->
  forall k j i, (1 <= k <= gz g)%Z -> (0 <= j <= gy g + 1)%Z -> (0 <= i <= gx g + 1)%Z ->
  set_ox2 g (ox2 b) (set_ix2 g (ix2 b) u) k j i = set_ox2 g (ox2 b) (set_ix2 g (ix2 b) v) k j i + s.
Proof.
  intros g b u v s [G _] Sh H k j i Hk Hj Hi. apply shiftable_each in Sh. destruct Sh as (_ & _ & S1 & S2 & _). unfold set_ox2, set_ix2.
  decide_within; subst; rewrite ?H by lia; try (apply ghost_shift; assumption); reflexivity.
Qed.
Lemma axis3_shift : forall g b u v s, good_grid g -> shiftable b s -> (forall k j i, (1 <= k <= gz g)%Z -> (0 <= j <= gy g + 1)%Z -> (0 <= i <= gx g + 1)%Z -> u k j i = v k j i + s) ->
  forall k j i, (0 <= k <= gz g + 1)%Z -> (0 <= j <= gy g + 1)%Z -> (0 <= i <= gx g + 1)%Z ->
  set_ox3 g (ox3 b) (set_ix3 g (ix3 b) u) k j i = set_ox3 g (ox3 b) (set_ix3 g (ix3 b) v) k j i + s.
Proof.
  intros g b u v s [G _] Sh H k j i Hk Hj Hi. apply shiftable_each in Sh. destruct Sh as (_ & _ & _ & _ & S1 & S2). unfold set_ox3, set_ix3.
  decide_within; subst; rewrite ?H by lia; try (apply ghost_shift; assumption); reflexivity.
Qed.
Lemma bc_shift : forall g b u v s, good_grid g -> shiftable b s -> (forall k j i, cell g k j i -> u k j i = v k j i + s) ->
  forall k j i, in_array g k j i -> ApplyPhysicalBoundaries g b u k j i = ApplyPhysicalBoundaries g b v k j i + s.
Proof.
  intros g b u v s G Sh H k j i Hb. unfold ApplyPhysicalBoundaries. unfold in_array in Hb. apply axis3_shift; try assumption; try lia.
  intros. apply axis2_shift; try assumption. intros. apply axis1_shift; assumption.
Qed.
Lemma bc_cell : forall g b u k j i, cell g k j i -> ApplyPhysicalBoundaries g b u k j i = u k j i.
Proof. intros g b u k j i H; unfold cell in H. unfold ApplyPhysicalBoundaries, set_ox3, set_ix3, set_ox2, set_ix2, set_ox1, set_ix1. decide_within; reflexivity. Qed.
Lemma bc_x1 : forall g b u k j, good_grid g -> (1 <= k <= gz g)%Z -> (1 <= j <= gy g)%Z ->
  ApplyPhysicalBoundaries g b u k j 0%Z = ghost (ix1 b) (u k j 1%Z) (u k j (gx g)) k j /\ ApplyPhysicalBoundaries g b u k j (gx g + 1)%Z = ghost (ox1 b) (u k j (gx g)) (u k j 1%Z) k j.
Proof. intros g b u k j [G _] Hk Hj. unfold ApplyPhysicalBoundaries, set_ox3, set_ix3, set_ox2, set_ix2, set_ox1, set_ix1. split; decide_within; reflexivity. Qed.
Lemma bc_x2 : forall g b u k i, good_grid g -> (1 <= k <= gz g)%Z -> (1 <= i <= gx g)%Z ->
  ApplyPhysicalBoundaries g b u k 0%Z i = ghost (ix2 b) (u k 1%Z i) (u k (gy g) i) k i /\ ApplyPhysicalBoundaries g b u k (gy g + 1)%Z i = ghost (ox2 b) (u k (gy g) i) (u k 1%Z i) k i.
Proof. intros g b u k j [G _] Hk Hj. unfold ApplyPhysicalBoundaries, set_ox3, set_ix3, set_ox2, set_ix2, set_ox1, set_ix1. split; decide_within; reflexivity. Qed.
Lemma bc_x3 : forall g b u j i, good_grid g -> (1 <= j <= gy g)%Z -> (1 <= i <= gx g)%Z ->
  ApplyPhysicalBoundaries g b u 0%Z j i = ghost (ix3 b) (u 1%Z j i) (u (gz g) j i) j i /\ ApplyPhysicalBoundaries g b u (gz g + 1)%Z j i = ghost (ox3 b) (u (gz g) j i) (u 1%Z j i) j i.
Proof. intros g b u k j [G _] Hk Hj. unfold ApplyPhysicalBoundaries, set_ox3, set_ix3, set_ox2, set_ix2, set_ox1, set_ix1. split; decide_within; reflexivity. Qed.
Lemma bc_meets : forall g b u, good_grid g -> meets g b (ApplyPhysicalBoundaries g b u).
Proof.
  intros g b u G. pose proof G as [G' _]. repeat split; apply wall_iff.
  - rewrite (proj1 (bc_x1 g b u k j G H H0)), !bc_cell by (unfold cell; lia). reflexivity.
  - rewrite (proj2 (bc_x1 g b u k j G H H0)), !bc_cell by (unfold cell; lia). reflexivity.
  - rewrite (proj1 (bc_x2 g b u k i G H H0)), !bc_cell by (unfold cell; lia). reflexivity.
  - rewrite (proj2 (bc_x2 g b u k i G H H0)), !bc_cell by (unfold cell; lia). reflexivity.
  - rewrite (proj1 (bc_x3 g b u j i G H H0)), !bc_cell by (unfold cell; lia). reflexivity.
  - rewrite (proj2 (bc_x3 g b u j i G H H0)), !bc_cell by (unfold cell; lia). reflexivity.
Qed.
(** The neighbours of a cell: other cells or cells behind a face. *)
Lemma meets_agree : forall g b u v, good_grid g -> meets g b v -> (forall k j i, cell g k j i -> v k j i = u k j i) ->
  forall k j i, (cell g k j i \/ (1 <= k <= gz g /\ 1 <= j <= gy g /\ (i = 0 \/ i = gx g + 1)) \/ (1 <= k <= gz g /\ (j = 0 \/ j = gy g + 1) /\ 1 <= i <= gx g) \/ ((k = 0 \/ k = gz g + 1) /\ 1 <= j <= gy g /\ 1 <= i <= gx g))%Z ->
  v k j i = ApplyPhysicalBoundaries g b u k j i.
Proof.
  intros g b u v G (M1 & M2 & M3) A k j i H. pose proof G as [G' _]. destruct H as [H|[(Hk & Hj & [->| ->])|[(Hk & [->| ->] & Hi)|([->| ->] & Hj & Hi)]]].
  - rewrite bc_cell by assumption. apply A; assumption.
  - rewrite (proj1 (bc_x1 g b u k j G Hk Hj)). rewrite <- !A by (unfold cell; lia). apply wall_iff. apply (M1 k j Hk Hj).
  - rewrite (proj2 (bc_x1 g b u k j G Hk Hj)). rewrite <- !A by (unfold cell; lia). apply wall_iff. apply (M1 k j Hk Hj).
  - rewrite (proj1 (bc_x2 g b u k i G Hk Hi)). rewrite <- !A by (unfold cell; lia). apply wall_iff. apply (M2 k i Hk Hi).
  - rewrite (proj2 (bc_x2 g b u k i G Hk Hi)). rewrite <- !A by (unfold cell; lia). apply wall_iff. apply (M2 k i Hk Hi).
  - rewrite (proj1 (bc_x3 g b u j i G Hj Hi)). rewrite <- !A by (unfold cell; lia). apply wall_iff. apply (M3 j i Hj Hi).
  - rewrite (proj2 (bc_x3 g b u j i G Hj Hi)). rewrite <- !A by (unfold cell; lia). apply wall_iff. apply (M3 j i Hj Hi).
Qed.
Lemma solution_bc : forall g b src u, good_grid g -> (solution g b src u <-> poisson g src (ApplyPhysicalBoundaries g b u)).
Proof.
  intros g b src u G. split.
  - intros (v & A & M & P) k j i H. rewrite <- (P k j i H). pose proof (meets_agree g b u v G M A) as E. unfold cell in H. unfold laplacian.
    rewrite !E by (unfold cell; lia). reflexivity.
  - intros P. exists (ApplyPhysicalBoundaries g b u). split; [intros; apply bc_cell; assumption|]. split; [apply bc_meets; assumption | assumption].
Qed.
