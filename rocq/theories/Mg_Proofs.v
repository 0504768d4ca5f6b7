(** Proofs for C51: transfer operators and sums. *)
From Coq Require Import Reals ZArith List Bool Permutation Lra Lia FunctionalExtensionality.
From Verif Require Import Fv_Model Fv_Spec Fv_Proofs2 Mg_Model Mg_Spec.
Import ListNotations.
Local Open Scope R_scope.

Lemma within_cases : forall a b x, within a b x = true <-> (a <= x <= b)%Z.
Proof. intros; unfold within; rewrite andb_true_iff, !Z.leb_le; tauto. Qed.
Lemma inside_iff : forall g k j i, inside g k j i = true <-> cell g k j i.
Proof. intros; unfold inside, cell; rewrite !andb_true_iff, !within_cases; tauto. Qed.
Lemma boxed_iff : forall g k j i, boxed g k j i = true <-> in_array g k j i.
Proof. intros; unfold boxed, in_array; rewrite !andb_true_iff, !within_cases; tauto. Qed.
Lemma inside_true : forall g k j i, cell g k j i -> inside g k j i = true.
Proof. intros; apply inside_iff; assumption. Qed.
Lemma inside_false : forall g k j i, ~ cell g k j i -> inside g k j i = false.
Proof. intros g k j i H; destruct (inside g k j i) eqn:E; [apply inside_iff in E; contradiction | reflexivity]. Qed.

(** *** Sums *)
Lemma fold_plus : forall A (f : A -> R) l s, fold_left (fun s x => s + f x) l s = s + sum (map f l).
Proof. intros A f l; induction l as [|x l IH]; intros s; cbn [fold_left map]; [rewrite sum_nil; ring | rewrite IH, sum_cons; ring]. Qed.
Lemma fold_ext : forall A (F G : R -> A -> R) l s, (forall s x, F s x = G s x) -> fold_left F l s = fold_left G l s.
Proof. intros A F G l; induction l as [|x l IH]; intros s H; cbn [fold_left]; [reflexivity | rewrite H; apply IH; assumption]. Qed.
Lemma grid_sum_eq : forall g f, grid_sum g f = gsum g f.
Proof.
  intros; unfold grid_sum, gsum.
  rewrite (fold_ext _ _ (fun s k => s + sum (map (fun j => sum (map (fun i => f k j i) (upto 1 (gx g)))) (upto 1 (gy g))))).
  - rewrite fold_plus; ring.
  - intros s k. rewrite (fold_ext _ _ (fun s j => s + sum (map (fun i => f k j i) (upto 1 (gx g))))).
    + rewrite fold_plus; reflexivity.
    + intros; apply fold_plus.
Qed.
Lemma total_integral : forall g f, CalculateTotal g f = integral_ g f.
Proof. intros; unfold CalculateTotal, integral_; rewrite grid_sum_eq; ring. Qed.
Lemma gsum_ext : forall g f h, (forall k j i, cell g k j i -> f k j i = h k j i) -> gsum g f = gsum g h.
Proof.
  intros g f h H; unfold gsum; apply sum_ext; intros k Hk; apply in_upto in Hk; apply sum_ext; intros j Hj; apply in_upto in Hj; apply sum_ext; intros i Hi; apply in_upto in Hi.
  apply H; unfold cell; lia.
Qed.
Lemma gsum_plus : forall g f h, gsum g (fun k j i => f k j i + h k j i) = gsum g f + gsum g h.
Proof.
  intros; unfold gsum; rewrite <- sum_plus; apply sum_ext; intros k _; rewrite <- sum_plus; apply sum_ext; intros j _; rewrite <- sum_plus; reflexivity.
Qed.
Lemma gsum_scale : forall g c f, gsum g (fun k j i => c * f k j i) = c * gsum g f.
Proof.
  intros; unfold gsum; rewrite <- sum_scale; apply sum_ext; intros k _; rewrite <- sum_scale; apply sum_ext; intros j _; rewrite <- sum_scale; reflexivity.
Qed.
Lemma sum_const : forall A (l : list A) c, sum (map (fun _ => c) l) = INR (length l) * c.
Proof. intros A l c; induction l as [|x l IH]; [cbn [map length INR]; rewrite sum_nil; ring | cbn [map length]; rewrite sum_cons, IH, S_INR; ring]. Qed.
Lemma upto_length : forall n, (0 <= n)%Z -> INR (length (upto 1 n)) = IZR n.
Proof. intros n H; unfold upto; rewrite map_length, seq_length, INR_IZR_INZ; f_equal; lia. Qed.
Lemma gsum_const : forall g c, good_grid g -> gsum g (fun _ _ _ => c) = IZR (gx g) * IZR (gy g) * IZR (gz g) * c.
Proof.
  intros g c [H _]; unfold gsum.
  rewrite (sum_ext _ _ (fun _ => IZR (gx g) * IZR (gy g) * c)).
  - rewrite sum_const, upto_length by lia; ring.
  - intros k _. rewrite (sum_ext _ _ (fun _ => IZR (gx g) * c)) by (intros j _; rewrite sum_const, upto_length by lia; ring).
    rewrite sum_const, upto_length by lia; ring.
Qed.
Lemma volume_pos : forall g, good_grid g -> 0 < volume g.
Proof. intros g [H H0]; unfold volume. assert (1 <= IZR (gx g)) by (apply IZR_le; lia). assert (1 <= IZR (gy g)) by (apply IZR_le; lia). assert (1 <= IZR (gz g)) by (apply IZR_le; lia).
  repeat apply Rmult_lt_0_compat; lra. Qed.

(** *** Restriction *)
Lemma sum_double : forall (F : Z -> R) n, (0 <= n)%Z -> sum (map F (upto 1 (2 * n))) = sum (map (fun c => F (2 * c - 1)%Z + F (2 * c)%Z) (upto 1 n)).
Proof.
  intros F n H; pattern n; apply natlike_ind; [| | assumption].
  - reflexivity.
  - intros m Hm IH. replace (2 * Z.succ m)%Z with ((2 * m + 1) + 1)%Z by lia. replace (Z.succ m) with (m + 1)%Z by lia.
    rewrite !upto_snoc by lia. rewrite !map_app, !sum_app, IH. cbn [map]. rewrite !sum_cons, !sum_nil.
    replace (2 * (m + 1) - 1)%Z with (2 * m + 1)%Z by lia. replace (2 * (m + 1))%Z with (2 * m + 1 + 1)%Z by lia. ring.
Qed.
Lemma eighth : 0.125 = / 8. Proof. lra. Qed.
Definition eight (u : arr) (k j i : Z) : R :=
  let a := (2 * k - 1)%Z in let b := (2 * j - 1)%Z in let c := (2 * i - 1)%Z in let a' := (2 * k)%Z in let b' := (2 * j)%Z in let c' := (2 * i)%Z in
  ((u a b c + u a b c') + (u a b' c + u a b' c')) + ((u a' b c + u a' b c') + (u a' b' c + u a' b' c')).
Lemma gsum_double : forall c f u, doubled c f -> good_grid c -> gsum f u = gsum c (eight u).
Proof.
  intros c f u [(E1 & E2 & E3) _] [G _]; unfold gsum, eight; cbv zeta; rewrite E1, E2, E3, sum_double by lia.
  apply sum_ext; intros k _. rewrite !sum_double by lia. rewrite <- sum_plus. apply sum_ext; intros j _. rewrite !sum_double by lia.
  rewrite <- !sum_plus. apply sum_ext; intros i _. ring.
Qed.
Lemma restrict_eight : forall c u dst k j i, cell c k j i -> Restrict c u dst k j i = 0.125 * eight u k j i.
Proof.
  intros c u dst k j i H; unfold Restrict, eight; rewrite (inside_true _ _ _ _ H); cbv zeta.
  replace (2 * k - 1 + 1)%Z with (2 * k)%Z by lia. replace (2 * j - 1 + 1)%Z with (2 * j)%Z by lia. replace (2 * i - 1 + 1)%Z with (2 * i)%Z by lia. ring.
Qed.
Lemma restrict_total : forall c f u dst, doubled c f -> good_grid c -> integral_ c (Restrict c u dst) = integral_ f u.
Proof.
  intros c f u dst D G; unfold integral_; rewrite (gsum_double c f u D G).
  rewrite (gsum_ext c (Restrict c u dst) (fun k j i => 0.125 * eight u k j i)) by (intros; apply restrict_eight; assumption).
  rewrite gsum_scale, eighth. destruct D as [_ ->]. field.
Qed.
(** Restriction depends on the active fine cells only; constants and shifts. *)
Lemma restrict_shift : forall c f u v dst dst' a, doubled c f -> (forall k j i, cell f k j i -> u k j i = v k j i + a) ->
  forall k j i, cell c k j i -> Restrict c u dst k j i = Restrict c v dst' k j i + a.
Proof.
  intros c f u v dst dst' a [(E1 & E2 & E3) _] H k j i Hc; unfold Restrict; rewrite (inside_true _ _ _ _ Hc); cbv zeta.
  rewrite eighth. unfold cell in *. rewrite !H by lia. field.
Qed.
Lemma restrict_zero : forall c f u dst, doubled c f -> (forall k j i, cell f k j i -> u k j i = 0) -> forall k j i, cell c k j i -> Restrict c u dst k j i = 0.
Proof.
  intros c f u dst [(E1 & E2 & E3) _] H k j i Hc; unfold Restrict; rewrite (inside_true _ _ _ _ Hc); cbv zeta.
  rewrite eighth. unfold cell in *. rewrite !H by lia. field.
Qed.

(** *** Prolongation *)
Lemma coarse_lower : forall c, coarse_index (2 * c - 1) = c /\ upper (2 * c - 1) = false.
Proof. intros c; unfold coarse_index, upper. replace (2 * c - 1 - 1)%Z with (2 * (c - 1))%Z by lia. split.
  - rewrite Z.mul_comm, Z.div_mul by lia. lia.
  - rewrite Z.odd_mul. reflexivity. Qed.
Lemma coarse_upper : forall c, coarse_index (2 * c) = c /\ upper (2 * c) = true.
Proof. intros c; unfold coarse_index, upper. replace (2 * c - 1)%Z with (1 + (c - 1) * 2)%Z by lia. split.
  - rewrite Z.div_add by lia. change (1 / 2)%Z with 0%Z. lia.
  - rewrite Z.odd_add, Z.odd_mul. change (Z.odd 2) with false. rewrite andb_false_r. reflexivity. Qed.
(** Every fine index is one of the two children of its coarse index. *)
Lemma child_index : forall f, (f = 2 * coarse_index f - 1 /\ upper f = false)%Z \/ (f = 2 * coarse_index f /\ upper f = true)%Z.
Proof.
  intros f. destruct (Z.Even_or_Odd f) as [[c ->]|[c ->]].
  - right. destruct (coarse_upper c) as [-> ->]. auto.
  - left. replace (2 * c + 1)%Z with (2 * (c + 1) - 1)%Z by lia. destruct (coarse_lower (c + 1)) as [-> ->]. auto.
Qed.
Lemma parent_iff : forall c f k j i, doubled c f -> (has_parent c k j i = true <-> cell f k j i).
Proof.
  intros c f k j i [(E1 & E2 & E3) _]; unfold has_parent; rewrite inside_iff; unfold cell; rewrite E1, E2, E3.
  destruct (child_index k) as [[Hk _]|[Hk _]], (child_index j) as [[Hj _]|[Hj _]], (child_index i) as [[Hi _]|[Hi _]]; lia.
Qed.
Lemma parent_true : forall c f k j i, doubled c f -> cell f k j i -> has_parent c k j i = true.
Proof. intros; eapply parent_iff; eauto. Qed.

(** The weights of one direction. *)
Definition w2 (o : bool) (a b c : R) : R := if o then (-3 * a + 30 * b + 5 * c) / 32 else (5 * a + 30 * b - 3 * c) / 32.
Definition w1 (o : bool) (a b c : R) : R := if o then (3 * b + c) / 4 else (3 * b + a) / 4.
Definition tensor (w : bool -> R -> R -> R -> R) (ok oj oi : bool) (s : arr) (k j i : Z) : R :=
  let row k j := w oi (s k j (i - 1)%Z) (s k j i) (s k j (i + 1)%Z) in
  let plane k := w oj (row k (j - 1)%Z) (row k j) (row k (j + 1)%Z) in
  w ok (plane (k - 1)%Z) (plane k) (plane (k + 1)%Z).
Lemma child_tensor : forall t ok oj oi s k j i, child t ok oj oi s k j i = tensor (if t then w2 else w1) ok oj oi s k j i.
Proof. intros [] [] [] [] s k j i; unfold child, tensor, w1, w2; cbv zeta;
  unfold tricubic_000, tricubic_001, tricubic_010, tricubic_011, tricubic_100, tricubic_101, tricubic_110, tricubic_111,
         trilinear_000, trilinear_001, trilinear_010, trilinear_011, trilinear_100, trilinear_101, trilinear_110, trilinear_111; try (replace 0.015625 with (/ 64) by lra); field. Qed.
Lemma prolonged_tensor : forall t s k j i, prolonged t s k j i = tensor (if t then w2 else w1) (upper k) (upper j) (upper i) s (coarse_index k) (coarse_index j) (coarse_index i).
Proof. intros; unfold prolonged; apply child_tensor. Qed.
Lemma w2_quadratic : forall x0 h f a b c (p : R -> R), (forall x, p x = a + b * x + c * x²) ->
  w2 (upper f) (p (centre x0 (2 * h) (coarse_index f - 1))) (p (centre x0 (2 * h) (coarse_index f))) (p (centre x0 (2 * h) (coarse_index f + 1))) = p (centre x0 h f).
Proof.
  intros x0 h f a b c p H; rewrite !H. unfold centre, w2, Rsqr. rewrite minus_IZR, plus_IZR.
  destruct (child_index f) as [[E ->]|[E ->]]; apply (f_equal IZR) in E; rewrite ?minus_IZR, mult_IZR in E; rewrite E; field.
Qed.
Lemma w1_affine : forall x0 h f a b (p : R -> R), (forall x, p x = a + b * x) ->
  w1 (upper f) (p (centre x0 (2 * h) (coarse_index f - 1))) (p (centre x0 (2 * h) (coarse_index f))) (p (centre x0 (2 * h) (coarse_index f + 1))) = p (centre x0 h f).
Proof.
  intros x0 h f a b p H; rewrite !H. unfold centre, w1. rewrite minus_IZR, plus_IZR.
  destruct (child_index f) as [[E ->]|[E ->]]; apply (f_equal IZR) in E; rewrite ?minus_IZR, mult_IZR in E; rewrite E; field.
Qed.
Lemma prolong_exact : forall (t : bool) p x0 y0 z0 h s k j i, (if t then quadratic_each p else affine_each p) ->
  (forall k j i, s k j i = p (centre x0 (2 * h) i) (centre y0 (2 * h) j) (centre z0 (2 * h) k)) ->
  prolonged t s k j i = p (centre x0 h i) (centre y0 h j) (centre z0 h k).
Proof.
  intros t p x0 y0 z0 h s k j i Hp Hs. rewrite prolonged_tensor. unfold tensor; cbv zeta. rewrite !Hs.
  destruct t; destruct Hp as (Hx & Hy & Hz).
  - assert (X : forall y z, w2 (upper i) (p (centre x0 (2 * h) (coarse_index i - 1)) y z) (p (centre x0 (2 * h) (coarse_index i)) y z) (p (centre x0 (2 * h) (coarse_index i + 1)) y z) = p (centre x0 h i) y z).
    { intros y z; destruct (Hx y z) as (a & b & c & E). apply (w2_quadratic x0 h i a b c (fun x => p x y z)); assumption. }
    rewrite !X.
    assert (Y : forall x z, w2 (upper j) (p x (centre y0 (2 * h) (coarse_index j - 1)) z) (p x (centre y0 (2 * h) (coarse_index j)) z) (p x (centre y0 (2 * h) (coarse_index j + 1)) z) = p x (centre y0 h j) z).
    { intros x z; destruct (Hy x z) as (a & b & c & E). apply (w2_quadratic y0 h j a b c (fun y => p x y z)); assumption. }
    rewrite !Y.
    destruct (Hz (centre x0 h i) (centre y0 h j)) as (a & b & c & E). apply (w2_quadratic z0 h k a b c (fun z => p (centre x0 h i) (centre y0 h j) z)); assumption.
  - assert (X : forall y z, w1 (upper i) (p (centre x0 (2 * h) (coarse_index i - 1)) y z) (p (centre x0 (2 * h) (coarse_index i)) y z) (p (centre x0 (2 * h) (coarse_index i + 1)) y z) = p (centre x0 h i) y z).
    { intros y z; destruct (Hx y z) as (a & b & E). apply (w1_affine x0 h i a b (fun x => p x y z)); assumption. }
    rewrite !X.
    assert (Y : forall x z, w1 (upper j) (p x (centre y0 (2 * h) (coarse_index j - 1)) z) (p x (centre y0 (2 * h) (coarse_index j)) z) (p x (centre y0 (2 * h) (coarse_index j + 1)) z) = p x (centre y0 h j) z).
    { intros x z; destruct (Hy x z) as (a & b & E). apply (w1_affine y0 h j a b (fun y => p x y z)); assumption. }
    rewrite !Y.
    destruct (Hz (centre x0 h i) (centre y0 h j)) as (a & b & E). apply (w1_affine z0 h k a b (fun z => p (centre x0 h i) (centre y0 h j) z)); assumption.
Qed.
(** Cells of the coarse array used for an active fine cell. *)
Lemma tensor_ext : forall (t : bool) ok oj oi (s s' : arr) c k j i a, cell c k j i -> (forall k j i, in_array c k j i -> s k j i = s' k j i + a) ->
  tensor (if t then w2 else w1) ok oj oi s k j i = tensor (if t then w2 else w1) ok oj oi s' k j i + a.
Proof.
  intros t ok oj oi s s' c k j i a Hc H. unfold tensor; cbv zeta. unfold cell, in_array in *.
  rewrite !H by lia. destruct t, ok, oj, oi; unfold w1, w2; field.
Qed.
Lemma prolonged_shift : forall t c f s s' k j i a, doubled c f -> cell f k j i -> (forall k j i, in_array c k j i -> s k j i = s' k j i + a) ->
  prolonged t s k j i = prolonged t s' k j i + a.
Proof.
  intros t c f s s' k j i a D Hf H. rewrite !prolonged_tensor. apply (tensor_ext t _ _ _ s s' c); [|assumption].
  apply inside_iff. apply (parent_iff c f) in Hf; [exact Hf | assumption].
Qed.
Lemma prolonged_zero : forall t k j i, prolonged t (fun _ _ _ : Z => 0) k j i = 0.
Proof. intros; rewrite prolonged_tensor; unfold tensor, w1, w2; destruct t, (upper k), (upper j), (upper i); field. Qed.
Lemma prolonged_const : forall t c f s k j i a, doubled c f -> cell f k j i -> (forall k j i, in_array c k j i -> s k j i = a) -> prolonged t s k j i = a.
Proof. intros t c f s k j i a D Hf H. rewrite (prolonged_shift t c f s (fun _ _ _ : Z => 0) k j i a D Hf) by (intros; rewrite H by assumption; ring). rewrite prolonged_zero; ring. Qed.
Lemma w1_bounds : forall o a b c m M, m <= a <= M -> m <= b <= M -> m <= c <= M -> m <= w1 o a b c <= M.
Proof. intros [] a b c m M H1 H2 H3; unfold w1; lra. Qed.
Lemma prolong_bounds : forall c f s k j i m M, doubled c f -> cell f k j i -> (forall k j i, in_array c k j i -> m <= s k j i <= M) -> m <= prolonged false s k j i <= M.
Proof.
  intros c f s k j i m M D Hf H. rewrite prolonged_tensor.
  apply (parent_iff c f) in Hf; [|assumption]. unfold has_parent in Hf. apply inside_iff in Hf.
  unfold tensor; cbv zeta. unfold cell, in_array in *. repeat apply w1_bounds; apply H; lia.
Qed.
