(** Radial weights are exact for cubics when the block starts at the axis; mirror images; WENO. *)
From Coq Require Import Reals ZArith Bool Lia Lra Psatz.
From Verif Require Import Time_Model Time_Proofs Rec_Model Rec_Spec Rec_Proofs Rec_Proofs2 Rec_Proofs3.
Local Open Scope R_scope.

Lemma mean_scale : forall m p a b h, 0 < h -> mean m p (a * h) (b * h) = mean m p a b * h ^ p.
Proof.
  intros m p a b h H. unfold mean. rewrite !Rpow_mult_distr. rewrite <- !Rmult_minus_distr_r. replace (h ^ (p + m + 1)) with (h ^ p * h ^ (m + 1)) by (rewrite <- pow_add; f_equal; lia).
  destruct (Req_dec (b ^ (m + 1) - a ^ (m + 1)) 0) as [Z|Z].
  - rewrite Z, Rmult_0_l. unfold Rdiv. rewrite Rinv_0. ring.
  - field. repeat split; try assumption; try (apply pow_nonzero; lra). apply not_0_INR. lia.
Qed.
Lemma cyl_mean : forall a p, (p <= 3)%nat -> 0 <= a ->
  mean 1 p a (a + 1) = match p with 0%nat => 1 | 1%nat => 2 / 3 * (3 * (a * a) + 3 * a + 1) / (2 * a + 1) | 2%nat => 1 / 2 * (2 * (a * a) + 2 * a + 1) | _ => 2 / 5 * (5 * a ^ 4 + 10 * a ^ 3 + 10 * a ^ 2 + 5 * a + 1) / (2 * a + 1) end.
Proof. intros a p P A. assert (0 < 2 * a + 1) by lra. unfold mean. destruct p as [|[|[|[|p]]]]; try lia; cbn [Nat.add INR pow]; field; lra. Qed.
Lemma sph_mean : forall a p, (p <= 3)%nat -> 0 <= a ->
  mean 2 p a (a + 1) = match p with 0%nat => 1 | 1%nat => 3 / 4 * (4 * a ^ 3 + 6 * (a * a) + 4 * a + 1) / (3 * (a * a) + 3 * a + 1) | 2%nat => 3 / 5 * (5 * a ^ 4 + 10 * a ^ 3 + 10 * (a * a) + 5 * a + 1) / (3 * (a * a) + 3 * a + 1)
   | _ => 1 / 2 * (6 * a ^ 5 + 15 * a ^ 4 + 20 * a ^ 3 + 15 * (a * a) + 6 * a + 1) / (3 * (a * a) + 3 * a + 1) end.
Proof. intros a p P A. assert (0 < 3 * (a * a) + 3 * a + 1) by nra. unfold mean. destruct p as [|[|[|[|p]]]]; try lia; cbn [Nat.add INR pow]; field; intro X0; nra. Qed.
Lemma cyl_exact : forall n p, 2 <= n -> (p <= 3)%nat -> let '(w1, w2, w3, w4) := cyl_w n in
  w1 * mean 1 p (n - 2) (n - 1) + w2 * mean 1 p (n - 1) n + w3 * mean 1 p n (n + 1) + w4 * mean 1 p (n + 1) (n + 2) = n ^ p.
Proof.
  intros n p N P. unfold cyl_w. replace (mean 1 p (n - 2) (n - 1)) with (mean 1 p (n - 2) (n - 2 + 1)) by (f_equal; ring). replace (mean 1 p (n - 1) n) with (mean 1 p (n - 1) (n - 1 + 1)) by (f_equal; ring). replace (mean 1 p (n + 1) (n + 2)) with (mean 1 p (n + 1) (n + 1 + 1)) by (f_equal; ring).
  rewrite !cyl_mean by (assumption || lra). assert (D : 0 < 120 * (n * n * (n * n)) - 360 * (n * n) + 96) by (assert (4 <= n * n) by nra; set (y := n * n) in *; clearbody y; nra).
  destruct p as [|[|[|[|p]]]]; try lia; cbn [pow]; field; repeat apply conj; intro X0; (lra || nra).
Qed.
Lemma sph_exact : forall n p, 2 <= n -> (p <= 3)%nat -> let '(w1, w2, w3, w4) := sph_w n in
  w1 * mean 2 p (n - 2) (n - 1) + w2 * mean 2 p (n - 1) n + w3 * mean 2 p n (n + 1) + w4 * mean 2 p (n + 1) (n + 2) = n ^ p.
Proof.
  intros n p N P. unfold sph_w. cbv zeta. replace (mean 2 p (n - 2) (n - 1)) with (mean 2 p (n - 2) (n - 2 + 1)) by (f_equal; ring). replace (mean 2 p (n - 1) n) with (mean 2 p (n - 1) (n - 1 + 1)) by (f_equal; ring). replace (mean 2 p (n + 1) (n + 2)) with (mean 2 p (n + 1) (n + 1 + 1)) by (f_equal; ring).
  rewrite !sph_mean by (assumption || lra). set (d := 36 * _).
  assert (D : 0 < d). { unfold d. set (y := n * n). assert (Y : 4 <= y) by (unfold y; nra). clearbody y. set (z := y - 4). assert (Z : 0 <= z) by (unfold z; lra). replace (36 * (15 * (y * y * (y * y)) - 85 * (y * y) * y + 150 * (y * y) - 60 * y + 16)) with (36 * (15 * (z * z * (z * z)) + 155 * (z * z * z) + 570 * (z * z) + 900 * z + 576)) by (unfold z; ring). clearbody z. assert (0 <= z * z) by nra. assert (0 <= z * z * z) by (apply Rmult_le_pos; assumption). assert (0 <= z * z * (z * z)) by (apply Rmult_le_pos; assumption). lra. }
  destruct p as [|[|[|[|p]]]]; try lia; cbn [pow].
  - field_simplify_eq; [|lra]. unfold d. ring.
  - field_simplify_eq; [|repeat apply conj; intro X0; (lra || nra)]. unfold d. ring.
  - field_simplify_eq; [|repeat apply conj; intro X0; (lra || nra)]. unfold d. ring.
  - field_simplify_eq; [|repeat apply conj; intro X0; (lra || nra)]. unfold d. ring.
Qed.
Lemma face_cubic_radial : forall sph is_ xf i h a0 a1 a2 a3, 0 < h -> (forall m, xf m = IZR (m - is_) * h) -> (is_ + 2 <= i)%Z ->
  ppm_face true (radial_c sph is_ xf) (cubic_means (if sph then 2 else 1) xf a0 a1 a2 a3) i = cubic a0 a1 a2 a3 (xf i).
Proof.
  intros sph is_ xf i h a0 a1 a2 a3 H X I. unfold ppm_face, radial_c; cbn [c1 c2 c3 c4]. set (n := IZR (Z.abs (i - is_))). assert (NE : n = IZR (i - is_)) by (unfold n; f_equal; lia). assert (N : 2 <= n) by (rewrite NE; apply IZR_le; lia).
  assert (XE : xf i = n * h) by (rewrite X, NE; reflexivity). rewrite XE.
  set (m := if sph then 2%nat else 1%nat). set (q := cubic_means m xf a0 a1 a2 a3).
  assert (Q : forall k, (- 2 <= k <= 1)%Z -> q (i + k)%Z = a0 * mean m 0 ((n + IZR k) * h) ((n + IZR k + 1) * h) + a1 * mean m 1 ((n + IZR k) * h) ((n + IZR k + 1) * h) + a2 * mean m 2 ((n + IZR k) * h) ((n + IZR k + 1) * h) + a3 * mean m 3 ((n + IZR k) * h) ((n + IZR k + 1) * h)).
  { intros k _. unfold q, cubic_means. rewrite !X. replace (IZR (i + k - is_)) with (n + IZR k) by (rewrite NE, !minus_IZR, plus_IZR; ring). replace (IZR (i + k + 1 - is_)) with (n + IZR k + 1) by (rewrite NE, !minus_IZR, !plus_IZR; ring). reflexivity. }
  clearbody q. unfold m in *. destruct sph.
  - pose proof (radial_sum n h sph_w 2 H) as S. pose proof (sph_exact n) as E. destruct (sph_w n) as [[[w1 w2] w3] w4]. cbn [fst snd]. apply S; [|exact Q]. intros p P. rewrite !mean_scale by exact H. specialize (E p N P). cbv beta iota in E. rewrite Rpow_mult_distr, <- E. ring.
  - pose proof (radial_sum n h cyl_w 1 H) as S. pose proof (cyl_exact n) as E. destruct (cyl_w n) as [[[w1 w2] w3] w4]. cbn [fst snd]. apply S; [|exact Q]. intros p P. rewrite !mean_scale by exact H. specialize (E p N P). cbv beta iota in E. rewrite Rpow_mult_distr, <- E. ring.
Qed.

(** Mirror images. *)
Lemma flip_at : forall q m k, flip q (- m + k)%Z = q (m - k)%Z.
Proof. intros. unfold flip. f_equal. lia. Qed.
Lemma second_flip : forall q i, second (flip q) (- i) = second q i.
Proof. intros. unfold second, flip. replace (- (- i - 1))%Z with (i + 1)%Z by lia. replace (- (- i + 1))%Z with (i - 1)%Z by lia. replace (- - i)%Z with i by lia. ring. Qed.
Lemma limit_face_flip : forall q i d, limit_face (flip q) (- i + 1) d = limit_face q i d.
Proof.
  intros q i d. unfold limit_face. cbv zeta. replace (- i + 1 - 1)%Z with (- i)%Z by lia. replace (- i + 1)%Z with (- (i - 1))%Z by lia. rewrite !second_flip. unfold flip. replace (- - i)%Z with i by lia. replace (- - (i - 1))%Z with (i - 1)%Z by lia.
  set (qb := second q (i - 1)). set (qc := second q i). replace (q i + q (i - 1)%Z - 2 * d) with (q (i - 1)%Z + q i - 2 * d) by ring. set (qa := 3 * _).
  replace ((d - q i) * (q (i - 1)%Z - d)) with ((d - q (i - 1)%Z) * (q i - d)) by ring. rewrite (Rplus_comm (q i)). rewrite (andb_comm (eqR (SIGN qa) (SIGN qc))).
  replace (Rmin (C2 * Rabs qc) (Rmin (C2 * Rabs qb) (Rabs qa))) with (Rmin (C2 * Rabs qb) (Rmin (C2 * Rabs qc) (Rabs qa))); [reflexivity|].
  unfold Rmin; repeat destruct Rle_dec; lra.
Qed.
Lemma clamp_flip : forall q i d, clamp_face (flip q) (- i + 1) d = clamp_face q i d.
Proof. intros q i d. unfold clamp_face, flip. replace (- (- i + 1))%Z with (i - 1)%Z by lia. replace (- (- i + 1 - 1))%Z with i by lia. rewrite (Rmax_comm (q (i - 1)%Z)), (Rmin_comm (q (i - 1)%Z)). reflexivity. Qed.
Lemma mignone_flip : forall c c' q i qm qp, hplus c' (- i)%Z = hminus c i -> hminus c' (- i)%Z = hplus c i -> limit_mignone c' (flip q) (- i) qm qp = swap (limit_mignone c q i qp qm).
Proof.
  intros c c' q i qm qp H1 H2. unfold limit_mignone. cbv zeta. rewrite H1, H2. unfold flip. replace (- - i)%Z with i by lia. replace ((q i - qm) * (qp - q i)) with ((q i - qp) * (qm - q i)) by ring.
  rewrite (Rabs_minus_sym (q i) qm), (Rabs_minus_sym qp (q i)). destruct (leR ((q i - qp) * (qm - q i)) 0); [reflexivity|]. unfold swap; cbn [fst snd]. apply f_equal2; (destruct leR; [ring|reflexivity]).
Qed.
Lemma cs_flip : forall q i qm qp, limit_cs (flip q) (- i) qm qp = swap (limit_cs q i qp qm).
Proof.
  intros q i qm qp. unfold limit_cs. cbv zeta. replace (- i - 1)%Z with (- (i + 1))%Z by lia. replace (- i + 1)%Z with (- (i - 1))%Z by lia. rewrite !second_flip. unfold flip. replace (- - i)%Z with i by lia. replace (- - (i + 1))%Z with (i + 1)%Z by lia. replace (- - (i - 1))%Z with (i - 1)%Z by lia. replace (- (- i - 2))%Z with (i + 2)%Z by lia. replace (- (- i + 2))%Z with (i - 2)%Z by lia.
  set (qa := second q (i - 1)). set (qb := second q i). set (qc := second q (i + 1)). replace (6 * (qp + qm - 2 * q i)) with (6 * (qm + qp - 2 * q i)) by ring. set (qd := 6 * _).
  replace ((q i - qm) * (qp - q i)) with ((q i - qp) * (qm - q i)) by ring. replace ((q (i - 1)%Z - q i) * (q i - q (i + 1)%Z)) with ((q (i + 1)%Z - q i) * (q i - q (i - 1)%Z)) by ring.
  assert (B : eqR (SIGN qc) (SIGN qb) && eqR (SIGN qc) (SIGN qa) && eqR (SIGN qc) (SIGN qd) = eqR (SIGN qa) (SIGN qb) && eqR (SIGN qa) (SIGN qc) && eqR (SIGN qa) (SIGN qd)).
  { apply eq_true_iff_eq. rewrite !andb_true_iff, !eqR_true. intuition congruence. } rewrite B.
  assert (MM : Rmin (Rmin (C2 * Rabs qc) (C2 * Rabs qb)) (Rmin (C2 * Rabs qa) (Rabs qd)) = Rmin (Rmin (C2 * Rabs qa) (C2 * Rabs qb)) (Rmin (C2 * Rabs qc) (Rabs qd))).
  { set (x := C2 * Rabs qa). set (y := C2 * Rabs qb). set (z := C2 * Rabs qc). unfold Rmin; repeat destruct Rle_dec; lra. } rewrite MM.
  assert (MX : Rmax (Rmax (Rabs (q (i + 1)%Z)) (Rabs (q (i + 2)%Z))) (Rmax (Rmax (Rabs (q i)) (Rabs (q (i - 1)%Z))) (Rabs (q (i - 2)%Z))) = Rmax (Rmax (Rabs (q (i - 1)%Z)) (Rabs (q (i - 2)%Z))) (Rmax (Rmax (Rabs (q i)) (Rabs (q (i + 1)%Z))) (Rabs (q (i + 2)%Z)))).
  { set (x := Rabs (q i)). set (y := Rabs (q (i + 1)%Z)). set (z := Rabs (q (i + 2)%Z)). set (u := Rabs (q (i - 1)%Z)). set (v := Rabs (q (i - 2)%Z)). clearbody x y z u v. rewrite (Rmax_comm x y), (Rmax_comm x u). rewrite !Rmax_assoc. 
    unfold Rmax; repeat destruct Rle_dec; lra. } rewrite MX.
  set (rho := if ltR _ _ then _ else 0). rewrite (Rabs_minus_sym (q i) qm), (Rabs_minus_sym qp (q i)). destruct (leR _ 0 || leR _ 0).
  - destruct (leR rho (1 - eps12)); unfold swap; cbn [fst snd]; [apply f_equal2; ring|reflexivity].
  - unfold swap; cbn [fst snd]. apply f_equal2; (destruct leR; [ring|reflexivity]).
Qed.
Lemma face_flip_uniform : forall q i, ppm_face false uniform_c (flip q) (- i + 1) = ppm_face false uniform_c q i.
Proof. intros. rewrite !face_uniform. unfold flip. replace (- (- i + 1))%Z with (i - 1)%Z by lia. replace (- (- i + 1 - 1))%Z with i by lia. replace (- (- i + 1 - 2))%Z with (i + 1)%Z by lia. replace (- (- i + 1 + 1))%Z with (i - 2)%Z by lia. field. Qed.
Lemma face_flip_stretched : forall dx q i, all_positive dx -> ppm_face false (stretched_c (flip dx)) (flip q) (- i + 1) = ppm_face false (stretched_c dx) q i.
Proof.
  intros dx q i P. unfold ppm_face, slope_dd, stretched_c; cbn [c1 c2 c3 c4 c5 c6]. unfold flip.
  replace (- (- i + 1))%Z with (i - 1)%Z by lia. replace (- (- i + 1 - 1))%Z with i by lia. replace (- (- i + 1 - 2))%Z with (i + 1)%Z by lia. replace (- (- i + 1 + 1))%Z with (i - 2)%Z by lia.
  replace (- (- i + 1 - 1 - 1))%Z with (i + 1)%Z by lia. replace (- (- i + 1 - 1 + 1))%Z with (i - 1)%Z by lia. replace (i - 1 - 1)%Z with (i - 2)%Z by lia. replace (i - 1 + 1)%Z with i by lia.
  pose proof (P i). pose proof (P (i + 1)%Z). pose proof (P (i - 1)%Z). pose proof (P (i - 2)%Z). set (a := dx i) in *. set (b := dx (i + 1)%Z) in *. set (c := dx (i - 1)%Z) in *. set (d := dx (i - 2)%Z) in *. clearbody a b c d. field. repeat split; lra.
Qed.
Lemma ppm_flip : forall ext unif c c' q i, (forall m, ppm_face false c' (flip q) (- m + 1) = ppm_face false c q m) -> hplus c' (- i)%Z = hminus c i -> hminus c' (- i)%Z = hplus c i ->
  PiecewiseParabolic ext unif false c' (flip q) (- i) = swap (PiecewiseParabolic ext unif false c q i).
Proof.
  intros ext unif c c' q i F H1 H2. unfold PiecewiseParabolic. cbv zeta. cbn [negb]. rewrite F. pose proof (F (i + 1)%Z) as F0. pose proof (limit_face_flip q (i + 1)) as L0. pose proof (clamp_flip q (i + 1)) as C0. replace (- (i + 1) + 1)%Z with (- i)%Z in F0, L0, C0 by lia.
  rewrite F0, L0, C0, limit_face_flip, clamp_flip. destruct (ext && (unif && true)); [apply cs_flip|apply mignone_flip; assumption].
Qed.

(** WENO. *)
Lemma wenoz_flip : forall eps q i, WENOZ eps (flip q) (- i) = swap (WENOZ eps q i).
Proof.
  intros eps q i. unfold WENOZ, swap. cbv zeta. cbn [fst snd]. unfold flip. replace (- (- i - 2))%Z with (i + 2)%Z by lia. replace (- (- i - 1))%Z with (i + 1)%Z by lia. replace (- (- i + 1))%Z with (i - 1)%Z by lia. replace (- (- i + 2))%Z with (i - 2)%Z by lia. replace (- - i)%Z with i by lia.
  set (b0 := 13 / 12 * sq (q (i - 2)%Z + q i - 2 * q (i - 1)%Z) + _). set (b2 := 13 / 12 * sq (q (i + 2)%Z + q i - 2 * q (i + 1)%Z) + _). rewrite (Rabs_minus_sym b2 b0).
  replace (sq (q (i + 1)%Z + q (i - 1)%Z - 2 * q i)) with (sq (q (i - 1)%Z + q (i + 1)%Z - 2 * q i)) by (unfold sq; ring). replace (sq (q (i + 1)%Z - q (i - 1)%Z)) with (sq (q (i - 1)%Z - q (i + 1)%Z)) by (unfold sq; ring). reflexivity.
Qed.
(** Three-point formulas combined with positive weights: exact wherever each formula is. *)
Lemma weigh : forall f v a0 a1 a2, 0 < a0 -> 0 < a1 -> 0 < a2 -> (forall k : nat, (k <= 2)%nat -> f k = 6 * v) -> (f 0%nat * a0 + f 1%nat * a1 + f 2%nat * a2) / (6 * (a0 + a1 + a2)) = v.
Proof. intros f v a0 a1 a2 A0 A1 A2 F. rewrite !F by lia. field. lra. Qed.
Lemma weigh3 : forall f0 f1 f2 v a0 a1 a2, 0 < a0 -> 0 < a1 -> 0 < a2 -> f0 = 6 * v -> f1 = 6 * v -> f2 = 6 * v -> (f0 * a0 + f1 * a1 + f2 * a2) / (6 * (a0 + a1 + a2)) = v.
Proof. intros f0 f1 f2 v a0 a1 a2 A0 A1 A2 -> -> ->. field. lra. Qed.
Lemma quad_points : forall xf h a0 a1 a2 i k, 0 < h -> (forall m, xf (m + 1)%Z = xf m + h) -> cubic_means 0 xf a0 a1 a2 0 (i + k)%Z = a0 + a1 * (xf i + IZR k * h + h / 2) + a2 * ((xf i + IZR k * h) ^ 2 + (xf i + IZR k * h) * h + h ^ 2 / 3).
Proof.
  intros xf h a0 a1 a2 i k H E. assert (X : forall m, xf (i + m)%Z = xf i + IZR m * h).
  { intro m. induction m using Z.peano_ind.
    - rewrite Z.add_0_r. ring.
    - replace (i + Z.succ m)%Z with (i + m + 1)%Z by lia. rewrite E, IHm, succ_IZR. ring.
    - pose proof (E (i + Z.pred m)%Z) as P. replace (i + Z.pred m + 1)%Z with (i + m)%Z in P by lia. rewrite IHm in P. assert (PM : IZR m = IZR (Z.pred m) + 1) by (rewrite <- plus_IZR; f_equal; lia). rewrite PM in P. lra. }
  unfold cubic_means, mean. replace (i + k + 1)%Z with (i + (k + 1))%Z by lia. rewrite !X, plus_IZR. cbn [Nat.add INR pow]. field. lra.
Qed.
Lemma wenoz_quadratic : forall eps xf h a0 a1 a2 i, 0 < eps -> 0 < h -> (forall m, xf (m + 1)%Z = xf m + h) -> WENOZ eps (cubic_means 0 xf a0 a1 a2 0) i = (cubic a0 a1 a2 0 (xf (i + 1)%Z), cubic a0 a1 a2 0 (xf i)).
Proof.
  intros eps xf h a0 a1 a2 i EP H E. set (q := cubic_means 0 xf a0 a1 a2 0). assert (Q : forall k, q (i + k)%Z = _) by (intro k; apply (quad_points xf h a0 a1 a2 i k H E)).
  pose proof (Q (-2)%Z) as Q4. pose proof (Q (-1)%Z) as Q3. pose proof (Q 0%Z) as Q0. pose proof (Q 1%Z) as Q1. pose proof (Q 2%Z) as Q2. replace (i + -2)%Z with (i - 2)%Z in Q4 by lia. replace (i + -1)%Z with (i - 1)%Z in Q3 by lia. replace (i + 0)%Z with i in Q0 by lia.
  clearbody q. unfold WENOZ. cbv zeta. rewrite (E i). unfold cubic. set (i0 := Rabs _ / _). set (i1 := Rabs _ / (13 / 12 * sq (q (i - 1)%Z + _ - _) + _ + _)). set (i2 := Rabs _ / _). clearbody i0 i1 i2.
  assert (S : forall x, 0 <= sq x) by (intro x; unfold sq; nra). pose proof (S i0). pose proof (S i1). pose proof (S i2).
  apply f_equal2; apply weigh3; try lra; rewrite ?Q0, ?Q1, ?Q2, ?Q3, ?Q4; field.
Qed.

Lemma div_pos0 : forall a b, 0 <= a -> 0 < b -> 0 <= a / b.
Proof. intros. apply Rmult_le_pos; [assumption|left; apply Rinv_0_lt_compat; assumption]. Qed.
Lemma mz_positive : forall eps b0 b1 b2 b4 t, 0 < eps -> 0 <= b0 -> 0 <= b1 -> 0 <= b2 -> 0 <= b4 -> 0 <= t ->
  let tau := Rabs (b0 - b2) in let eta := sq (sq (tau / (Rmax b0 b2 + eps))) in 0 <= eta * tau /\ 0 <= (1 - eta) * tau.
Proof.
  intros eps b0 b1 b2 b4 t E B0 B1 B2 B4 T. cbv zeta. set (tau := Rabs (b0 - b2)). assert (T0 : 0 <= tau) by apply Rabs_pos. assert (T1 : tau <= Rmax b0 b2). { unfold tau, Rabs, Rmax. destruct Rcase_abs, Rle_dec; lra. }
  assert (X : (Rmax b0 b2 + eps) * (tau / (Rmax b0 b2 + eps)) = tau) by (field; lra). set (x := tau / _) in *. assert (0 <= x <= 1) by (split; nra). assert (0 <= sq x <= 1) by (unfold sq; nra). assert (0 <= sq (sq x) <= 1) by (unfold sq at 1 3; nra). split; nra.
Qed.
Lemma wenomz_quadratic : forall eps xf h a0 a1 a2 i, 0 < eps -> 0 < h -> (forall m, xf (m + 1)%Z = xf m + h) -> WENOMZ eps (cubic_means 0 xf a0 a1 a2 0) i = (cubic a0 a1 a2 0 (xf (i + 1)%Z), cubic a0 a1 a2 0 (xf i)).
Proof.
  intros eps xf h a0 a1 a2 i EP H E. set (q := cubic_means 0 xf a0 a1 a2 0). assert (Q : forall k, q (i + k)%Z = _) by (intro k; apply (quad_points xf h a0 a1 a2 i k H E)).
  pose proof (Q (-2)%Z) as Q4. pose proof (Q (-1)%Z) as Q3. pose proof (Q 0%Z) as Q0. pose proof (Q 1%Z) as Q1. pose proof (Q 2%Z) as Q2. replace (i + -2)%Z with (i - 2)%Z in Q4 by lia. replace (i + -1)%Z with (i - 1)%Z in Q3 by lia. replace (i + 0)%Z with i in Q0 by lia.
  clearbody q. unfold WENOMZ. cbv zeta. rewrite (E i). unfold cubic. assert (S : forall x, 0 <= sq x) by (intro x; unfold sq; nra).
  set (b4 := 1 / 12 * sq _). set (b0 := 13 / 12 * sq (q (i - 2)%Z + _ - _) + _). set (b1 := 13 * b4 + _). set (b2 := 13 / 12 * sq (q (i + 2)%Z + _ - _) + _).
  assert (P4 : 0 <= b4) by (unfold b4; pose proof (S (q (i - 1)%Z + q (i + 1)%Z - 2 * q i)); lra).
  assert (P0 : 0 <= b0) by (unfold b0; pose proof (S (q (i - 2)%Z + q i - 2 * q (i - 1)%Z)); pose proof (S (q (i - 2)%Z + 3 * q i - 4 * q (i - 1)%Z)); lra).
  assert (P2 : 0 <= b2) by (unfold b2; pose proof (S (q (i + 2)%Z + q i - 2 * q (i + 1)%Z)); pose proof (S (q (i + 2)%Z + 3 * q i - 4 * q (i + 1)%Z)); lra).
  assert (P1 : 0 <= b1) by (unfold b1; pose proof (S (q (i - 1)%Z - q (i + 1)%Z)); lra). clearbody b0 b1 b2 b4.
  set (r := (Rabs (b2 - b1) + eps) / (Rabs (b1 - b0) + eps)). assert (R0 : 0 < r). { unfold r. pose proof (Rabs_pos (b2 - b1)). pose proof (Rabs_pos (b1 - b0)). apply Rdiv_lt_0_compat; lra. } clearbody r.
  assert (R1 : 0 < 1 / r) by (apply Rdiv_lt_0_compat; lra).
  destruct (mz_positive eps b0 b1 b2 b4 r EP P0 P1 P2 P4 ltac:(lra)) as [TA TB]. set (eta := sq (sq _)) in *. set (tA := eta * _) in *. set (tB := (1 - eta) * _) in *. clearbody tA tB.
  assert (D : forall a, 0 <= a -> 0 <= tA / (a + eps)) by (intros; apply div_pos0; lra). assert (D' : forall a, 0 <= a -> 0 <= tB / (a + eps)) by (intros; apply div_pos0; lra).
  pose proof (D b0 P0). pose proof (D b1 P1). pose proof (D b2 P2). assert (0 <= (1 + r) * b4) by nra. assert (0 <= (1 + 1 / r) * b4) by nra. pose proof (D' ((1 + r) * b4) ltac:(assumption)). pose proof (D' ((1 + 1 / r) * b4) ltac:(assumption)). pose proof (D' (2 * b4) ltac:(lra)).
  apply f_equal2; apply weigh3; try lra; rewrite ?Q0, ?Q1, ?Q2, ?Q3, ?Q4; field.
Qed.
Lemma wenomz_flip : forall eps q i, 0 < eps -> WENOMZ eps (flip q) (- i) = swap (WENOMZ eps q i).
Proof.
  intros eps q i EP. unfold WENOMZ, swap. cbv zeta. cbn [fst snd]. unfold flip. replace (- (- i - 2))%Z with (i + 2)%Z by lia. replace (- (- i - 1))%Z with (i + 1)%Z by lia. replace (- (- i + 1))%Z with (i - 1)%Z by lia. replace (- (- i + 2))%Z with (i - 2)%Z by lia. replace (- - i)%Z with i by lia.
  replace (sq (q (i + 1)%Z + q (i - 1)%Z - 2 * q i)) with (sq (q (i - 1)%Z + q (i + 1)%Z - 2 * q i)) by (unfold sq; ring). replace (sq (q (i + 1)%Z - q (i - 1)%Z)) with (sq (q (i - 1)%Z - q (i + 1)%Z)) by (unfold sq; ring).
  set (b4 := 1 / 12 * sq _). set (b0 := 13 / 12 * sq (q (i - 2)%Z + q i - 2 * q (i - 1)%Z) + _). set (b1 := 13 * b4 + _). set (b2 := 13 / 12 * sq (q (i + 2)%Z + q i - 2 * q (i + 1)%Z) + _).
  rewrite (Rabs_minus_sym b2 b0), (Rmax_comm b2 b0). rewrite (Rabs_minus_sym b0 b1), (Rabs_minus_sym b1 b2).
  set (x := Rabs (b2 - b1) + eps). set (y := Rabs (b1 - b0) + eps). assert (0 < x) by (unfold x; pose proof (Rabs_pos (b2 - b1)); lra). assert (0 < y) by (unfold y; pose proof (Rabs_pos (b1 - b0)); lra).
  replace (1 / (y / x)) with (x / y) by (field; lra). replace (y / x) with (1 / (x / y)) by (field; lra). reflexivity.
Qed.
