(** Waves; what is lost without a transverse field; the reconstructions. *)
From Coq Require Import Reals ZArith Bool PeanoNat Lia Lra Psatz.
From Verif Require Import Time_Model Rec_Model Rec_Spec Rec_Proofs Char_Model Char_Spec Char_Proofs Char_Proofs2 Char_Proofs3.
Local Open Scope R_scope.

Lemma sound_a : forall adi g w, physical adi g w -> sound2 adi g w = a_of adi g w * a_of adi g w /\ 0 < a_of adi g w.
Proof.
  intros adi g w P. split; [|exact (w_a _ _ _ _ _ _ _ _ _ _ _ (waves_model adi g 0 w P))]. rewrite <- (asq_a adi g w P). unfold sound2, asq_of, gamp_of, SQR, IPR, IDN, pos_p. destruct adi; [field; exact (Rgt_not_eq _ _ (proj1 P))|reflexivity].
Qed.
Lemma model_speeds : forall adi g b w, physical adi g w -> wave_speeds adi g b w (cs_of adi g b w) (SIGN b * b / sqrt (w IDN)) (cf_of adi g b w).
Proof.
  intros adi g b w P. destruct (sound_a adi g w P) as [SA A0]. destruct (waves_model adi g b w P) as [Hr Ha Hcf Hcs Hle Hs Hsb Hal Hen E1 E2 E3 Hbt Hbb Hsum].
  unfold wave_speeds. rewrite SA. pose proof (dens w (proj1 P)) as D. set (r := sqrt (w IDN)) in *. change (w 0%nat) with (w IDN). rewrite D. set (cf := cf_of adi g b w) in *. set (cs := cs_of adi g b w) in *. set (a := a_of adi g w) in *.
  change (IBY adi) with (pos_b adi) in Hbb. change (IBZ adi) with (S (pos_b adi)) in Hbb.
  refine (conj _ (conj _ (conj _ (conj _ (conj _ _))))).
  - split; [exact Hcs|]. nra.
  - exact Hle.
  - apply (Rmult_eq_reg_r (r * r)); [|nra]. rewrite Hsum, Hbb. field. lra.
  - replace (cf * cf * (cs * cs)) with ((cs * cf * r) * (cs * cf * r) / (r * r)) by (field; lra). rewrite E3. replace (a * (SIGN b * b) * (a * (SIGN b * b))) with ((SIGN b * SIGN b) * (a * a * (b * b))) by ring. rewrite Hs. field. lra.
  - apply Rmult_le_pos; [exact Hsb|left; apply Rinv_0_lt_compat; exact Hr].
  - replace (SIGN b * b / r * (SIGN b * b / r)) with ((SIGN b * SIGN b) * (b * b / (r * r))) by (field; lra). rewrite Hs. ring.
Qed.

(** The rates component by component. *)
Lemma rates_hyd : forall mhd adi x y z g b w v e, rates mhd adi x y z g b w v e ->
  e 0%nat = w x * v 0%nat + w 0%nat * v x /\
  e x = w x * v x + ((if adi then v pos_p else g * g * v 0%nat) + (if mhd then w (pos_b adi) * v (pos_b adi) + w (S (pos_b adi)) * v (S (pos_b adi)) else 0)) / w 0%nat /\
  e y = w x * v y - (if mhd then b / w 0%nat * v (pos_b adi) else 0) /\ e z = w x * v z - (if mhd then b / w 0%nat * v (S (pos_b adi)) else 0) /\
  (adi = true -> e pos_p = w x * v pos_p + g * w pos_p * v x) /\
  (mhd = true -> e (pos_b adi) = w x * v (pos_b adi) + w (pos_b adi) * v x - b * v y /\ e (S (pos_b adi)) = w x * v (S (pos_b adi)) + w (S (pos_b adi)) * v x - b * v z).
Proof.
  intros mhd adi x y z g b w v e H. refine (conj (H _ _ _) (conj (H _ _ _) (conj (H _ _ _) (conj (H _ _ _) (conj _ _))))).
  - apply rate_d.
  - apply rate_x.
  - apply rate_y.
  - apply rate_z.
  - intro. apply H. apply rate_p. assumption.
  - intro. split; apply H; [apply rate_by|apply rate_bz]; assumption.
Qed.
Lemma rates_hi : forall x y z g b w v e, rates false false x y z g b w v e -> e 0%nat = w x * v 0%nat + w 0%nat * v x /\ e x = w x * v x + (g * g * v 0%nat + 0) / w 0%nat /\ e y = w x * v y - 0 /\ e z = w x * v z - 0.
Proof. intros x y z g b w v e H. destruct (rates_hyd _ _ _ _ _ _ _ _ _ _ H) as (A & B & C & D & _). repeat split; assumption. Qed.

Lemma eig_ma : forall g x y z b w v e n, axes x y z -> physical true g w -> rates true true x y z g b w v e -> (n < 7)%nat ->
  Left true true g x b w e n = speed true true (w x) (a_of true g w) (cs_of true g b w) (SIGN b * b / sqrt (w IDN)) (cf_of true g b w) n * Left true true g x b w v n.
Proof.
  intros g x y z b w v e n A P H N. rewrite !(left_ma_eq g x y z) by assumption. destruct (rates_hyd _ _ _ _ _ _ _ _ _ _ H) as (H0 & Hx & Hy & Hz & Hp & Hb). specialize (Hp eq_refl). destruct (Hb eq_refl) as [Hby Hbz]. cbn [pos_b] in *. unfold pos_p in *.
  rewrite H0, Hx, Hy, Hz, Hp, Hby, Hbz. rewrite (asq_a true g w P). destruct (bet_by true left_d2 w) as [By Bz]. cbn [IBY IBZ NHYDRO] in By, Bz.
  pose proof (waves_model true g b w P) as W. cbn [IBY IBZ NHYDRO] in W. set (bt := sqrt (btsq_of true w)) in *. set (be2 := bet2_of true left_d2 w) in *. set (be3 := bet3_of true w) in *. 
  assert (W' : waves (sqrt (w IDN)) (a_of true g w) (cf_of true g b w) (cs_of true g b w) (alpha_f_of true g b w) (alpha_s_of true g b w) b (be2 * bt) (be3 * bt) bt (SIGN b)) by (rewrite <- By, <- Bz; exact W).
  pose proof (ma_eig _ _ _ _ _ _ _ _ _ be2 be3 (w x) (v 0%nat) (v x) (v y) (v z) (v 4%nat) (v 5%nat) (v 6%nat) W' (left_unit true w)) as E. cbv zeta in E. rewrite <- (dens w (proj1 P)), <- By, <- Bz in E.
  assert (GP : g * w 4%nat = a_of true g w * a_of true g w * w IDN). { rewrite <- (proj1 (sound_a true g w P)). unfold sound2, IDN, pos_p. field. exact (Rgt_not_eq _ _ (proj1 P)). }
  rewrite GP. change (w 0%nat) with (w IDN). destruct E as (E0 & E1 & E2 & E3 & E4 & E5 & E6). cbn [speed].
  destruct n as [|[|[|[|[|[|[|n]]]]]]]; [exact E0|exact E1|exact E2|exact E3|exact E4|exact E5|exact E6|lia].
Qed.
Lemma eig_mi : forall g x y z b w v e n, axes x y z -> physical false g w -> rates true false x y z g b w v e -> (n < 6)%nat ->
  Left true false g x b w e n = speed true false (w x) g (cs_of false g b w) (SIGN b * b / sqrt (w IDN)) (cf_of false g b w) n * Left true false g x b w v n.
Proof.
  intros g x y z b w v e n A P H N. destruct (rates_hyd _ _ _ _ _ _ _ _ _ _ H) as (H0 & Hx & Hy & Hz & _ & Hb). destruct (Hb eq_refl) as [Hby Hbz]. cbn [pos_b] in *.
  destruct (mi_rows g x y z b w e A P) as (R0 & R1 & R2 & R3 & R4 & R5 & _). destruct (mi_rows g x y z b w v A P) as (S0 & S1 & S2 & S3 & S4 & S5 & _). rewrite H0, Hx, Hy, Hz, Hby, Hbz in R0, R1, R2, R3, R4, R5.
  destruct (bet_by false left_d2 w) as [By Bz]. cbn [IBY IBZ NHYDRO] in By, Bz.
  pose proof (waves_model false g b w P) as W. cbn [IBY IBZ NHYDRO] in W. set (bt := sqrt (btsq_of false w)) in *. set (be2 := bet2_of false left_d2 w) in *. set (be3 := bet3_of false w) in *. cbn [a_of] in W.
  assert (W' : waves (sqrt (w IDN)) g (cf_of false g b w) (cs_of false g b w) (alpha_f_of false g b w) (alpha_s_of false g b w) b (be2 * bt) (be3 * bt) bt (SIGN b)) by (rewrite <- By, <- Bz; exact W).
  pose proof (ma_eig _ _ _ _ _ _ _ _ _ be2 be3 (w x) (v 0%nat) (v x) (v y) (v z) (g * g * v 0%nat) (v 4%nat) (v 5%nat) W' (left_unit false w)) as E. cbv zeta in E. rewrite <- (dens w (proj1 P)), <- By, <- Bz in E. change (w 0%nat) with (w IDN) in *.
  replace (w x * (g * g * v 0%nat) + g * g * w IDN * v x) with (g * g * (w x * v 0%nat + w IDN * v x)) in E by ring.
  destruct E as (E0 & E1 & E2 & _ & E4 & E5 & E6). cbn [speed].
  destruct n as [|[|[|[|[|[|n]]]]]]; [rewrite R0, S0; exact E0|rewrite R1, S1; exact E1|rewrite R2, S2; exact E2|rewrite R3, S3; exact E4|rewrite R4, S4; exact E5|rewrite R5, S5; exact E6|lia].
Qed.
Lemma eig_h : forall adi g x y z b w v e n c1 c2 c3, axes x y z -> physical adi g w -> rates false adi x y z g b w v e -> (n < NHYDRO adi)%nat ->
  Left false adi g x b w e n = speed false adi (w x) (a_of adi g w) c1 c2 c3 n * Left false adi g x b w v n.
Proof.
  intros adi g x y z b w v e n c1 c2 c3 A P H N. destruct (axes_y x y z A) as [Y Z]. destruct (rates_hyd _ _ _ _ _ _ _ _ _ _ H) as (H0 & Hx & Hy & Hz & Hp & _). unfold LeftEigenmatrixDotVector. rewrite Y, Z. clear H A Y Z.
  replace (Nat.ltb n (NWAVE false adi)) with true by (symmetry; apply Nat.ltb_lt; exact N). destruct (sound_a adi g w P) as [SA A0]. destruct P as (D & G & P). destruct adi.
  - specialize (Hp eq_refl). unfold pos_p in *. assert (EA : sqrt (g * w 4%nat / w 0%nat) = a_of true g w). { unfold sound2, pos_p in SA. rewrite SA. apply sqrt_square. lra. }
    unfold left_ha, IDN, IPR in *. rewrite H0, Hx, Hy, Hz, Hp. rewrite EA. unfold sound2, pos_p in SA. assert (GP : g * w 4%nat = a_of true g w * a_of true g w * w 0%nat) by (rewrite <- SA; field; lra). rewrite GP. set (a := a_of true g w) in *. cbn [speed]. clear SA EA GP P.
    destruct n as [|[|[|[|[|n]]]]]; try (exfalso; cbn in N; lia); field; lra.
  - unfold left_hi, IDN in *. rewrite H0, Hx, Hy, Hz. cbn [speed a_of] in *. destruct n as [|[|[|[|n]]]]; try (exfalso; cbn in N; lia); field; lra.
Qed.

(** No transverse field: the transverse part of the result is nought. *)
Lemma lost : forall adi g x y z b w c, axes x y z -> w (pos_b adi) = 0 -> w (S (pos_b adi)) = 0 ->
  let V := Right true adi g x b w c in V y = 0 /\ V z = 0 /\ V (pos_b adi) = 0 /\ V (S (pos_b adi)) = 0.
Proof.
  intros adi g x y z b w c A Y Z V. assert (T : sqrt (btsq_of adi w) = 0) by (apply bt0; split; assumption).
  assert (B2 : bet2_of adi right_d2 w = 0) by (unfold bet2_of, right_d2; destruct Req_EM_T; [reflexivity|contradiction]). assert (B3 : bet3_of adi w = 0) by (unfold bet3_of; destruct Req_EM_T; [reflexivity|contradiction]).
  destruct adi; cbn [pos_b].
  - destruct (right_ma g x y z b w c A) as (_ & _ & Cy & Cz & _ & C5 & C6). unfold V. rewrite Cy, Cz, C5, C6, B2, B3. repeat split; ring.
  - destruct (right_mi g x y z b w c A) as (_ & _ & Cy & Cz & C4 & C5). unfold V. rewrite Cy, Cz, C4, C5, B2, B3. repeat split; ring.
Qed.

(** Only the first components are read. *)
Lemma right_ext : forall mhd adi g x y z b w c c', axes x y z -> (forall k, (k < size mhd adi)%nat -> c k = c' k) -> forall n, (n < size mhd adi)%nat -> Right mhd adi g x b w c n = Right mhd adi g x b w c' n.
Proof.
  intros mhd adi g x y z b w c c' A H n N. destruct mhd, adi; cbn [size pos_b Nat.add] in H, N.
  - pose proof (H 0%nat ltac:(lia)) as H0. pose proof (H 1%nat ltac:(lia)) as H1. pose proof (H 2%nat ltac:(lia)) as H2. pose proof (H 3%nat ltac:(lia)) as H3. pose proof (H 4%nat ltac:(lia)) as H4. pose proof (H 5%nat ltac:(lia)) as H5. pose proof (H 6%nat ltac:(lia)) as H6.
    destruct (right_ma g x y z b w c A) as (C0 & Cx & Cy & Cz & C4 & C5 & C6). destruct (right_ma g x y z b w c' A) as (D0 & Dx & Dy & Dz & D4 & D5 & D6). rewrite H0, H1, H2, H3, H4, H5, H6 in *.
    destruct (Nat.lt_ge_cases n 4) as [L|L].
    + destruct (axes_all x y z n A L) as [->|[->|[->| ->]]]; [rewrite C0, D0|rewrite Cx, Dx|rewrite Cy, Dy|rewrite Cz, Dz]; reflexivity.
    + assert (E : n = 4%nat \/ n = 5%nat \/ n = 6%nat) by lia. destruct E as [->|[->| ->]]; [rewrite C4, D4|rewrite C5, D5|rewrite C6, D6]; reflexivity.
  - pose proof (H 0%nat ltac:(lia)) as H0. pose proof (H 1%nat ltac:(lia)) as H1. pose proof (H 2%nat ltac:(lia)) as H2. pose proof (H 3%nat ltac:(lia)) as H3. pose proof (H 4%nat ltac:(lia)) as H4. pose proof (H 5%nat ltac:(lia)) as H5.
    destruct (right_mi g x y z b w c A) as (C0 & Cx & Cy & Cz & C4 & C5). destruct (right_mi g x y z b w c' A) as (D0 & Dx & Dy & Dz & D4 & D5). rewrite H0, H1, H2, H3, H4, H5 in *.
    destruct (Nat.lt_ge_cases n 4) as [L|L].
    + destruct (axes_all x y z n A L) as [->|[->|[->| ->]]]; [rewrite C0, D0|rewrite Cx, Dx|rewrite Cy, Dy|rewrite Cz, Dz]; reflexivity.
    + assert (E : n = 4%nat \/ n = 5%nat) by lia. destruct E as [->| ->]; [rewrite C4, D4|rewrite C5, D5]; reflexivity.
  - pose proof (H 0%nat ltac:(lia)) as H0. pose proof (H 1%nat ltac:(lia)) as H1. pose proof (H 2%nat ltac:(lia)) as H2. pose proof (H 3%nat ltac:(lia)) as H3. pose proof (H 4%nat ltac:(lia)) as H4.
    unfold RightEigenmatrixDotVector, upd. rewrite H0, H1, H2, H3, H4, (H n N). reflexivity.
  - pose proof (H 0%nat ltac:(lia)) as H0. pose proof (H 1%nat ltac:(lia)) as H1. pose proof (H 2%nat ltac:(lia)) as H2. pose proof (H 3%nat ltac:(lia)) as H3.
    unfold RightEigenmatrixDotVector, upd. rewrite H0, H1, H2, H3, (H n N). reflexivity.
Qed.
Lemma left_scale : forall mhd adi g x b w v v' k, (forall n, v' n = v n * k) -> forall n, (n < size mhd adi)%nat -> Left mhd adi g x b w v' n = Left mhd adi g x b w v n * k.
Proof.
  intros mhd adi g x b w v v' k H n N. rewrite size_nwave in N. unfold LeftEigenmatrixDotVector. replace (Nat.ltb n (NWAVE mhd adi)) with true by (symmetry; apply Nat.ltb_lt; exact N).
  rewrite !H. destruct mhd, adi; unfold left_ma, left_mi, left_ha, left_hi, Rdiv; destruct n as [|[|[|[|[|[|n]]]]]]; ring.
Qed.
Lemma left_ext : forall mhd adi g x y z b w v v', axes x y z -> (forall n, (n < size mhd adi)%nat -> v n = v' n) -> forall n, (n < size mhd adi)%nat -> Left mhd adi g x b w v n = Left mhd adi g x b w v' n.
Proof.
  intros mhd adi g x y z b w v v' A H n N. unfold LeftEigenmatrixDotVector. rewrite (H n N). destruct (axes_y x y z A) as [Y Z]. rewrite Y, Z. 
  destruct mhd, adi; cbn [size pos_b Nat.add] in H; unfold IDN, IPR, IBY, IBZ, NHYDRO; rewrite ?(H 0%nat), ?(H x), ?(H y), ?(H z), ?(H 4%nat), ?(H 5%nat), ?(H 6%nat) by (try lia; destruct A; lia); reflexivity.
Qed.

(** The parabolic method. *)
Definition keeps (f : line -> Z -> R * R) (i : Z) : Prop := forall q a, (forall m, (i - 2 <= m <= i + 2)%Z -> q m = a) -> f q i = (a, a).
Lemma char_ppm_uniform : forall mhd adi g x y z ext unif curv c bx q i, axes x y z -> physical adi g (cell q i) -> bent mhd adi (cell q i) -> keeps (PiecewiseParabolic ext unif curv c) i ->
  (forall n m, (n < size mhd adi)%nat -> (i - 2 <= m <= i + 2)%Z -> q n m = q n i) -> forall n, (n < size mhd adi)%nat -> CharPPM mhd adi g x ext unif curv c bx q i n = (q n i, q n i).
Proof.
  intros mhd adi g x y z ext unif curv c bx q i A P B K U n N. unfold CharPPM.
  assert (E : forall k, (k < size mhd adi)%nat -> PiecewiseParabolic ext unif curv c (fun m => Left mhd adi g x (bx i) (cell q i) (cell q m) k) i = (Left mhd adi g x (bx i) (cell q i) (cell q i) k, Left mhd adi g x (bx i) (cell q i) (cell q i) k)).
  { intros k Hk. apply K. intros m Hm. apply (left_ext mhd adi g x y z); try assumption. intros j Hj. apply U; assumption. }
  pose proof (proj1 (roundtrip mhd adi g x y z (bx i) (cell q i) (cell q i) n A P B N)) as RT. unfold cell at 3 in RT. f_equal.
  - rewrite (right_ext mhd adi g x y z (bx i) (cell q i) _ (Left mhd adi g x (bx i) (cell q i) (cell q i)) A) by (try assumption; intros k Hk; rewrite (E k Hk); reflexivity). exact RT.
  - rewrite (right_ext mhd adi g x y z (bx i) (cell q i) _ (Left mhd adi g x (bx i) (cell q i) (cell q i)) A) by (try assumption; intros k Hk; rewrite (E k Hk); reflexivity). exact RT.
Qed.
(** The linear method. *)
Lemma slope_diff : forall mm uc xf xv q q' i, q i - q (i - 1)%Z = q' i - q' (i - 1)%Z -> q (i + 1)%Z - q i = q' (i + 1)%Z - q' i -> plm_slope mm uc xf xv q i = plm_slope mm uc xf xv q' i.
Proof. intros mm uc xf xv q q' i A B. unfold plm_slope. rewrite A, B. reflexivity. Qed.
Lemma diff_line_l : forall i dl dr, diff_line i dl dr i - diff_line i dl dr (i - 1)%Z = dl.
Proof. intros. unfold diff_line. rewrite Z.ltb_irrefl, Z.eqb_refl. replace (i - 1 <? i)%Z with true by (symmetry; apply Z.ltb_lt; lia). ring. Qed.
Lemma diff_line_r : forall i dl dr, diff_line i dl dr (i + 1)%Z - diff_line i dl dr i = dr.
Proof. intros. unfold diff_line. rewrite Z.ltb_irrefl, Z.eqb_refl. replace (i + 1 <? i)%Z with false by (symmetry; apply Z.ltb_ge; lia). replace (i + 1 =? i)%Z with false by (symmetry; apply Z.eqb_neq; lia). ring. Qed.
Lemma char_plm_linear : forall mhd adi g x y z mm uc xf xv bx q i al be, axes x y z -> physical adi g (cell q i) -> bent mhd adi (cell q i) -> mesh xf xv i -> (uc = true -> even xf xv) ->
  (forall n m, (n < size mhd adi)%nat -> (i - 1 <= m <= i + 1)%Z -> q n m = al n + be n * xv m) ->
  forall n, (n < size mhd adi)%nat -> CharPLM mhd adi g x mm uc xf xv bx q i n = (al n + be n * xf (i + 1)%Z, al n + be n * xf i).
Proof.
  intros mhd adi g x y z mm uc xf xv bx q i al be A P B M E Q n N. unfold CharPLM. set (w := cell q i) in *. set (b := bx i). 
  assert (SL : forall k, (k < size mhd adi)%nat -> plm_slope mm uc xf xv (diff_line i (Left mhd adi g x b w (fun n0 => q n0 i - q n0 (i - 1)%Z) k) (Left mhd adi g x b w (fun n0 => q n0 (i + 1)%Z - q n0 i) k)) i = Left mhd adi g x b w (fun n => be n * dxf xf i) k).
  { intros k Hk. set (lb := Left mhd adi g x b w be k).
    assert (L1 : Left mhd adi g x b w (fun n0 => q n0 i - q n0 (i - 1)%Z) k = lb * (xv i - xv (i - 1)%Z)).
    { rewrite (left_ext mhd adi g x y z b w _ (fun n => be n * (xv i - xv (i - 1)%Z)) A) by (try assumption; intros j Hj; rewrite !(Q j) by (assumption || lia); ring). apply left_scale; [reflexivity|assumption]. }
    assert (L2 : Left mhd adi g x b w (fun n0 => q n0 (i + 1)%Z - q n0 i) k = lb * (xv (i + 1)%Z - xv i)).
    { rewrite (left_ext mhd adi g x y z b w _ (fun n => be n * (xv (i + 1)%Z - xv i)) A) by (try assumption; intros j Hj; rewrite !(Q j) by (assumption || lia); ring). apply left_scale; [reflexivity|assumption]. }
    rewrite L1, L2. rewrite (slope_diff mm uc xf xv _ (fun m => 0 + lb * xv m)); [|rewrite diff_line_l; ring|rewrite diff_line_r; ring].
    rewrite (linear_slope xf xv (fun m => 0 + lb * xv m) i M mm uc 0 lb E) by reflexivity. unfold lb. symmetry. apply left_scale; [reflexivity|assumption]. }
  rewrite (right_ext mhd adi g x y z b w _ (Left mhd adi g x b w (fun n => be n * dxf xf i)) A) by assumption.
  rewrite (proj1 (roundtrip mhd adi g x y z b w (fun n => be n * dxf xf i) n A P B N)). unfold plm_states. rewrite (Q n i N) by lia. pose proof (M i ltac:(lia)). unfold dxf. f_equal; field; lra.
Qed.
