From Coq Require Import Reals ZArith Bool Lra Psatz.
From Verif Require Import Time_Model Time_Proofs Eos_Model Eos_Proofs Rie_Model Rie_Spec Rie_Proofs Rie_Proofs2.
Local Open Scope R_scope.

(** ** The averaged fast speed of hlle_mhd is positive. *)
Definition mild (e : eos) : Prop := match e with Adi g => g <= 2 | Iso _ => True end.
Section avg.
Variables (a b : R).
Hypothesis (A : 0 < a) (B : 0 < b).
Lemma avg_vel : forall p q, 0 <= (a * (p * p) + b * (q * q)) * (1 / (a + b)) - (a * p + b * q) * (1 / (a + b)) * ((a * p + b * q) * (1 / (a + b))).
Proof using A B.
  intros p q. replace ((a * (p * p) + b * (q * q)) * (1 / (a + b)) - (a * p + b * q) * (1 / (a + b)) * ((a * p + b * q) * (1 / (a + b))))
      with (a * b * ((p - q) * (p - q)) * ((1 / (a + b)) * (1 / (a + b)))) by (field; intro X0; lra).
  assert (0 < 1 / (a + b)) by (apply Rdiv_lt_0_compat; lra).
  apply Rmult_le_pos; [apply Rmult_le_pos; [apply Rmult_le_pos; lra | apply Rle_0_sqr] | apply Rmult_le_pos; lra].
Qed.
Lemma avg_field : forall p q, (p * p / a + q * q / b) * (1 / (a + b)) - (b * p + a * q) * (1 / (a + b)) * ((b * p + a * q) * (1 / (a + b))) / (a * b) = (p - q) * (p - q) / ((a + b) * (a + b)).
Proof using A B. intros p q. field. repeat apply conj; intro X0; lra. Qed.
Lemma avg_bx : forall x, (x / a + x / b) * (1 / (a + b)) = x / (a * b).
Proof using A B. intro x. field. repeat apply conj; intro X0; lra. Qed.
Lemma avg_y : 1 <= 1/2 * (a * a + b * b) / (a * b).
Proof using A B.
  apply Rminus_le. replace (1 - 1 / 2 * (a * a + b * b) / (a * b)) with (- ((a - b) * (a - b) * (/ 2 * / (a * b)))) by (field; repeat apply conj; intro X0; lra).
  assert (0 < / (a * b)) by (apply Rinv_0_lt_compat, Rmult_lt_0_compat; assumption). pose proof (Rle_0_sqr (a - b)) as Q. unfold Rsqr in Q.
  assert (0 <= (a - b) * (a - b) * (/ 2 * / (a * b))) by (apply Rmult_le_pos; [exact Q | lra]). lra.
Qed.
End avg.
Lemma root_pos : forall v c t, 0 <= v -> 0 <= c -> 0 < t -> 0 < sqrt (1/2 * (v + c + t + sqrt ((v + c - t) * (v + c - t) + 4 * t * c))).
Proof. intros v c t V C T. apply sqrt_lt_R0. pose proof (sqrt_pos ((v + c - t) * (v + c - t) + 4 * t * c)). lra. Qed.
Lemma hlle_mhd_a_pos : forall e bx ml mr, good_eos e -> mild e -> good e (gas ml) -> good e (gas mr) -> 0 < hlle_mhd_a e bx ml mr.
Proof.
  intros e bx ml mr G M [Dl Ql] [Dr Qr]. unfold hlle_mhd_a. cbv zeta.
  pose proof (sqrt_lt_R0 _ Dl) as A. pose proof (sqrt_lt_R0 _ Dr) as B.
  pose proof (sqrt_sqrt _ (Rlt_le _ _ Dl)) as A2. pose proof (sqrt_sqrt _ (Rlt_le _ _ Dr)) as B2.
  set (a := sqrt (w_d (gas ml))) in *. set (b := sqrt (w_d (gas mr))) in *.
  assert (D : 0 < a * b) by (apply Rmult_lt_0_compat; assumption). assert (I : 0 < 1 / (a + b)) by (apply Rdiv_lt_0_compat; lra).
  assert (Y : 1 <= 1 / 2 * (w_d (gas ml) + w_d (gas mr)) / (a * b)) by (rewrite <- A2, <- B2; apply avg_y; assumption).
  set (y := 1 / 2 * (w_d (gas ml) + w_d (gas mr)) / (a * b)) in *.
  set (by_ := (b * m_by ml + a * m_by mr) * (1 / (a + b))). set (bz := (b * m_bz ml + a * m_bz mr) * (1 / (a + b))).
  set (x := 1 / 2 * (SQR (m_by ml - m_by mr) + SQR (m_bz ml - m_bz mr)) / SQR (a + b)).
  assert (S : 0 < SQR (a + b)) by (unfold SQR; apply Rmult_lt_0_compat; lra).
  assert (X : 0 <= x). { unfold x. apply Rmult_le_pos; [| left; apply Rinv_0_lt_compat; exact S]. unfold SQR. pose proof (Rle_0_sqr (m_by ml - m_by mr)). pose proof (Rle_0_sqr (m_bz ml - m_bz mr)). unfold Rsqr in *. lra. }
  assert (T0 : 0 <= SQR by_ + SQR bz) by (unfold SQR; pose proof (Rle_0_sqr by_); pose proof (Rle_0_sqr bz); unfold Rsqr in *; lra).
  assert (V : 0 <= bx * bx / (a * b)) by (apply Rmult_le_pos; [apply Rle_0_sqr | left; apply Rinv_0_lt_compat; exact D]).
  destruct e as [g|c]; cbn in G, M.
  - assert (C : 0 <= (g - 1 - (g - 1 - 1) * y) * (SQR by_ + SQR bz) / (a * b)).
    { apply Rmult_le_pos; [| left; apply Rinv_0_lt_compat; exact D]. apply Rmult_le_pos; [nra | exact T0]. }
    match goal with |- context [Rmax ?z 0] => assert (T : 0 < Rmax z 0) end; [| apply root_pos; assumption].
    apply Rlt_le_trans with (2 := Rmax_l _ _).
    set (h := ((men (Adi g) bx ml + w_p (gas ml) + pbm bx ml) / a + (men (Adi g) bx mr + w_p (gas mr) + pbm bx mr) / b) * (1 / (a + b))).
    set (th := ((w_p (gas ml) / (g - 1) + w_p (gas ml)) / a + (w_p (gas mr) / (g - 1) + w_p (gas mr)) / b) * (1 / (a + b))).
    assert (TH : 0 < th).
    { unfold th. assert (0 < w_p (gas ml) / (g - 1)) by (apply Rdiv_lt_0_compat; lra). assert (0 < w_p (gas mr) / (g - 1)) by (apply Rdiv_lt_0_compat; lra).
      apply Rmult_lt_0_compat; [| exact I]. apply Rplus_lt_0_compat; apply Rdiv_lt_0_compat; lra. }
    pose proof (avg_vel a b A B (w_vx (gas ml)) (w_vx (gas mr))) as V1. pose proof (avg_vel a b A B (w_vy (gas ml)) (w_vy (gas mr))) as V2. pose proof (avg_vel a b A B (w_vz (gas ml)) (w_vz (gas mr))) as V3.
    pose proof (avg_field a b A B (m_by ml) (m_by mr)) as F1. pose proof (avg_field a b A B (m_bz ml) (m_bz mr)) as F2. pose proof (avg_bx a b A B (bx * bx)) as F3.
    assert (H : h = th + 1/2 * ((a * (w_vx (gas ml) * w_vx (gas ml)) + b * (w_vx (gas mr) * w_vx (gas mr))) * (1 / (a + b)) + (a * (w_vy (gas ml) * w_vy (gas ml)) + b * (w_vy (gas mr) * w_vy (gas mr))) * (1 / (a + b)) + (a * (w_vz (gas ml) * w_vz (gas ml)) + b * (w_vz (gas mr) * w_vz (gas mr))) * (1 / (a + b)))
       + ((m_by ml * m_by ml / a + m_by mr * m_by mr / b) * (1 / (a + b)) + (m_bz ml * m_bz ml / a + m_bz mr * m_bz mr / b) * (1 / (a + b)) + (bx * bx / a + bx * bx / b) * (1 / (a + b)))).
    { unfold h, th, men, en, pbm, SQR. rewrite <- A2, <- B2. field. repeat apply conj; intro X0; lra. }
    assert (X2 : x = 1/2 * ((m_by ml - m_by mr) * (m_by ml - m_by mr) / ((a + b) * (a + b)) + (m_bz ml - m_bz mr) * (m_bz ml - m_bz mr) / ((a + b) * (a + b)))) by (unfold x, SQR; field; intro X0; lra).
    fold by_ in F1. fold bz in F2.
    replace ((SQR by_ + SQR bz) / (a * b)) with (by_ * by_ / (a * b) + bz * bz / (a * b)) by (unfold SQR; field; split; intro X0; lra).
    unfold SQR. set (p1 := (a * w_vx (gas ml) + b * w_vx (gas mr)) * (1 / (a + b))) in *. set (p2 := (a * w_vy (gas ml) + b * w_vy (gas mr)) * (1 / (a + b))) in *. set (p3 := (a * w_vz (gas ml) + b * w_vz (gas mr)) * (1 / (a + b))) in *.
    assert (Z : th + 2 * x <= h - (bx * bx / (a * b) + (by_ * by_ / (a * b) + bz * bz / (a * b))) - 1 / 2 * (p1 * p1 + p2 * p2 + p3 * p3)).
    { set (q1 := by_ * by_ / (a * b)) in *. set (q2 := bz * bz / (a * b)) in *. set (q3 := bx * bx / (a * b)) in *. lra. }
    set (zz := h - _ - _) in *. clearbody zz x th. clear - TH X Z G. assert (0 <= (g - 1) * (zz - th - 2 * x)) by (apply Rmult_le_pos; lra). assert (0 < (g - 1) * th) by (apply Rmult_lt_0_compat; lra). assert (0 <= g * x) by (apply Rmult_le_pos; lra). lra.
  - assert (C : 0 <= (SQR by_ + SQR bz) * y / (a * b)) by (apply Rmult_le_pos; [apply Rmult_le_pos; lra | left; apply Rinv_0_lt_compat; exact D]).
    assert (T : 0 < c * c + x) by (assert (0 < c * c) by (apply Rmult_lt_0_compat; lra); lra). apply root_pos; assumption.
Qed.
Lemma HLLE_MHD_left : forall e bx ml mr, good_eos e -> mild e -> good e (gas ml) -> good e (gas mr) -> 0 <= hlle_mhd_al e bx ml mr -> HLLE_MHD e bx ml mr = physical_mhd e bx ml.
Proof.
  intros e bx ml mr G M Gl Gr H. apply HLLE_MHD_upwind_left; try assumption. pose proof (hlle_mhd_a_pos e bx ml mr G M Gl Gr) as A.
  unfold hlle_mhd_al in H. unfold hlle_mhd_ar. pose proof (Rmin_l (mvroe ml mr - hlle_mhd_a e bx ml mr) (w_vx (gas ml) - cfast e bx ml)).
  pose proof (Rmax_l (mvroe ml mr + hlle_mhd_a e bx ml mr) (w_vx (gas mr) + cfast e bx mr)). lra.
Qed.
Lemma mmirror_flux_twice : forall f, mmirror_flux (mmirror_flux f) = f.
Proof. intros [f b c]. unfold mmirror_flux. cbn [gasf f_by f_bz]. rewrite mirror_flux_twice, !Ropp_involutive. reflexivity. Qed.
Lemma HLLE_MHD_right : forall e bx ml mr, good_eos e -> mild e -> good e (gas ml) -> good e (gas mr) -> hlle_mhd_ar e bx ml mr <= 0 -> HLLE_MHD e bx ml mr = physical_mhd e bx mr.
Proof.
  intros e bx ml mr G M Gl Gr H. rewrite <- (mmirror_flux_twice (HLLE_MHD e bx ml mr)), <- HLLE_MHD_mirror. rewrite HLLE_MHD_left; try assumption.
  - rewrite mphysical_mirror. apply mmirror_flux_twice.
  - rewrite hlle_mhd_al_mirror. lra.
Qed.

(** ** HLLD. *)
Section hlld.
Variables (g bx : R).
Hypothesis (G : 1 < g).
Lemma spd0_mirror : forall ml mr, spd0 g (- bx) (mmirror mr) (mmirror ml) = - spd4 g bx ml mr.
Proof using. intros. unfold spd0, spd4. rewrite !cfast_mirror. rewrite <- min_opp, Rmin_comm. unfold mmirror, mirror. cbn [gas w_vx]. f_equal; ring. Qed.
Lemma spd4_mirror : forall ml mr, spd4 g (- bx) (mmirror mr) (mmirror ml) = - spd0 g bx ml mr.
Proof using.
  intros. unfold spd0, spd4. rewrite !cfast_mirror. unfold mmirror, mirror. cbn [gas w_vx].
  set (p := cfast (Adi g) bx ml). set (q := cfast (Adi g) bx mr). unfold Rmax, Rmin. destruct (Rle_dec _ _), (Rle_dec _ _); lra.
Qed.
Lemma spd_order : forall ml mr, good (Adi g) (gas ml) -> good (Adi g) (gas mr) -> spd0 g bx ml mr < w_vx (gas ml) /\ w_vx (gas mr) < spd4 g bx ml mr /\ spd0 g bx ml mr < spd4 g bx ml mr.
Proof using G.
  intros ml mr Gl Gr. unfold spd0, spd4. pose proof (cfast_pos (Adi g) bx ml G Gl) as A. pose proof (cfast_pos (Adi g) bx mr G Gr) as B. set (p := cfast (Adi g) bx ml) in *. set (q := cfast (Adi g) bx mr) in *.
  pose proof (Rmin_l (w_vx (gas ml) - p) (w_vx (gas mr) - q)). pose proof (Rmin_r (w_vx (gas ml) - p) (w_vx (gas mr) - q)).
  pose proof (Rmax_l (w_vx (gas ml) + p) (w_vx (gas mr) + q)). pose proof (Rmax_r (w_vx (gas ml) + p) (w_vx (gas mr) + q)). lra.
Qed.
Lemma ptot_mirror : forall m, ptot (- bx) (mmirror m) = ptot bx m.
Proof using. intro m. unfold ptot, pbm, mmirror, mirror. cbn [gas m_by m_bz w_p]. ring. Qed.
Lemma spd2_mirror : forall ml mr, good (Adi g) (gas ml) -> good (Adi g) (gas mr) -> spd2 g (- bx) (mmirror mr) (mmirror ml) = - spd2 g bx ml mr.
Proof using G.
  intros ml mr Gl Gr. destruct (spd_order ml mr Gl Gr) as (A & B & _). destruct Gl as [Dl _]. destruct Gr as [Dr _]. unfold spd2. rewrite spd0_mirror, spd4_mirror, !ptot_mirror. unfold mmirror, mirror. cbn [gas w_d w_vx]. cbv zeta.
  set (s0 := spd0 g bx ml mr) in *. set (s4 := spd4 g bx ml mr) in *. clearbody s0 s4. field. repeat apply conj; intro X0; nra.
Qed.
Lemma ptst_mirror : forall ml mr, good (Adi g) (gas ml) -> good (Adi g) (gas mr) -> ptst g (- bx) (mmirror mr) (mmirror ml) = ptst g bx ml mr.
Proof using G. intros ml mr Gl Gr. unfold ptst. rewrite spd2_mirror, spd0_mirror, spd4_mirror, !ptot_mirror by assumption. unfold mmirror, mirror. cbn [gas w_d w_vx]. cbv zeta. ring. Qed.
Lemma mcons_of_mirror : forall m, mcons_of g (- bx) (mmirror m) = umirror (mcons_of g bx m).
Proof using. intro m. unfold mcons_of, umirror, mmirror, mirror, SQR. cbn [gasf f_by f_bz u_d u_m1 u_m2 u_m3 u_e gas m_by m_bz w_d w_vx w_vy w_vz w_p]. apply mcons_eq; [apply cons_eq | |]; ring. Qed.
Lemma star_mirror : forall s s2 pst m, star g (- bx) (- s) (- s2) pst (mmirror m) = (umirror (fst (star g bx s s2 pst m)), snd (star g bx s s2 pst m)).
Proof using.
  intros s s2 pst m. unfold star. rewrite mcons_of_mirror, ptot_mirror. cbv zeta. unfold mmirror, mirror. cbn [gas m_by m_bz w_d w_vx w_vy w_vz w_p].
  replace (- s - - w_vx (gas m)) with (- (s - w_vx (gas m))) by ring. replace (- s - - s2) with (- (s - s2)) by ring. set (sd := s - w_vx (gas m)). set (sdm := s - s2).
  replace (1 / - sdm) with (- (1 / sdm)) by (unfold Rdiv; rewrite Rinv_opp; ring). set (i := 1 / sdm).
  replace (w_d (gas m) * - sd * - i) with (w_d (gas m) * sd * i) by ring. set (d := w_d (gas m) * sd * i).
  replace (w_d (gas m) * - sd * - sdm - - bx * - bx) with (w_d (gas m) * sd * sdm - bx * bx) by ring. set (q := w_d (gas m) * sd * sdm - bx * bx).
  replace (- bx * (- sd - - sdm) / q) with (bx * (sd - sdm) / q) by (unfold Rdiv; ring).
  replace ((w_d (gas m) * SQR (- sd) - - bx * - bx) / q) with ((w_d (gas m) * SQR sd - bx * bx) / q) by (unfold Rdiv, SQR; ring).
  set (t := bx * (sd - sdm) / q). set (t2 := (w_d (gas m) * SQR sd - bx * bx) / q).
  assert (U : u_e (gasf (umirror (mcons_of g bx m))) = u_e (gasf (mcons_of g bx m))) by reflexivity. rewrite U.
  set (ee := u_e (gasf (mcons_of g bx m))). set (ii := 1 / d). clearbody ee ii t t2 q i d sdm sd. clear U.
  destruct (ltR (Rabs q) (1 / 10000 * pst)); cbn [fst snd]; unfold umirror; cbn [gasf f_by f_bz u_d u_m1 u_m2 u_m3 u_e]; f_equal; try (apply mcons_eq; [apply cons_eq | |]); try ring.
Qed.
Lemma bsign_opp : bx <> 0 -> bsign (- bx) = - bsign bx.
Proof using.
  intro N. unfold bsign. destruct (ltR 0 (- bx)) eqn:X; destruct (ltR 0 bx) eqn:Y; try lra; [apply ltR_true in X; apply ltR_true in Y; lra | apply ltR_false in X; apply ltR_false in Y; exfalso; apply N; lra].
Qed.
Lemma dstar_common_mirror : forall ul ur, bx <> 0 -> dstar_common (- bx) (umirror ur) (umirror ul) = dstar_common bx ul ur.
Proof using.
  intros ul ur N. unfold dstar_common. cbv zeta. rewrite bsign_opp by exact N. unfold umirror. cbn [gasf f_by f_bz u_d u_m1 u_m2 u_m3 u_e].
  set (a := sqrt (u_d (gasf ul))). set (b := sqrt (u_d (gasf ur))). rewrite (Rplus_comm b a). set (i := 1 / (a + b)). apply f_equal2; [apply f_equal2; [apply f_equal2 |] |]; ring.
Qed.
Lemma dstar_mirror : forall s2 sgn vb c u, bx <> 0 -> dstar (- bx) (- s2) (- sgn) vb c (umirror u) = umirror (dstar bx s2 sgn vb c u).
Proof using.
  intros s2 sgn vb [[[vy vz] by_] bz] u N. unfold dstar. cbv zeta. rewrite bsign_opp by exact N. unfold umirror. cbn [gasf f_by f_bz u_d u_m1 u_m2 u_m3 u_e]. unfold Rdiv. apply mcons_eq; [apply cons_eq | |]; ring.
Qed.
Lemma step_mirror : forall s f a b, mmap3 (fun f x y => f + - s * (x - y)) (mmirror_flux f) (umirror a) (umirror b) = mmirror_flux (mmap3 (fun f x y => f + s * (x - y)) f a b).
Proof using. intros. unfold mmap3, map3, mmirror_flux, mirror_flux, umirror. cbn [gasf f_by f_bz u_d u_m1 u_m2 u_m3 u_e]. apply mcons_eq; [apply cons_eq | |]; ring. Qed.
Lemma leR_flip : forall x, leR 0 (- x) = leR x 0.
Proof using. intro x. destruct (leR 0 (- x)) eqn:X; destruct (leR x 0) eqn:Y; try reflexivity; [apply leR_true in X; apply leR_false in Y | apply leR_false in X; apply leR_true in Y]; exfalso; lra. Qed.
Lemma leR_flip' : forall x, leR (- x) 0 = leR 0 x.
Proof using. intro x. pose proof (leR_flip (- x)) as H. rewrite Ropp_involutive in H. congruence. Qed.
Lemma HLLD_mirror : forall ml mr, good (Adi g) (gas ml) -> good (Adi g) (gas mr) -> spd2 g bx ml mr <> 0 -> HLLD g (- bx) (mmirror mr) (mmirror ml) = mmirror_flux (HLLD g bx ml mr).
Proof using G.
  intros ml mr Gl Gr NZ. destruct (spd_order ml mr Gl Gr) as (A & B & O). unfold HLLD. cbv zeta. rewrite spd0_mirror, spd4_mirror, spd2_mirror, ptst_mirror, !star_mirror, !mcons_of_mirror, !mflux_llf_eq, !mphysical_mirror by assumption.
  destruct (star g bx (spd0 g bx ml mr) (spd2 g bx ml mr) (ptst g bx ml mr) ml) as [ul vbl]. destruct (star g bx (spd4 g bx ml mr) (spd2 g bx ml mr) (ptst g bx ml mr) mr) as [ur vbr]. cbn [fst snd].
  set (s0 := spd0 g bx ml mr) in *. set (s4 := spd4 g bx ml mr) in *. set (s2 := spd2 g bx ml mr) in *. rewrite Rabs_Ropp. change (u_d (gasf (umirror ur))) with (u_d (gasf ur)). change (u_d (gasf (umirror ul))) with (u_d (gasf ul)).
  replace (- s2 - Rabs bx / sqrt (u_d (gasf ur))) with (- (s2 + Rabs bx / sqrt (u_d (gasf ur)))) by ring.
  replace (- s2 + Rabs bx / sqrt (u_d (gasf ul))) with (- (s2 - Rabs bx / sqrt (u_d (gasf ul)))) by ring.
  assert (PL : 0 <= Rabs bx / sqrt (u_d (gasf ul))). { unfold Rdiv. destruct (Req_dec (sqrt (u_d (gasf ul))) 0) as [Z|Z]; [rewrite Z, Rinv_0; lra |]. apply Rmult_le_pos; [apply Rabs_pos | left; apply Rinv_0_lt_compat; pose proof (sqrt_pos (u_d (gasf ul))); lra]. }
  assert (PR : 0 <= Rabs bx / sqrt (u_d (gasf ur))). { unfold Rdiv. destruct (Req_dec (sqrt (u_d (gasf ur))) 0) as [Z|Z]; [rewrite Z, Rinv_0; lra |]. apply Rmult_le_pos; [apply Rabs_pos | left; apply Rinv_0_lt_compat; pose proof (sqrt_pos (u_d (gasf ur))); lra]. }
  assert (BZ : bx = 0 -> Rabs bx / sqrt (u_d (gasf ul)) = 0 /\ Rabs bx / sqrt (u_d (gasf ur)) = 0) by (intros ->; rewrite Rabs_R0; unfold Rdiv; split; ring).
  set (s1 := s2 - Rabs bx / sqrt (u_d (gasf ul))). set (s3 := s2 + Rabs bx / sqrt (u_d (gasf ur))).
  rewrite !leR_flip, !leR_flip', !step_mirror.
  destruct (leR 0 s0) eqn:E0; destruct (leR s4 0) eqn:E4; try reflexivity.
  { apply leR_true in E0. apply leR_true in E4. lra. }
  destruct (leR 0 s1) eqn:E1; destruct (leR s3 0) eqn:E3; try reflexivity.
  { apply leR_true in E1. apply leR_true in E3. unfold s1 in E1. unfold s3 in E3. exfalso. apply NZ. lra. }
  apply leR_false in E1. apply leR_false in E3.
  assert (N : bx <> 0). { intro Z. destruct (BZ Z) as [Z1 Z2]. unfold s1 in E1. unfold s3 in E3. rewrite Z1 in E1. rewrite Z2 in E3. lra. }
  rewrite !dstar_common_mirror by exact N. set (c := dstar_common bx ul ur). replace (dstar (- bx) (- s2) (-1) vbr c (umirror ur)) with (umirror (dstar bx s2 1 vbr c ur)) by (rewrite <- dstar_mirror by exact N; f_equal; ring).
  replace (dstar (- bx) (- s2) 1 vbl c (umirror ul)) with (umirror (dstar bx s2 (-1) vbl c ul)) by (rewrite <- dstar_mirror by exact N; f_equal; ring).
  rewrite !step_mirror. destruct (leR s2 0) eqn:X; destruct (leR 0 s2) eqn:Y; try reflexivity.
  - apply leR_true in X. apply leR_true in Y. exfalso. apply NZ. lra.
  - apply leR_false in X. apply leR_false in Y. exfalso. lra.
Qed.
Lemma HLLD_left : forall ml mr, 0 <= spd0 g bx ml mr -> HLLD g bx ml mr = physical_mhd (Adi g) bx ml.
Proof using.
  intros ml mr H. unfold HLLD. cbv zeta. destruct (star _ _ _ _ _ ml) as [ul vbl]. destruct (star _ _ _ _ _ mr) as [ur vbr]. destruct (leR 0 (spd0 g bx ml mr)) eqn:K; [apply mflux_llf_eq | apply leR_false in K; lra].
Qed.
Lemma HLLD_right : forall ml mr, good (Adi g) (gas ml) -> good (Adi g) (gas mr) -> spd4 g bx ml mr <= 0 -> HLLD g bx ml mr = physical_mhd (Adi g) bx mr.
Proof using G.
  intros ml mr Gl Gr H. destruct (spd_order ml mr Gl Gr) as (_ & _ & O). unfold HLLD. cbv zeta. destruct (star _ _ _ _ _ ml) as [ul vbl]. destruct (star _ _ _ _ _ mr) as [ur vbr].
  destruct (leR 0 (spd0 g bx ml mr)) eqn:K; [apply leR_true in K; lra |]. destruct (leR (spd4 g bx ml mr) 0) eqn:L; [apply mflux_llf_eq | apply leR_false in L; lra].
Qed.
(** Equal states: the starred states are the state itself. *)
Lemma star_equal : forall s s2 pst m, good (Adi g) (gas m) -> s <> w_vx (gas m) -> s2 = w_vx (gas m) -> pst = ptot bx m -> 0 < pst -> star g bx s s2 pst m = (mcons_of g bx m, vdotb bx m).
Proof using G.
  intros s s2 pst m [D _] NE S2 PS PP. unfold star. subst s2. cbv zeta. assert (SD : s - w_vx (gas m) <> 0) by (intro X0; apply NE; lra). set (sd := s - w_vx (gas m)) in *.
  assert (I : w_d (gas m) * sd * (1 / sd) = w_d (gas m)) by (field; exact SD). rewrite I. clear I.
  destruct (ltR (Rabs (w_d (gas m) * sd * sd - bx * bx)) (1 / 10000 * pst)) eqn:K.
  - unfold mcons_of, vdotb. cbn [gasf u_e]. subst pst. f_equal; [apply mcons_eq; [apply cons_eq | |]; try ring; field; repeat apply conj; (exact SD || (intro X0; lra)) | field; intro X0; lra].
  - apply ltR_false in K. assert (Q : w_d (gas m) * sd * sd - bx * bx <> 0) by (intro X0; rewrite X0, Rabs_R0 in K; lra).
    assert (T1 : bx * (sd - sd) / (w_d (gas m) * sd * sd - bx * bx) = 0) by (field; exact Q). assert (T2 : (w_d (gas m) * SQR sd - bx * bx) / (w_d (gas m) * sd * sd - bx * bx) = 1) by (unfold SQR; field; exact Q).
    rewrite T1, T2. unfold mcons_of, vdotb. cbn [gasf u_e]. subst pst. f_equal; [apply mcons_eq; [apply cons_eq | |]; try ring; field; repeat apply conj; (exact SD || (intro X0; lra)) | field; intro X0; lra].
Qed.
Lemma step_same : forall s f u, mmap3 (fun f x y => f + s * (x - y)) f u u = f.
Proof using. intros. apply mmap3_eq. intros k H. ring. Qed.
Lemma spd2_equal : forall m, good (Adi g) (gas m) -> spd2 g bx m m = w_vx (gas m).
Proof using G.
  intros m Gm. destruct (spd_order m m Gm Gm) as (A & B & _). destruct Gm as [D _]. unfold spd2. cbv zeta. set (s0 := spd0 g bx m m) in *. set (s4 := spd4 g bx m m) in *. clearbody s0 s4. field. intro X0. nra.
Qed.
Lemma HLLD_consistent : forall m, good (Adi g) (gas m) -> HLLD g bx m m = physical_mhd (Adi g) bx m.
Proof using G.
  intros m Gm. destruct (spd_order m m Gm Gm) as (A & B & _). pose proof (spd2_equal m Gm) as S2.
  assert (PT : ptst g bx m m = ptot bx m) by (unfold ptst; rewrite S2; cbv zeta; field).
  assert (PP : 0 < ptot bx m). { unfold ptot, pbm, SQR. destruct Gm as [_ Q]. pose proof (Rle_0_sqr bx). pose proof (Rle_0_sqr (m_by m)). pose proof (Rle_0_sqr (m_bz m)). unfold Rsqr in *. lra. }
  unfold HLLD. cbv zeta. rewrite !star_equal; try assumption; try (intro X0; lra); try (rewrite PT; exact PP). rewrite S2.
  rewrite !step_same, !mflux_llf_eq.
  assert (DS : forall sgn, dstar bx (w_vx (gas m)) sgn (vdotb bx m) (dstar_common bx (mcons_of g bx m) (mcons_of g bx m)) (mcons_of g bx m) = mcons_of g bx m).
  { intro sgn. destruct Gm as [D _]. pose proof (sqrt_lt_R0 _ D) as SQ. unfold dstar, dstar_common. cbv zeta. unfold mcons_of. cbn [gasf f_by f_bz u_d u_m1 u_m2 u_m3 u_e]. set (a := sqrt (w_d (gas m))) in *. clearbody a. set (sg := bsign bx). clearbody sg. unfold vdotb.
    apply mcons_eq; [apply cons_eq | |]; try reflexivity; try (field; repeat apply conj; intro X0; lra); try (field; intro X0; lra). }
  rewrite !DS, !step_same. destruct (leR 0 _); [reflexivity |]. destruct (leR _ 0); [reflexivity |]. destruct (leR 0 _); [reflexivity |]. destruct (leR _ 0); [reflexivity |]. destruct (leR 0 _); reflexivity.
Qed.
End hlld.
