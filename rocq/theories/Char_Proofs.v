(** The speeds and the weights of the waves. *)
From Coq Require Import Reals ZArith Bool PeanoNat Lia Lra Psatz.
From Verif Require Import Time_Model Time_Proofs Rec_Model Char_Model Char_Spec.
Local Open Scope R_scope.

Lemma sq_inj : forall x y, 0 <= x -> 0 <= y -> x * x = y * y -> x = y.
Proof. intros x y X Y E. nra. Qed.
Lemma sq0 : forall x, x * x = 0 -> x = 0.
Proof. intros x H. nra. Qed.
Lemma zero_r : forall a x, 0 < a -> a * x = 0 -> x = 0.
Proof. intros a x A H. destruct (Rmult_integral _ _ H); lra. Qed.
Lemma sq_sqrt : forall x, 0 <= x -> sqrt x * sqrt x = x.
Proof. intros. apply sqrt_sqrt. assumption. Qed.

(** All that is used about a state: r is the root of the density. *)
Record waves (r a cf cs af as_ b1 by_ bz bt s : R) : Prop := {
  w_r : 0 < r; w_a : 0 < a; w_cf : 0 < cf; w_cs : 0 <= cs; w_le : cs * cs <= a * a <= cf * cf;
  w_s : s * s = 1; w_sb : 0 <= s * b1;
  w_al : af * af + as_ * as_ = 1;
  w_en : af * af * cf * cf + as_ * as_ * cs * cs = a * a;
  w_e1 : af * (cf * cf - a * a) * r = as_ * a * bt;
  w_e2 : af * bt * a = as_ * r * (a * a - cs * cs);
  w_e3 : cs * cf * r = a * (s * b1);
  w_bt : 0 <= bt; w_bb : bt * bt = by_ * by_ + bz * bz;
  w_sum : (cf * cf + cs * cs) * (r * r) = a * a * (r * r) + b1 * b1 + bt * bt }.

Lemma SIGN_sq : forall x, SIGN x * SIGN x = 1.
Proof. intro x. unfold SIGN. destruct (ltR x 0); ring. Qed.
Lemma SIGN_abs : forall x, 0 <= SIGN x * x.
Proof. intro x. unfold SIGN, ltR. destruct Rlt_dec; nra. Qed.

Lemma waves_gen : forall X T G ρ b1 by_ bz bt af as_, 0 < ρ -> 0 < G -> X = b1 * b1 -> T = by_ * by_ + bz * bz -> bt = sqrt T ->
  let D := sqrt ((X + T - G) * (X + T - G) + 4 * G * T) in
  let F := 1 / 2 * (X + T + G + D) in
  let S := G * X / F in
  let cfsq := F * (1 / ρ) in let cssq := S * (1 / ρ) in let asq := G * (1 / ρ) in
  af = (if leR (cfsq - cssq) 0 then 1 else if leR (asq - cssq) 0 then 0 else if leR (cfsq - asq) 0 then 1 else sqrt ((asq - cssq) / (cfsq - cssq))) ->
  as_ = (if leR (cfsq - cssq) 0 then 0 else if leR (asq - cssq) 0 then 1 else if leR (cfsq - asq) 0 then 0 else sqrt ((cfsq - asq) / (cfsq - cssq))) ->
  waves (sqrt ρ) (sqrt asq) (sqrt cfsq) (sqrt cssq) af as_ b1 by_ bz bt (SIGN b1).
Proof.
  intros X T G ρ b1 by_ bz bt af as_ Hρ HG HX HT Hbt D F S cfsq cssq asq Haf Has.
  assert (X0 : 0 <= X) by nra. assert (T0 : 0 <= T) by nra.
  assert (DD : D * D = (X + T - G) * (X + T - G) + 4 * G * T) by (apply sq_sqrt; apply Rplus_le_le_0_compat; [apply Rle_0_sqr|apply Rmult_le_pos; lra]).
  assert (D0 : 0 <= D) by apply sqrt_pos. clearbody D.
  assert (D1 : G - X - T <= D) by nra. assert (D2 : X + T - G <= D) by nra.
  assert (F0 : G <= F) by (unfold F; lra). assert (F1 : 0 < F) by lra.
  assert (FS : F * S = G * X) by (unfold S; field; lra).
  assert (ES : S = 1 / 2 * (X + T + G - D)) by (apply (Rmult_eq_reg_l F); [rewrite FS; unfold F; nra|lra]).
  assert (S1 : S <= G) by (rewrite ES; lra). assert (S0 : 0 <= S) by (unfold S; apply Rmult_le_pos; [nra|left; apply Rinv_0_lt_compat; lra]).
  assert (SUM : F + S = X + T + G) by (rewrite ES; unfold F; lra).
  assert (PR : (F - G) * (G - S) = G * T) by nra.
  pose proof (sqrt_lt_R0 ρ Hρ) as R0. pose proof (sq_sqrt ρ (Rlt_le _ _ Hρ)) as RR. set (r := sqrt ρ) in *.
  assert (ir : 0 < 1 / ρ) by (apply Rdiv_lt_0_compat; lra). 
  assert (A0 : 0 < asq) by (apply Rmult_lt_0_compat; lra). assert (C0 : 0 < cfsq) by (apply Rmult_lt_0_compat; lra). assert (E0 : 0 <= cssq) by (apply Rmult_le_pos; lra).
  assert (AC : asq <= cfsq) by (apply Rmult_le_compat_r; lra). assert (SA : cssq <= asq) by (apply Rmult_le_compat_r; lra).
  pose proof (sqrt_lt_R0 asq A0) as a0. pose proof (sq_sqrt asq (Rlt_le _ _ A0)) as aa. set (a := sqrt asq) in *.
  pose proof (sqrt_lt_R0 cfsq C0) as c0. pose proof (sq_sqrt cfsq (Rlt_le _ _ C0)) as cc. set (cf := sqrt cfsq) in *.
  pose proof (sqrt_pos cssq) as e0. pose proof (sq_sqrt cssq E0) as ee. set (cs := sqrt cssq) in *.
  assert (B0 : 0 <= bt) by (rewrite Hbt; apply sqrt_pos). assert (BB : bt * bt = T) by (rewrite Hbt; apply sq_sqrt; lra).
  assert (FSa : cfsq * ρ = F) by (unfold cfsq; field; lra). assert (SSa : cssq * ρ = S) by (unfold cssq; field; lra). assert (GGa : asq * ρ = G) by (unfold asq; field; lra).
  assert (PM : (cfsq - asq) * (asq - cssq) * ρ = asq * T). { apply (Rmult_eq_reg_r ρ); [|lra]. replace ((cfsq - asq) * (asq - cssq) * ρ * ρ) with ((cfsq * ρ - asq * ρ) * (asq * ρ - cssq * ρ)) by ring. rewrite FSa, SSa, GGa, PR, <- GGa. ring. }
  assert (E3 : cs * cf * r = a * (SIGN b1 * b1)).
  { apply sq_inj; [apply Rmult_le_pos; [apply Rmult_le_pos; lra|lra]|apply Rmult_le_pos; [lra|apply SIGN_abs]|].
    replace (cs * cf * r * (cs * cf * r)) with ((cs * cs) * (cf * cf) * (r * r)) by ring. replace (a * (SIGN b1 * b1) * (a * (SIGN b1 * b1))) with ((a * a) * (SIGN b1 * SIGN b1) * (b1 * b1)) by ring.
    rewrite ee, cc, RR, aa, SIGN_sq, <- HX. apply (Rmult_eq_reg_r ρ); [|lra]. replace (cssq * cfsq * ρ * ρ) with ((cfsq * ρ) * (cssq * ρ)) by ring. rewrite FSa, SSa, FS, <- GGa. ring. }
  assert (K : af * af + as_ * as_ = 1 /\ af * af * cf * cf + as_ * as_ * cs * cs = a * a /\ af * (cf * cf - a * a) * r = as_ * a * bt /\ af * bt * a = as_ * r * (a * a - cs * cs)).
  { rewrite cc, aa, ee. replace (af * af * cf * cf) with (af * af * (cf * cf)) by ring. replace (as_ * as_ * cs * cs) with (as_ * as_ * (cs * cs)) by ring. rewrite cc, ee.
    unfold leR in Haf, Has. destruct (Rle_dec (cfsq - cssq) 0) as [H|H].
    { assert (P1 : cfsq = asq) by lra. assert (P2 : cssq = asq) by lra. assert (B1 : bt = 0). { rewrite P1, P2 in PM. apply sq0. rewrite BB. apply (zero_r asq); [lra|lra]. }
      rewrite Haf, Has, B1, P1, P2. repeat split; ring. }
    destruct (Rle_dec (asq - cssq) 0) as [H1|H1].
    { assert (P2 : cssq = asq) by lra. assert (B1 : bt = 0). { rewrite P2 in PM. apply sq0. rewrite BB. apply (zero_r asq); [lra|lra]. }
      rewrite Haf, Has, B1, P2. repeat split; ring. }
    destruct (Rle_dec (cfsq - asq) 0) as [H2|H2].
    { assert (P1 : cfsq = asq) by lra. assert (B1 : bt = 0). { rewrite P1 in PM. apply sq0. rewrite BB. apply (zero_r asq); [lra|lra]. }
      rewrite Haf, Has, B1, P1. repeat split; ring. }
    assert (Q1 : 0 <= (asq - cssq) / (cfsq - cssq)) by (apply Rmult_le_pos; [lra|left; apply Rinv_0_lt_compat; lra]).
    assert (Q2 : 0 <= (cfsq - asq) / (cfsq - cssq)) by (apply Rmult_le_pos; [lra|left; apply Rinv_0_lt_compat; lra]).
    assert (FF : af * af = (asq - cssq) / (cfsq - cssq)) by (rewrite Haf; apply sq_sqrt; exact Q1).
    assert (AA : as_ * as_ = (cfsq - asq) / (cfsq - cssq)) by (rewrite Has; apply sq_sqrt; exact Q2).
    assert (af0 : 0 <= af) by (rewrite Haf; apply sqrt_pos). assert (as0 : 0 <= as_) by (rewrite Has; apply sqrt_pos).
    split; [rewrite FF, AA; field; lra|]. split; [rewrite FF, AA; field; lra|]. split.
    - apply sq_inj; [apply Rmult_le_pos; [apply Rmult_le_pos; lra|lra]|apply Rmult_le_pos; [apply Rmult_le_pos; lra|lra]|].
      replace (af * (cfsq - asq) * r * (af * (cfsq - asq) * r)) with (af * af * ((cfsq - asq) * (cfsq - asq)) * (r * r)) by ring.
      replace (as_ * a * bt * (as_ * a * bt)) with (as_ * as_ * ((a * a) * (bt * bt))) by ring. rewrite FF, AA, RR, aa, BB, <- PM. field. lra.
    - apply sq_inj; [apply Rmult_le_pos; [apply Rmult_le_pos; lra|lra]|apply Rmult_le_pos; [apply Rmult_le_pos; lra|lra]|].
      replace (af * bt * a * (af * bt * a)) with (af * af * ((a * a) * (bt * bt))) by ring.
      replace (as_ * r * (asq - cssq) * (as_ * r * (asq - cssq))) with (as_ * as_ * ((asq - cssq) * (asq - cssq)) * (r * r)) by ring. rewrite FF, AA, RR, aa, BB, <- PM. field. lra. }
  destruct K as (K1 & K2 & K3 & K4).
  assert (L1 : bt * bt = by_ * by_ + bz * bz) by (rewrite BB; exact HT).
  assert (L2 : (cf * cf + cs * cs) * (r * r) = a * a * (r * r) + b1 * b1 + bt * bt) by (rewrite cc, ee, RR, aa, BB, <- HX; replace ((cfsq + cssq) * ρ) with (cfsq * ρ + cssq * ρ) by ring; rewrite FSa, SSa, GGa; lra).
  assert (L3 : cs * cs <= a * a <= cf * cf) by (rewrite cc, ee, aa; split; assumption).
  constructor; try assumption; [apply SIGN_sq|apply SIGN_abs].
Qed.

Lemma waves_model : forall adi g b1 w, physical adi g w ->
  waves (sqrt (w IDN)) (a_of adi g w) (cf_of adi g b1 w) (cs_of adi g b1 w) (alpha_f_of adi g b1 w) (alpha_s_of adi g b1 w) b1 (w (IBY adi)) (w (IBZ adi)) (sqrt (btsq_of adi w)) (SIGN b1).
Proof.
  intros adi g b1 w (D & G & P).
  assert (GP : 0 < gamp_of adi g w) by (unfold gamp_of, SQR; destruct adi; [specialize (P eq_refl); apply Rmult_lt_0_compat; assumption|apply Rmult_lt_0_compat; [nra|assumption]]).
  assert (EA : asq_of adi g w = gamp_of adi g w * (1 / w IDN)) by (unfold asq_of, gamp_of, SQR; destruct adi; [reflexivity|unfold IDN in *; field; lra]).
  assert (Ea : a_of adi g w = sqrt (gamp_of adi g w * (1 / w IDN))). { rewrite <- EA. unfold a_of. destruct adi; [reflexivity|]. unfold asq_of, SQR. symmetry. apply sqrt_square. lra. }
  rewrite Ea. unfold cf_of, cs_of, cfsq_of, cssq_of, cssq0, cfsq0. cbv zeta.
  apply (waves_gen (b1 * b1) (btsq_of adi w) (gamp_of adi g w) (w IDN)); try assumption; try reflexivity.
  - unfold alpha_f_of. cbv zeta. rewrite EA. reflexivity.
  - unfold alpha_s_of. cbv zeta. rewrite EA. reflexivity.
Qed.
Lemma asq_a : forall adi g w, physical adi g w -> asq_of adi g w = a_of adi g w * a_of adi g w.
Proof.
  intros adi g w (D & G & P). unfold a_of. destruct adi; [|reflexivity]. symmetry. apply sq_sqrt. unfold asq_of, gamp_of. apply Rmult_le_pos; [specialize (P eq_refl); unfold IPR, pos_p in *; apply Rmult_le_pos; lra|]. unfold IDN in *. left. apply Rdiv_lt_0_compat; lra.
Qed.

(** The direction of the transverse field. *)
Lemma bet_unit : forall adi d2 w, d2 * d2 = 1 \/ sqrt (btsq_of adi w) <> 0 -> bet2_of adi d2 w * bet2_of adi d2 w + bet3_of adi w * bet3_of adi w = 1.
Proof.
  intros adi d2 w H. unfold bet2_of, bet3_of. destruct (Req_EM_T (sqrt (btsq_of adi w)) 0) as [E|E]; [destruct H as [H|H]; [rewrite H; ring|contradiction]|].
  pose proof (sq_sqrt (btsq_of adi w)) as B. set (bt := sqrt (btsq_of adi w)) in *. unfold btsq_of, SQR in B. 
  assert (0 <= w (IBY adi) * w (IBY adi) + w (IBZ adi) * w (IBZ adi)) by nra. specialize (B H0). replace (w (IBY adi) / bt * (w (IBY adi) / bt) + w (IBZ adi) / bt * (w (IBZ adi) / bt)) with ((w (IBY adi) * w (IBY adi) + w (IBZ adi) * w (IBZ adi)) / (bt * bt)) by (field; exact E). rewrite <- B. field. exact E.
Qed.
Lemma bt0 : forall adi w, sqrt (btsq_of adi w) = 0 <-> w (IBY adi) = 0 /\ w (IBZ adi) = 0.
Proof.
  intros adi w. pose proof (sq_sqrt (btsq_of adi w)) as B. unfold btsq_of, SQR in *. set (y := w (IBY adi)) in *. set (z := w (IBZ adi)) in *. assert (P : 0 <= y * y + z * z) by nra. specialize (B P). split; [intro E; rewrite E, Rmult_0_l in B; split; apply sq0; nra|intros [-> ->]]. replace (0 * 0 + 0 * 0) with 0 by ring. apply sqrt_0.
Qed.
Lemma bet_by : forall adi d2 w, w (IBY adi) = bet2_of adi d2 w * sqrt (btsq_of adi w) /\ w (IBZ adi) = bet3_of adi w * sqrt (btsq_of adi w).
Proof.
  intros adi d2 w. pose proof (bt0 adi w) as Z. unfold bet2_of, bet3_of. destruct (Req_EM_T (sqrt (btsq_of adi w)) 0) as [E|E]; [destruct (proj1 Z E) as [Y Z']; rewrite Y, Z', E; split; ring|split; field; exact E].
Qed.
Lemma bet_right : forall adi w, sqrt (btsq_of adi w) <> 0 -> bet2_of adi right_d2 w = bet2_of adi left_d2 w.
Proof. intros adi w H. unfold bet2_of. destruct Req_EM_T; [contradiction|reflexivity]. Qed.
