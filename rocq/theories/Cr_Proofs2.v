(** Proofs for C88: fluxes, signal speeds, field angles and streaming. *)
From Coq Require Import Reals ZArith Bool Lra Lia Psatz.
From Verif Require Import Fv_Model Met_Model Lud_Model Cr_Model Cr_Spec Cr_Proofs.
Local Open Scope R_scope.

Lemma TINY_pos : 0 < TINY.
Proof. unfold TINY. apply Rinv_0_lt_compat. apply pow_lt. lra. Qed.
Lemma lt_case : forall a b, (lt a b = true /\ a < b) \/ (lt a b = false /\ b <= a).
Proof. intros a b. unfold lt. destruct (Rlt_dec a b); [left|right]; split; auto; lra. Qed.
Lemma lt_true : forall a b, a < b -> lt a b = true.
Proof. intros a b H. destruct (lt_case a b) as [(-> & _)|(_ & G)]; [reflexivity|lra]. Qed.
Lemma lt_false : forall a b, b <= a -> lt a b = false.
Proof. intros a b H. destruct (lt_case a b) as [(_ & G)|(-> & _)]; [lra|reflexivity]. Qed.

(** ** The flux at a face *)
Lemma speeds_eq : forall vm l r, speeds vm l r = (fastest_right vm l r, fastest_left vm l r).
Proof.
  intros vm l r. unfold speeds, fastest_right, fastest_left; cbv zeta.
  replace (1 / 2 * (sv l + sv r)) with ((sv l + sv r) / 2) by field. replace (1 / 2 * (sd l + sd r)) with ((sd l + sd r) / 2) by field. replace (- vm * sqrt (1 / 3)) with (- (vm * sqrt (1 / 3))) by ring.
  set (a := Rmax ((sv l + sv r) / 2 + (sd l + sd r) / 2) (sv r + sd r)). set (b := Rmin ((sv l + sv r) / 2 - (sd l + sd r) / 2) (sv l - sd l)). set (c := vm * sqrt (1 / 3)). clearbody a b c.
  f_equal.
  - rewrite (Rmin_comm a c). destruct (lt_case 0 (Rmin c a)) as [(-> & H)|(-> & H)]; [rewrite Rmax_right|rewrite Rmax_left]; lra.
  - rewrite (Rmax_comm b (- c)). destruct (lt_case (Rmax (- c) b) 0) as [(-> & H)|(-> & H)]; [rewrite Rmin_right|rewrite Rmin_left]; lra.
Qed.
Lemma speeds_bounds : forall vm l r, 0 < vm -> 0 <= fastest_right vm l r <= vm * sqrt (1 / 3) /\ - (vm * sqrt (1 / 3)) <= fastest_left vm l r <= 0.
Proof.
  intros vm l r V. assert (C : 0 <= vm * sqrt (1 / 3)) by (apply Rmult_le_pos; [lra|apply sqrt_pos]). unfold fastest_right, fastest_left. set (c := vm * sqrt (1 / 3)) in *. clearbody c. repeat split.
  - apply Rmax_l.
  - apply Rmax_lub; [exact C|apply Rmin_l].
  - apply Rmin_glb; [lra|apply Rmax_l].
  - apply Rmin_l.
Qed.

Definition blend (bp bm pl pr ul ur : R) : R :=
  1 / 2 * ((pl - bm * ul) + (pr - bp * ur)) + ((pl - bm * ul) - (pr - bp * ur)) * (if lt TINY (Rabs (bm - bp)) then 1 / 2 * (bp + bm) / (bp - bm) else 0).
Definition state (s : side) : R * triple := (sE s, sF s).
Lemma CRFlux_comp : forall fdir vm l r n, (1 <= fdir <= 3)%nat -> (n <= 3)%nat ->
  comp n (CRFlux fdir vm l r) = blend (fastest_right vm l r) (fastest_left vm l r) (comp n (physical fdir vm (sE l) (sF l))) (comp n (physical fdir vm (sE r) (sF r))) (comp n (state l)) (comp n (state r)).
Proof.
  intros fdir vm l r n F N. unfold CRFlux; cbv zeta. rewrite speeds_eq. set (bp := fastest_right vm l r). set (bm := fastest_left vm l r). clearbody bp bm. unfold blend, state. set (T := if lt TINY (Rabs (bm - bp)) then _ else _). clearbody T.
  destruct l as [el [[l1 l2] l3] vl dl]. destruct r as [er [[r1 r2] r3] vr dr]. cbn [sE sF].
  assert (Fq : fdir = 1%nat \/ fdir = 2%nat \/ fdir = 3%nat) by lia. assert (Nq : n = 0%nat \/ n = 1%nat \/ n = 2%nat \/ n = 3%nat) by lia.
  destruct Fq as [->|[->| ->]]; destruct Nq as [->|[->|[->| ->]]]; cbn [comp physical pick nth3 fst snd]; field.
Qed.

Lemma blend_hll : forall bp bm pl pr ul ur, TINY < bp - bm -> blend bp bm pl pr ul ur = hll bp bm pl pr ul ur.
Proof.
  intros bp bm pl pr ul ur H. pose proof TINY_pos. unfold blend, hll. rewrite lt_true. 2: { rewrite Rabs_minus_sym, Rabs_pos_eq; lra. } field. lra.
Qed.
Lemma blend_same : forall bp bm p u, bm <= 0 <= bp -> Rabs (blend bp bm p p u u - p) <= TINY / 2 * Rabs u /\ (TINY < bp - bm -> blend bp bm p p u u = p).
Proof.
  intros bp bm p u B. pose proof TINY_pos as T. assert (G : TINY < bp - bm -> blend bp bm p p u u = p) by (intro H; rewrite blend_hll by exact H; unfold hll; field; lra). split; [|exact G].
  destruct (Rlt_le_dec TINY (bp - bm)) as [H|H].
  - rewrite (G H). replace (p - p) with 0 by ring. rewrite Rabs_R0. apply Rmult_le_pos; [lra|apply Rabs_pos].
  - unfold blend. rewrite lt_false. 2: { rewrite Rabs_minus_sym, Rabs_pos_eq; lra. }
    replace (1 / 2 * (p - bm * u + (p - bp * u)) + (p - bm * u - (p - bp * u)) * 0 - p) with (- (bp + bm) / 2 * u) by field. rewrite Rabs_mult. apply Rmult_le_compat_r; [apply Rabs_pos|]. apply Rabs_le. lra.
Qed.
Lemma fastest_gap : forall vm w, 0 < vm -> TINY < sd w -> TINY < vm * sqrt (1 / 3) -> TINY < fastest_right vm w w - fastest_left vm w w.
Proof.
  intros vm w V D C. pose proof TINY_pos as T. unfold fastest_right, fastest_left. replace ((sv w + sv w) / 2 + (sd w + sd w) / 2) with (sv w + sd w) by field. replace ((sv w + sv w) / 2 - (sd w + sd w) / 2) with (sv w - sd w) by field.
  rewrite Rmax_left with (x := sv w + sd w) by lra. rewrite Rmin_left with (x := sv w - sd w) by lra. set (c := vm * sqrt (1 / 3)) in *. clearbody c. destruct (Rle_dec 0 (sv w)) as [P|P].
  - assert (TINY < Rmin c (sv w + sd w)) by (apply Rmin_glb_lt; lra). pose proof (Rmax_r 0 (Rmin c (sv w + sd w))). pose proof (Rmin_l 0 (Rmax (- c) (sv w - sd w))). lra.
  - assert (Rmax (- c) (sv w - sd w) < - TINY) by (apply Rmax_lub_lt; lra). pose proof (Rmax_l 0 (Rmin c (sv w + sd w))). pose proof (Rmin_r 0 (Rmax (- c) (sv w - sd w))). lra.
Qed.

Lemma Rmin_opp : forall a b, Rmin (- a) (- b) = - Rmax a b.
Proof. intros a b. unfold Rmin, Rmax. destruct (Rle_dec (- a) (- b)), (Rle_dec a b); lra. Qed.
Lemma Rmax_opp : forall a b, Rmax (- a) (- b) = - Rmin a b.
Proof. intros a b. unfold Rmin, Rmax. destruct (Rle_dec (- a) (- b)), (Rle_dec a b); lra. Qed.
Lemma mirror_sv : forall fdir s, sv (mirror fdir s) = - sv s /\ sd (mirror fdir s) = sd s /\ sE (mirror fdir s) = sE s.
Proof. intros fdir s. unfold mirror. destruct (sF s) as [[? ?] ?]. auto. Qed.
Lemma mirror_speeds : forall fdir vm l r, fastest_right vm (mirror fdir r) (mirror fdir l) = - fastest_left vm l r /\ fastest_left vm (mirror fdir r) (mirror fdir l) = - fastest_right vm l r.
Proof.
  intros fdir vm l r. unfold fastest_right, fastest_left. destruct (mirror_sv fdir l) as (-> & -> & _). destruct (mirror_sv fdir r) as (-> & -> & _). set (c := vm * sqrt (1 / 3)). clearbody c. split.
  - rewrite <- Rmax_opp, Ropp_0, <- Rmin_opp, Ropp_involutive, <- Rmax_opp. f_equal. f_equal. f_equal; field.
  - rewrite <- Rmin_opp, Ropp_0, <- Rmax_opp, <- Rmin_opp. f_equal. f_equal. f_equal; field.
Qed.
Lemma blend_mirror : forall bp bm pl pr ul ur, blend (- bm) (- bp) pr pl (- ur) (- ul) = blend bp bm pl pr ul ur /\ blend (- bm) (- bp) (- pr) (- pl) ur ul = - blend bp bm pl pr ul ur.
Proof.
  intros bp bm pl pr ul ur. unfold blend. replace (- bp - - bm) with (bm - bp) by ring. replace (- bm - - bp) with (bp - bm) by ring.
  destruct (lt_case TINY (Rabs (bm - bp))) as [(-> & H)|(-> & _)]; [|split; field].
  assert (bp - bm <> 0). { intro Z. replace (bm - bp) with 0 in H by lra. rewrite Rabs_R0 in H. pose proof TINY_pos. lra. } split; field; lra.
Qed.

(** ** Diffusion speed *)
Lemma diffusion_bounds : forall vm tf s w, 0 < vm -> 0 <= tf * s * w -> 0 < diffusion_speed vm tf s w <= vm * sqrt (1 / 3).
Proof.
  intros vm tf s w V H. unfold diffusion_speed; cbv zeta. set (t := tf * s * w) in *. assert (T : 0 <= t * t / (2 * (1 / 3))) by (replace (t * t / (2 * (1 / 3))) with (3 / 2 * (t * t)) by field; nra).
  set (x := t * t / (2 * (1 / 3))) in *. clearbody x t. assert (S : 0 < sqrt (1 / 3)) by (apply sqrt_lt_R0; lra).
  assert (Q : forall y, 0 < y <= 1 -> 0 < vm * sqrt (1 / 3) * sqrt y <= vm * sqrt (1 / 3)).
  { intros y Y. assert (0 < sqrt y) by (apply sqrt_lt_R0; lra). assert (sqrt y <= 1) by (rewrite <- sqrt_1; apply sqrt_le_1_alt; lra). assert (0 < vm * sqrt (1 / 3)) by nra. nra. }
  destruct (lt_case x (1 / 1000)) as [(-> & L)|(-> & L)]; apply Q.
  - lra.
  - assert (E1 : 1 + - x <= exp (- x)) by (apply exp_ineq1_le). assert (E2 : exp (- x) < 1) by (rewrite <- exp_0; apply exp_increasing; lra). split.
    + apply Rdiv_lt_0_compat; lra.
    + apply Rmult_le_reg_r with x; [lra|]. replace ((1 - exp (- x)) / x * x) with (1 - exp (- x)) by (field; lra). lra.
Qed.
Lemma diffusion_free : forall vm tf w, diffusion_speed vm tf 0 w = vm * sqrt (1 / 3).
Proof.
  intros. unfold diffusion_speed; cbv zeta. replace (tf * 0 * w * (tf * 0 * w) / (2 * (1 / 3))) with 0 by field. rewrite lt_true by lra. replace (1 - 1 / 2 * 0) with 1 by ring. rewrite sqrt_1. ring.
Qed.

(** ** Angles of the field *)
Lemma sq_sum : forall a b, 0 <= a * a + b * b.
Proof. intros. nra. Qed.
Lemma angles_unit : forall b, unit_angles (angles b).
Proof.
  intros [[b1 b2] b3]. unfold angles; cbv zeta. pose proof TINY_pos as T. set (P := sqrt (b1 * b1 + b2 * b2)). set (Q := sqrt (b1 * b1 + b2 * b2 + b3 * b3)).
  assert (HP : P * P = b1 * b1 + b2 * b2) by (apply sqrt_sqrt; nra). assert (HQ : Q * Q = b1 * b1 + b2 * b2 + b3 * b3) by (apply sqrt_sqrt; nra). clearbody P Q.
  destruct (lt_case TINY Q) as [(-> & LQ)|(-> & LQ)]; destruct (lt_case TINY P) as [(-> & LP)|(-> & LP)]; unfold unit_angles; split; try ring.
  all: try (replace (P / Q * (P / Q) + b3 / Q * (b3 / Q)) with ((P * P + b3 * b3) / (Q * Q)) by (field; lra); rewrite HP, HQ; field; rewrite <- HQ; nra).
  all: replace (b2 / P * (b2 / P) + b1 / P * (b1 / P)) with ((b2 * b2 + b1 * b1) / (P * P)) by (field; lra); rewrite HP; field; rewrite <- HP; nra.
Qed.
Lemma angles_aligned : forall b1 b2 b3, TINY < sqrt (b1 * b1 + b2 * b2) \/ (b1 = 0 /\ b2 = 0) -> TINY < sqrt (b1 * b1 + b2 * b2 + b3 * b3) ->
  (b1, b2, b3) = scale (sqrt (b1 * b1 + b2 * b2 + b3 * b3)) (axis true (angles (b1, b2, b3)) 1).
Proof.
  intros b1 b2 b3 H LQ. unfold angles; cbv zeta. pose proof TINY_pos as T. rewrite (lt_true _ _ LQ). destruct H as [LP|(-> & ->)].
  - rewrite (lt_true _ _ LP). cbn [axis scale]. set (P := sqrt (b1 * b1 + b2 * b2)) in *. set (Q := sqrt (b1 * b1 + b2 * b2 + b3 * b3)) in *. clearbody P Q. f_equal; [f_equal|]; field; lra.
  - replace (0 * 0 + 0 * 0) with 0 in * by ring. rewrite sqrt_0 in *. rewrite lt_false by lra. cbn [axis scale]. set (Q := sqrt (0 + b3 * b3)) in *. clearbody Q. f_equal; [f_equal|]; field; lra.
Qed.
