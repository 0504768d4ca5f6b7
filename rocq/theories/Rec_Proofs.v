(** Proofs about the piecewise linear method. *)
From Coq Require Import Reals ZArith Bool Lia Lra Psatz.
From Verif Require Import Time_Model Time_Proofs Rec_Model Rec_Spec.
Local Open Scope R_scope.

Lemma leR_cases : forall a b, (leR a b = true /\ a <= b) \/ (leR a b = false /\ b < a).
Proof. intros a b. destruct (leR a b) eqn:E; [left; split; [reflexivity|apply leR_true; exact E]|right; split; [reflexivity|apply leR_false in E; lra]]. Qed.
Lemma prod_pos : forall a b, 0 < a * b -> (0 < a /\ 0 < b) \/ (a < 0 /\ b < 0).
Proof. intros a b H. destruct (Rtotal_order a 0) as [A|[A|A]]; [right; split; [exact A|nra]|subst; lra|left; split; [exact A|nra]]. Qed.

(** A slope s is fine for the upper face at fraction u and the lower face at fraction v of the differences r (up) and l (down) when 0 <= u s <= r and 0 <= v s <= l, up to sign. *)
Lemma bounded_intro : forall q i a b, (0 <= a <= q (i + 1)%Z - q i \/ q (i + 1)%Z - q i <= a <= 0) -> (0 <= b <= q i - q (i - 1)%Z \/ q i - q (i - 1)%Z <= b <= 0) -> bounded q i (q i + a, q i - b).
Proof. intros q i a b A B. unfold bounded, between, Rmin, Rmax; cbn [fst snd]. split; [destruct A|destruct B]; repeat destruct Rle_dec; lra. Qed.
Lemma zero_fine : forall d, 0 <= 0 <= d \/ d <= 0 <= 0.
Proof. intro d. destruct (Rle_or_lt 0 d); [left|right]; lra. Qed.

Section Cell.
Variables (xf xv q : line) (i : Z).
Hypothesis M : mesh xf xv i.
Let W := dxf xf i.
Let U := xf (i + 1)%Z - xv i.
Let D := xv i - xf i.
Let F := dxv xv i.
Let B := dxv xv (i - 1)%Z.
Let r := q (i + 1)%Z - q i.
Let l := q i - q (i - 1)%Z.
Lemma sizes : 0 < U /\ 0 < D /\ W = U + D /\ U < F /\ D < B.
Proof.
  unfold W, U, D, F, B, dxf, dxv. replace (i - 1 + 1)%Z with i by lia. pose proof (M i ltac:(lia)). pose proof (M (i + 1)%Z ltac:(lia)). pose proof (M (i - 1)%Z ltac:(lia)) as P.
  replace (i - 1 + 1)%Z with i in P by lia. lra.
Qed.
Lemma frac_le : forall u f x, 0 < u -> u < f -> 0 <= x -> 0 <= u * (x / f) <= x.
Proof.
  intros u f x Hu Hf Hx. assert (0 <= x / f) by (apply Rmult_le_pos; [lra|left; apply Rinv_0_lt_compat; lra]). assert (X : f * (x / f) = x) by (field; lra). split; [nra|]. nra.
Qed.
(** States from a slope dqm whose scaled values U/W dqm and D/W dqm stay within the differences. *)
Lemma states_bounded : forall s, ((0 <= s /\ U * s <= r * W /\ D * s <= l * W /\ 0 <= r /\ 0 <= l) \/ (s <= 0 /\ r * W <= U * s /\ l * W <= D * s /\ r <= 0 /\ l <= 0) \/ s = 0) -> bounded q i (plm_states xf xv q i s).
Proof.
  intros s H. pose proof sizes as S. unfold plm_states. fold U D W. apply bounded_intro; fold r l.
  - destruct H as [H|[H|H]]; [left|right|subst s; rewrite Rmult_0_r; apply zero_fine]; assert (X : U / W * s = U * s / W) by (field; lra); rewrite X; assert (Y : W * (U * s / W) = U * s) by (field; lra); split; nra.
  - destruct H as [H|[H|H]]; [left|right|subst s; rewrite Rmult_0_r; apply zero_fine]; assert (X : D / W * s = D * s / W) by (field; lra); rewrite X; assert (Y : W * (D * s / W) = D * s) by (field; lra); split; nra.
Qed.
Lemma mm_stretched : bounded q i (plm_states xf xv q i (plm_slope true false xf xv q i)).
Proof.
  apply states_bounded. pose proof sizes as S. unfold plm_slope. fold W F B r l. cbv zeta. unfold minmod.
  destruct (leR_cases (l * r) 0) as [[-> _]|[-> P]]; [right; right; reflexivity|].
  assert (BW : forall x, x * W / B = x / B * W) by (intros; field; lra). assert (FW : forall x, x * W / F = x / F * W) by (intros; field; lra). rewrite BW, FW.
  apply prod_pos in P. destruct P as [[L R]|[L R]].
  - assert (0 < l / B) by (apply Rdiv_lt_0_compat; lra). assert (0 < r / F) by (apply Rdiv_lt_0_compat; lra).
    destruct (leR_cases 0 (l / B * W)) as [[-> _]|[_ X]]; [|exfalso; nra]. left.
    pose proof (frac_le U F r ltac:(tauto) ltac:(tauto) ltac:(lra)). pose proof (frac_le D B l ltac:(tauto) ltac:(tauto) ltac:(lra)).
    unfold Rmin; destruct Rle_dec; split; nra.
  - assert (0 < (- l) / B) by (apply Rdiv_lt_0_compat; lra). assert (0 < (- r) / F) by (apply Rdiv_lt_0_compat; lra).
    assert (L1 : l / B = - (- l / B)) by (field; lra). assert (R1 : r / F = - (- r / F)) by (field; lra). rewrite L1, R1.
    destruct (leR_cases 0 (- (- l / B) * W)) as [[_ X]|[-> _]]; [exfalso; nra|]. right; left.
    pose proof (frac_le U F (- r) ltac:(tauto) ltac:(tauto) ltac:(lra)). pose proof (frac_le D B (- l) ltac:(tauto) ltac:(tauto) ltac:(lra)).
    unfold Rmax; destruct Rle_dec; split; nra.
Qed.
Lemma mignone_core : forall cf cb a b, 0 < a -> 0 < b -> 3 / 2 <= cf -> 3 / 2 <= cb ->
  let s := a * b * (cf * b + cb * a) / (b * b + a * a + a * b * (cf + cb - 2)) in 0 <= s /\ s <= cf * a /\ s <= cb * b.
Proof.
  intros cf cb a b Ha Hb Hf Hc. cbv zeta. assert (AB : 0 < a * b) by (apply Rmult_lt_0_compat; assumption).
  assert (N : 0 < b * b + a * a + a * b * (cf + cb - 2)) by nra. set (n := b * b + a * a + a * b * (cf + cb - 2)) in *. set (x := a * b * (cf * b + cb * a)).
  assert (E : n * (x / n) = x) by (field; lra). set (s := x / n) in *.
  assert (X0 : 0 <= x). { unfold x. apply Rmult_le_pos; nra. }
  assert (X1 : x <= n * (cf * a)).
  { unfold x, n. assert (K0 : 0 <= cf * (cf - 2) + cb * (cf - 1)) by nra. assert (K : 0 <= cf * a + b * (cf * (cf - 2) + cb * (cf - 1))) by (apply Rplus_le_le_0_compat; apply Rmult_le_pos; lra). assert (K2 : 0 <= a * a * (cf * a + b * (cf * (cf - 2) + cb * (cf - 1)))) by (apply Rmult_le_pos; [nra|exact K]). lra. }
  assert (X2 : x <= n * (cb * b)).
  { unfold x, n. assert (K0 : 0 <= cb * (cb - 2) + cf * (cb - 1)) by nra. assert (K : 0 <= cb * b + a * (cb * (cb - 2) + cf * (cb - 1))) by (apply Rplus_le_le_0_compat; apply Rmult_le_pos; lra). assert (K2 : 0 <= b * b * (cb * b + a * (cb * (cb - 2) + cf * (cb - 1)))) by (apply Rmult_le_pos; [nra|exact K]). lra. }
  repeat split; nra.
Qed.
Lemma vl_stretched : smooth xf xv i -> bounded q i (plm_states xf xv q i (plm_slope false false xf xv q i)).
Proof.
  intro SM. apply states_bounded. pose proof sizes as S. unfold plm_slope. fold W F B U D r l. cbv zeta.
  destruct (leR_cases (r * W / F * (l * W / B)) 0) as [[-> _]|[-> P]]; [right; right; reflexivity|].
  assert (CF : 3 / 2 <= F / U). { assert (E : U * (F / U) = F) by (field; lra). destruct SM as [SM _]. assert (F = (xv (i + 1)%Z - xf (i + 1)%Z) + U) by (unfold F, U, dxv; lra). fold U in SM. nra. }
  assert (CB : 3 / 2 <= B / D). { assert (E : D * (B / D) = B) by (field; lra). destruct SM as [_ SM]. assert (B = (xf i - xv (i - 1)%Z) + D) by (unfold B, D, dxv; replace (i - 1 + 1)%Z with i by lia; lra). fold D in SM. nra. }
  assert (EF : forall x, F / U * (x * W / F) * U = x * W) by (intros; field; lra). assert (EB : forall x, B / D * (x * W / B) * D = x * W) by (intros; field; lra).
  apply prod_pos in P. assert (RF : r = r * W / F * (F / W)) by (field; lra). assert (LB : l = l * W / B * (B / W)) by (field; lra).
  assert (F0 : 0 < F / W) by (apply Rdiv_lt_0_compat; lra). assert (B0 : 0 < B / W) by (apply Rdiv_lt_0_compat; lra).
  pose proof (EF r) as ER. pose proof (EB l) as EL.
  set (a := r * W / F) in *. set (b := l * W / B) in *. destruct P as [[A P]|[A P]].
  - left. pose proof (mignone_core (F / U) (B / D) a b A P CF CB) as [S0 [S1 S2]]. set (s := a * b * _ / _) in *. assert (U * s <= U * (F / U * a)) by (apply Rmult_le_compat_l; lra). assert (D * s <= D * (B / D * b)) by (apply Rmult_le_compat_l; lra). assert (0 <= a * (F / W)) by (apply Rmult_le_pos; lra). assert (0 <= b * (B / W)) by (apply Rmult_le_pos; lra). repeat split; lra.
  - right; left. pose proof (mignone_core (F / U) (B / D) (- a) (- b) ltac:(lra) ltac:(lra) CF CB) as [S0 [S1 S2]].
    set (x := F / U) in *. set (y := B / D) in *.
    assert (E : a * b * (x * b + y * a) / (b * b + a * a + a * b * (x + y - 2)) = - (- a * - b * (x * - b + y * - a) / (- b * - b + - a * - a + - a * - b * (x + y - 2)))).
    { replace (- b * - b + - a * - a + - a * - b * (x + y - 2)) with (b * b + a * a + a * b * (x + y - 2)) by ring. assert (AB : 0 < a * b) by nra. assert (N : 0 < b * b + a * a + a * b * (x + y - 2)) by nra. field. intro X0. lra. }
    rewrite E. set (s := - a * - b * _ / _) in *. assert (U * s <= U * (x * - a)) by (apply Rmult_le_compat_l; lra). assert (D * s <= D * (y * - b)) by (apply Rmult_le_compat_l; lra). assert (0 <= - a * (F / W)) by (apply Rmult_le_pos; lra). assert (0 <= - b * (B / W)) by (apply Rmult_le_pos; lra). repeat split; lra.
Qed.
Lemma even_sizes : even xf xv -> exists h, 0 < h /\ W = h /\ U = h / 2 /\ D = h / 2.
Proof. intros [h [H E]]. exists h. unfold W, U, D, dxf. destruct (E i) as [E1 E2]. rewrite E1, E2. repeat split; lra. Qed.
Lemma mm_even : even xf xv -> bounded q i (plm_states xf xv q i (plm_slope true true xf xv q i)).
Proof.
  intro EV. destruct (even_sizes EV) as [h [H [EW [EU ED]]]]. apply states_bounded. rewrite EW, EU, ED. unfold plm_slope. fold r l. cbv zeta. unfold minmod.
  destruct (leR_cases (l * r) 0) as [[-> _]|[-> P]]; [right; right; reflexivity|]. apply prod_pos in P. destruct P as [[L R]|[L R]].
  - destruct (leR_cases 0 l) as [[-> _]|[_ X]]; [|lra]. left. unfold Rmin; destruct Rle_dec; repeat split; nra.
  - destruct (leR_cases 0 l) as [[_ X]|[-> _]]; [lra|]. right; left. unfold Rmax; destruct Rle_dec; repeat split; nra.
Qed.
Lemma vl_even : even xf xv -> bounded q i (plm_states xf xv q i (plm_slope false true xf xv q i)).
Proof.
  intro EV. destruct (even_sizes EV) as [h [H [EW [EU ED]]]]. apply states_bounded. rewrite EW, EU, ED. unfold plm_slope. fold r l. cbv zeta.
  destruct (leR_cases (l * r) 0) as [[-> _]|[-> P]]; [right; right; reflexivity|]. pose proof P as P'. apply prod_pos in P'. destruct P' as [[L R]|[L R]].
  - left. assert (E : (l + r) * (2 * (l * r) / (l + r)) = 2 * (l * r)) by (field; lra). set (s := 2 * (l * r) / (l + r)) in *. assert (0 <= s) by nra. assert (s <= 2 * r) by nra. assert (s <= 2 * l) by nra. repeat split; nra.
  - right; left. assert (E : (l + r) * (2 * (l * r) / (l + r)) = 2 * (l * r)) by (field; lra). set (s := 2 * (l * r) / (l + r)) in *. assert (s <= 0) by nra. assert (2 * r <= s) by nra. assert (2 * l <= s) by nra. repeat split; nra.
Qed.
(** Linear data. *)
Lemma linear_slope : forall mm uc a b, (uc = true -> even xf xv) -> (forall m, (i - 1 <= m <= i + 1)%Z -> q m = a + b * xv m) -> plm_slope mm uc xf xv q i = b * W.
Proof.
  intros mm uc a b EV Q. pose proof sizes as S. assert (ER : r = b * F). { unfold r, F, dxv. rewrite (Q (i + 1)%Z), (Q i) by lia. ring. }
  assert (EL : l = b * B). { unfold l, B, dxv. replace (i - 1 + 1)%Z with i by lia. rewrite (Q (i - 1)%Z), (Q i) by lia. ring. }
  assert (EFB : uc = true -> F = W /\ B = W). { intro E. destruct (EV E) as [h [H X]]. unfold F, B, W, dxv, dxf. replace (i - 1 + 1)%Z with i by lia. destruct (X i) as [X1 X2]. destruct (X (i + 1)%Z) as [_ X4]. destruct (X (i - 1)%Z) as [X5 X6]. replace (i - 1 + 1)%Z with i in X5 by lia. lra. }
  unfold plm_slope. fold W F B U D r l. cbv zeta. unfold minmod. destruct (Req_dec b 0) as [B0|B0].
  - assert (L0 : l = 0) by (rewrite EL, B0; ring). assert (R0 : r = 0) by (rewrite ER, B0; ring). rewrite L0, R0, B0.
    assert (Z0 : leR (0 * 0) 0 = true) by (apply leR_true; lra). assert (Z1 : leR (0 * W / F * (0 * W / B)) 0 = true) by (apply leR_true; unfold Rdiv; lra). rewrite Z0, Z1. destruct mm, uc; lra.
  - assert (BB : 0 < b * b) by nra. assert (BFP : 0 < B * F) by nra.
    assert (P : leR (l * r) 0 = false) by (apply leR_false; rewrite EL, ER; replace (b * B * (b * F)) with (b * b * (B * F)) by ring; apply Rmult_lt_0_compat; assumption).
    assert (R1 : r * W / F = b * W) by (rewrite ER; field; lra). assert (L1 : l * W / B = b * W) by (rewrite EL; field; lra). rewrite R1, L1.
    assert (P2 : leR (b * W * (b * W)) 0 = false) by (apply leR_false; replace (b * W * (b * W)) with (b * b * (W * W)) by ring; apply Rmult_lt_0_compat; [exact BB|apply Rmult_lt_0_compat; lra]). rewrite P, P2. destruct mm.
    + destruct uc.
      * destruct (EFB eq_refl) as [X1 X2]. rewrite EL, ER, X1, X2. rewrite Rmin_left, Rmax_left by lra. destruct (leR 0 (b * W)); reflexivity.
      * rewrite Rmin_left, Rmax_left by lra. destruct (leR 0 (b * W)); reflexivity.
    + destruct uc.
      * destruct (EFB eq_refl) as [X1 X2]. rewrite EL, ER, X1, X2. apply leR_false in P2. set (w := b * W) in *. clearbody w. assert (w <> 0) by (intro X0; rewrite X0 in P2; lra). field. intro X0. lra.
      * assert (CF : 1 < F / U). { apply (Rmult_lt_reg_l U); [tauto|]. replace (U * (F / U)) with F by (field; lra). lra. } assert (CB : 1 < B / D). { apply (Rmult_lt_reg_l D); [tauto|]. replace (D * (B / D)) with B by (field; lra). lra. } generalize dependent (F / U). generalize dependent (B / D). intros y Hy x Hx. set (w := b * W) in *. apply leR_false in P2. assert (N : 0 < w * w * (x + y)) by (apply Rmult_lt_0_compat; lra). replace (w * w + w * w + w * w * (x + y - 2)) with (w * w * (x + y)) by ring. replace (w * w * (x * w + y * w)) with (w * (w * w * (x + y))) by ring. field. try lra. repeat split; intro X0; nra.
Qed.
End Cell.

Lemma plm_bounded : forall mm xf xv q i, mesh xf xv i -> (mm = false -> smooth xf xv i) -> bounded q i (PiecewiseLinear mm false xf xv q i).
Proof. intros [|] xf xv q i M S; [apply mm_stretched; exact M|apply vl_stretched; [exact M|apply S; reflexivity]]. Qed.
Lemma even_mesh : forall xf xv i, even xf xv -> mesh xf xv i.
Proof. intros xf xv i [h [H E]] m _. destruct (E m) as [E1 E2]. rewrite E1, E2. lra. Qed.
Lemma even_smooth : forall xf xv i, even xf xv -> smooth xf xv i.
Proof. intros xf xv i [h [H E]]. unfold smooth. destruct (E i) as [E1 E2]. destruct (E (i + 1)%Z) as [E3 E4]. destruct (E (i - 1)%Z) as [E5 E6]. replace (i - 1 + 1)%Z with i in E5 by lia. lra. Qed.
Lemma plm_bounded_even : forall mm uc xf xv q i, even xf xv -> bounded q i (PiecewiseLinear mm uc xf xv q i).
Proof.
  intros mm [|] xf xv q i E.
  - destruct mm; [apply mm_even|apply vl_even]; assumption || (apply even_mesh; assumption).
  - apply plm_bounded; [apply even_mesh; exact E|intros _; apply even_smooth; exact E].
Qed.
Lemma plm_linear : forall mm uc xf xv q i a b, mesh xf xv i -> (uc = true -> even xf xv) -> (forall m, (i - 1 <= m <= i + 1)%Z -> q m = a + b * xv m) ->
  PiecewiseLinear mm uc xf xv q i = (a + b * xf (i + 1)%Z, a + b * xf i).
Proof.
  intros mm uc xf xv q i a b M E Q. unfold PiecewiseLinear. rewrite (linear_slope xf xv q i M mm uc a b E Q). unfold plm_states. rewrite (Q i) by lia. pose proof (M i ltac:(lia)).
  unfold dxf. f_equal; field; lra.
Qed.

(** Mirror images. *)
Lemma minmod_flip : forall a b p, 0 < p \/ p <= 0 -> (0 < p -> 0 < a * b) -> minmod (- b) (- a) p = - minmod a b p.
Proof.
  intros a b p H P. unfold minmod. destruct (leR_cases p 0) as [[-> _]|[-> X]]; [lra|]. specialize (P X). apply prod_pos in P. destruct P as [[A B]|[A B]].
  - destruct (leR_cases 0 (- b)) as [[_ Y]|[-> _]]; [lra|]. destruct (leR_cases 0 a) as [[-> _]|[_ Y]]; [|lra]. unfold Rmax, Rmin; repeat destruct Rle_dec; lra.
  - destruct (leR_cases 0 (- b)) as [[-> _]|[_ Y]]; [|lra]. destruct (leR_cases 0 a) as [[_ Y]|[-> _]]; [lra|]. unfold Rmax, Rmin; repeat destruct Rle_dec; lra.
Qed.
Section Flip.
Variables (xf xv q : line) (i : Z).
Lemma flip_dxf : dxf (flip_f xf) (- i)%Z = dxf xf i.
Proof. unfold dxf, flip_f. replace (- (- i + 1) + 1)%Z with i by lia. replace (- - i + 1)%Z with (i + 1)%Z by lia. ring. Qed.
Lemma flip_dxv : dxv (flip_v xv) (- i)%Z = dxv xv (i - 1).
Proof. unfold dxv, flip_v. replace (- (- i + 1))%Z with (i - 1)%Z by lia. replace (- - i)%Z with i by lia. replace (i - 1 + 1)%Z with i by lia. ring. Qed.
Lemma flip_dxv1 : dxv (flip_v xv) (- i - 1)%Z = dxv xv i.
Proof. unfold dxv, flip_v. replace (- (- i - 1 + 1))%Z with i by lia. replace (- (- i - 1))%Z with (i + 1)%Z by lia. ring. Qed.
Lemma flip_q1 : flip q (- i + 1)%Z = q (i - 1)%Z. Proof. unfold flip. f_equal. lia. Qed.
Lemma flip_q2 : flip q (- i - 1)%Z = q (i + 1)%Z. Proof. unfold flip. f_equal. lia. Qed.
Lemma flip_q0 : flip q (- i)%Z = q i. Proof. unfold flip. f_equal. lia. Qed.
Lemma flip_up : flip_f xf (- i + 1)%Z - flip_v xv (- i)%Z = xv i - xf i.
Proof. unfold flip_f, flip_v. replace (- (- i + 1) + 1)%Z with i by lia. replace (- - i)%Z with i by lia. ring. Qed.
Lemma flip_down : flip_v xv (- i)%Z - flip_f xf (- i)%Z = xf (i + 1)%Z - xv i.
Proof. unfold flip_f, flip_v. replace (- - i + 1)%Z with (i + 1)%Z by lia. replace (- - i)%Z with i by lia. ring. Qed.
Lemma slope_flip : forall mm uc, mesh xf xv i -> plm_slope mm uc (flip_f xf) (flip_v xv) (flip q) (- i)%Z = - plm_slope mm uc xf xv q i.
Proof.
  intros mm uc M. unfold plm_slope. rewrite flip_dxf, flip_dxv, flip_dxv1, flip_q0, flip_q1, flip_q2, flip_up, flip_down. cbv zeta.
  pose proof (sizes xf xv i M) as S. cbv zeta in S. set (r := q (i + 1)%Z - q i). set (l := q i - q (i - 1)%Z).
  replace (q i - q (i + 1)%Z) with (- r) by (unfold r; ring). replace (q (i - 1)%Z - q i) with (- l) by (unfold l; ring). replace (- r * - l) with (l * r) by ring.
  set (W := dxf xf i) in *. set (F := dxv xv i) in *. set (B := dxv xv (i - 1)) in *. set (U := xf (i + 1)%Z - xv i) in *. set (D := xv i - xf i) in *. clearbody r l W F B U D.
  destruct mm, uc.
  - apply minmod_flip; [lra|tauto].
  - replace (- r * W / F) with (- (r * W / F)) by (field; lra). replace (- l * W / B) with (- (l * W / B)) by (field; lra). apply minmod_flip; [lra|]. intro P.
    replace (l * W / B * (r * W / F)) with (l * r * (W * W / (B * F))) by (field; lra). apply Rmult_lt_0_compat; [exact P|]. apply Rdiv_lt_0_compat; nra.
  - destruct (leR_cases (l * r) 0) as [[-> _]|[-> P]]; [lra|]. apply prod_pos in P. field. split; lra.
  - replace (- l * W / B * (- r * W / F)) with (r * W / F * (l * W / B)) by (field; lra). destruct (leR_cases (r * W / F * (l * W / B)) 0) as [[-> _]|[-> P]]; [lra|].
    replace (- r * W / F) with (- (r * W / F)) by (field; lra). replace (- l * W / B) with (- (l * W / B)) by (field; lra). set (a := r * W / F) in *. set (b := l * W / B) in *.
    replace (- a * - a + - b * - b + a * b * (B / D + F / U - 2)) with (b * b + a * a + a * b * (F / U + B / D - 2)) by ring.
    replace (a * b * (B / D * - a + F / U * - b)) with (- (a * b * (F / U * b + B / D * a))) by ring. apply Ropp_div.
Qed.
End Flip.
Lemma plm_flip : forall mm uc xf xv q i, mesh xf xv i -> PiecewiseLinear mm uc (flip_f xf) (flip_v xv) (flip q) (- i)%Z = swap (PiecewiseLinear mm uc xf xv q i).
Proof.
  intros mm uc xf xv q i M. unfold PiecewiseLinear, plm_states, swap. cbn [fst snd]. rewrite slope_flip by exact M. rewrite flip_dxf, flip_q0, flip_up, flip_down. f_equal; ring.
Qed.
