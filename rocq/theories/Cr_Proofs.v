(** Proofs for C88: the implicit exchange between cosmic rays and gas. *)
From Coq Require Import Reals ZArith Bool Lra Lia Psatz.
From Verif Require Import Fv_Model Met_Model Lud_Model Cr_Model Cr_Spec.
Local Open Scope R_scope.

(** ** The linear system *)
Definition system3 (vm : R) (v vt x : triple) (e : R) (f : triple) (E : R) (F : triple) : Prop :=
  let '(v1, v2, v3) := v in let '(t1, t2, t3) := vt in let '(x1, x2, x3) := x in let '(f1, f2, f3) := f in let '(F1, F2, F3) := F in
  F1 - f1 = - vm * x1 * (F1 - 4 / 3 * v1 * E / vm) /\ F2 - f2 = - vm * x2 * (F2 - 4 / 3 * v2 * E / vm) /\ F3 - f3 = - vm * x3 * (F3 - 4 / 3 * v3 * E / vm) /\
  E - e = - (t1 * x1 * (F1 - 4 / 3 * v1 * E / vm) + t2 * x2 * (F2 - 4 / 3 * v2 * E / vm) + t3 * x3 * (F3 - 4 / 3 * v3 * E / vm)).

Lemma small : forall vm x p, 0 < vm -> 0 <= x -> p * x / (vm * (1 + vm * x)) <= Rabs p / (vm * vm).
Proof.
  intros vm x p V X. assert (Y : 0 <= vm * x) by nra. assert (D : 0 < 1 + vm * x) by lra.
  apply Rle_trans with (Rabs p * (vm * x) / (vm * vm * (1 + vm * x))).
  - replace (p * x / (vm * (1 + vm * x))) with (p * (vm * x) / (vm * vm * (1 + vm * x))) by (field; lra).
    unfold Rdiv. apply Rmult_le_compat_r. { left. apply Rinv_0_lt_compat. repeat apply Rmult_lt_0_compat; lra. }
    apply Rmult_le_compat_r; [lra|apply Rle_abs].
  - replace (Rabs p * (vm * x) / (vm * vm * (1 + vm * x))) with (Rabs p / (vm * vm) * ((vm * x) / (1 + vm * x))) by (field; lra).
    rewrite <- (Rmult_1_r (Rabs p / (vm * vm))) at 2. apply Rmult_le_compat_l.
    + unfold Rdiv. apply Rmult_le_pos; [apply Rabs_pos|left; apply Rinv_0_lt_compat; nra].
    + apply Rmult_le_reg_r with (1 + vm * x); [lra|]. replace (vm * x / (1 + vm * x) * (1 + vm * x)) with (vm * x) by (field; lra). lra.
Qed.

Lemma pivot_positive : forall vm v1 v2 v3 t1 t2 t3 x1 x2 x3, 0 < vm -> 0 <= x1 -> 0 <= x2 -> 0 <= x3 -> Rabs (t1 * v1) + Rabs (t2 * v2) + Rabs (t3 * v3) < 3 / 4 * (vm * vm) ->
  0 < 1 - 4 / 3 * ((t1 * v1) * x1 / (vm * (1 + vm * x1)) + (t2 * v2) * x2 / (vm * (1 + vm * x2)) + (t3 * v3) * x3 / (vm * (1 + vm * x3))).
Proof.
  intros vm v1 v2 v3 t1 t2 t3 x1 x2 x3 V X1 X2 X3 H.
  pose proof (small vm x1 (t1 * v1) V X1). pose proof (small vm x2 (t2 * v2) V X2). pose proof (small vm x3 (t3 * v3) V X3).
  assert (Q : 0 < vm * vm) by nra.
  assert (Z : Rabs (t1 * v1) / (vm * vm) + Rabs (t2 * v2) / (vm * vm) + Rabs (t3 * v3) / (vm * vm) < 3 / 4).
  { replace (3 / 4) with (3 / 4 * (vm * vm) / (vm * vm)) by (field; lra).
    replace (Rabs (t1 * v1) / (vm * vm) + Rabs (t2 * v2) / (vm * vm) + Rabs (t3 * v3) / (vm * vm)) with ((Rabs (t1 * v1) + Rabs (t2 * v2) + Rabs (t3 * v3)) / (vm * vm)) by (field; lra).
    unfold Rdiv at 1 3. apply Rmult_lt_compat_r; [apply Rinv_0_lt_compat; lra|exact H]. }
  lra.
Qed.

Lemma eliminate_spec : forall dt vm v vt s e f, 0 <= dt -> 0 < vm -> nonneg s ->
  Rabs (nth3 1 vt * nth3 1 v) + Rabs (nth3 2 vt * nth3 2 v) + Rabs (nth3 3 vt * nth3 3 v) < 3 / 4 * (vm * vm) ->
  forall E F, system3 vm v vt (scale dt s) e f E F <-> (E, F) = eliminate dt vm v vt s e f.
Proof.
  intros dt vm [[v1 v2] v3] [[t1 t2] t3] [[s1 s2] s3] e [[f1 f2] f3] Dt V (S1 & S2 & S3) H E [[F1 F2] F3]. cbn [nth3] in H. unfold system3, scale, eliminate; cbv zeta.
  assert (X1 : 0 <= dt * s1) by nra. assert (X2 : 0 <= dt * s2) by nra. assert (X3 : 0 <= dt * s3) by nra.
  pose proof (pivot_positive vm v1 v2 v3 t1 t2 t3 _ _ _ V X1 X2 X3 H) as K.
  replace (1 + dt * vm * s1) with (1 + vm * (dt * s1)) by ring. replace (1 + dt * vm * s2) with (1 + vm * (dt * s2)) by ring. replace (1 + dt * vm * s3) with (1 + vm * (dt * s3)) by ring.
  replace (- dt * v1 * s1 * 4 / 3) with (- (4 / 3 * v1 * (dt * s1))) by field. replace (- dt * v2 * s2 * 4 / 3) with (- (4 / 3 * v2 * (dt * s2))) by field. replace (- dt * v3 * s3 * 4 / 3) with (- (4 / 3 * v3 * (dt * s3))) by field.
  set (x1 := dt * s1) in *. set (x2 := dt * s2) in *. set (x3 := dt * s3) in *. clearbody x1 x2 x3.
  assert (D1 : 0 < 1 + vm * x1) by nra. assert (D2 : 0 < 1 + vm * x2) by nra. assert (D3 : 0 < 1 + vm * x3) by nra.
  set (c11 := 1 - x1 * t1 * v1 * (1 / vm) * 4 / 3 - x2 * t2 * v2 * (1 / vm) * 4 / 3 - x3 * t3 * v3 * (1 / vm) * 4 / 3).
  set (KK := c11 - x1 * t1 * - (4 / 3 * v1 * x1) / (1 + vm * x1) - x2 * t2 * - (4 / 3 * v2 * x2) / (1 + vm * x2) - x3 * t3 * - (4 / 3 * v3 * x3) / (1 + vm * x3)).
  assert (EK : KK = 1 - 4 / 3 * ((t1 * v1) * x1 / (vm * (1 + vm * x1)) + (t2 * v2) * x2 / (vm * (1 + vm * x2)) + (t3 * v3) * x3 / (vm * (1 + vm * x3)))) by (unfold KK, c11; field; repeat apply conj; lra).
  rewrite <- EK in K. set (RR := e - x1 * t1 * f1 / (1 + vm * x1) - x2 * t2 * f2 / (1 + vm * x2) - x3 * t3 * f3 / (1 + vm * x3)).
  assert (LIN : forall v1 x1 f1 F1, 0 < 1 + vm * x1 -> (F1 - f1 = - vm * x1 * (F1 - 4 / 3 * v1 * E / vm) <-> F1 = (f1 - - (4 / 3 * v1 * x1) * E) / (1 + vm * x1))).
  { intros v x f F0 D. split; intro G.
    - assert (G' : F0 * (1 + vm * x) = f - - (4 / 3 * v * x) * E). { transitivity (F0 - f + vm * x * (F0 - 4 / 3 * v * E / vm) + (f - - (4 / 3 * v * x) * E)); [field; lra|rewrite G; ring]. }
      rewrite <- G'. field. lra.
    - rewrite G. field. lra. }
  assert (ENE : F1 = (f1 - - (4 / 3 * v1 * x1) * E) / (1 + vm * x1) -> F2 = (f2 - - (4 / 3 * v2 * x2) * E) / (1 + vm * x2) -> F3 = (f3 - - (4 / 3 * v3 * x3) * E) / (1 + vm * x3) ->
    (E - e) + (t1 * x1 * (F1 - 4 / 3 * v1 * E / vm) + t2 * x2 * (F2 - 4 / 3 * v2 * E / vm) + t3 * x3 * (F3 - 4 / 3 * v3 * E / vm)) = E * KK - RR).
  { intros -> -> ->. unfold KK, c11, RR. field. repeat apply conj; lra. }
  rewrite (LIN v1 x1 f1 F1 D1), (LIN v2 x2 f2 F2 D2), (LIN v3 x3 f3 F3 D3). split.
  - intros (A1 & A2 & A3 & A4). specialize (ENE A1 A2 A3). assert (EE : E = RR / KK). { assert (E * KK = RR) by lra. rewrite <- H0. field. lra. }
    rewrite A1, A2, A3. rewrite EE. reflexivity.
  - intro G. injection G as G0 G1 G2 G3. rewrite <- G0 in G1, G2, G3. specialize (ENE G1 G2 G3). repeat (split; [assumption|]).
    assert (E * KK = RR) by (rewrite G0; field; lra). lra.
Qed.

(** ** Opacities *)
Lemma series_combined : forall a b, 0 <= a -> 0 <= b -> combined a b (series a b) /\ 0 <= series a b.
Proof.
  intros a b A B. unfold series, combined. destruct (Req_EM_T a 0) as [->|Na].
  - repeat split; intros; try lra; try (exfalso; lra).
  - destruct (Req_EM_T b 0) as [->|Nb]; [repeat split; intros; try lra; exfalso; lra|].
    assert (0 < a) by lra. assert (0 < b) by lra. assert (P : 0 < 1 / a + 1 / b) by (apply Rplus_lt_0_compat; apply Rdiv_lt_0_compat; lra). repeat split.
    + intros [?|?]; exfalso; lra.
    + intros _ _. field. repeat split; try lra. 
    + left. apply Rdiv_lt_0_compat; lra.
Qed.
Lemma combined_unique : forall a b s, 0 <= a -> 0 <= b -> combined a b s -> s = series a b.
Proof.
  intros a b s A B (H1 & H2). destruct (series_combined a b A B) as ((G1 & G2) & _). destruct (Req_dec a 0) as [Ea|Na]; [rewrite H1, G1 by auto; reflexivity|].
  destruct (Req_dec b 0) as [Eb|Nb]; [rewrite H1, G1 by auto; reflexivity|]. specialize (H2 Na Nb). specialize (G2 Na Nb). apply Rmult_eq_reg_r with (a + b); lra.
Qed.
Lemma totsigma_ok : forall c l, nonneg (sigma_diff l) -> nonneg (sigma_adv l) -> opacity c l (totsigma c l) /\ nonneg (totsigma c l) /\ forall s, opacity c l s -> s = totsigma c l.
Proof.
  intros c l D A. unfold opacity, totsigma, streaming. destruct (negb (Z.eqb (stream_flag c) 0)).
  - destruct (sigma_diff l) as [[a1 a2] a3]. destruct (sigma_adv l) as [[b1 b2] b3]. cbn [nonneg zip] in *. destruct D as (D1 & D2 & D3). destruct A as (A1 & A2 & A3).
    pose proof (series_combined a1 b1 D1 A1) as (C1 & P1). pose proof (series_combined a2 b2 D2 A2) as (C2 & P2). pose proof (series_combined a3 b3 D3 A3) as (C3 & P3). refine (conj _ (conj (conj P1 (conj P2 P3)) _)).
    + intro n. destruct n as [|[|[|n]]]; cbn [nth3]; assumption.
    + intros [[s1 s2] s3] H. pose proof (combined_unique _ _ _ D1 A1 (H 1%nat)). pose proof (combined_unique _ _ _ D2 A2 (H 2%nat)). pose proof (combined_unique _ _ _ D3 A3 (H 3%nat)). cbn [nth3] in *. congruence.
  - auto.
Qed.

(** ** The two frames *)
Definition comps (c : config) (l : cell) (v : triple) : triple := let ax := axis (magnetic c) (b_angle l) in (dot v (ax 1%nat), dot v (ax 2%nat), dot v (ax 3%nat)).
Lemma comps_plain : forall c l v, magnetic c = false -> comps c l v = v.
Proof. intros c l [[v1 v2] v3] M. unfold comps, axis. destruct (b_angle l) as [[[st ct] sp] cp]. rewrite M. unfold dot. f_equal; [f_equal|]; ring. Qed.
Lemma comps_rotate : forall c l v, magnetic c = true -> comps c l v = rotate (b_angle l) v.
Proof. intros c l [[v1 v2] v3] M. unfold comps, axis, rotate. destruct (b_angle l) as [[[st ct] sp] cp]. rewrite M. unfold dot, RotateVec; cbv zeta. f_equal; [f_equal|]; ring. Qed.
Lemma rotate_unrotate : forall a v, unit_angles a -> rotate a (unrotate a v) = v.
Proof.
  intros [[[st ct] sp] cp] [[v1 v2] v3] (H1 & H2). unfold rotate, unrotate, RotateVec, InvRotateVec; cbv zeta. f_equal; [f_equal|].
  - transitivity ((st * st * v1 - st * ct * v3) * (sp * sp + cp * cp) + ct * ct * v1 + ct * st * v3); [ring|rewrite H2]. transitivity ((st * st + ct * ct) * v1); [ring|rewrite H1; ring].
  - transitivity ((sp * sp + cp * cp) * v2); [ring|rewrite H2; ring].
  - transitivity (- (ct * (st * v1 - ct * v3)) * (sp * sp + cp * cp) + st * (ct * v1 + st * v3)); [ring|rewrite H2]. transitivity ((st * st + ct * ct) * v3); [ring|rewrite H1; ring].
Qed.
Lemma unrotate_rotate : forall a v, unit_angles a -> unrotate a (rotate a v) = v.
Proof.
  intros [[[st ct] sp] cp] [[v1 v2] v3] (H1 & H2). unfold rotate, unrotate, RotateVec, InvRotateVec; cbv zeta. f_equal; [f_equal|].
  - transitivity (cp * ((st * st + ct * ct) * (cp * v1 + sp * v2)) - sp * (- sp * v1 + cp * v2)); [ring|rewrite H1]. transitivity ((sp * sp + cp * cp) * v1); [ring|rewrite H2; ring].
  - transitivity (sp * ((st * st + ct * ct) * (cp * v1 + sp * v2)) + cp * (- sp * v1 + cp * v2)); [ring|rewrite H1]. transitivity ((sp * sp + cp * cp) * v2); [ring|rewrite H2; ring].
  - transitivity ((st * st + ct * ct) * v3); [ring|rewrite H1; ring].
Qed.
Lemma comps_inj : forall c l a b, (magnetic c = true -> unit_angles (b_angle l)) -> comps c l a = comps c l b -> a = b.
Proof.
  intros c l a b U H. destruct (magnetic c) eqn:M.
  - rewrite !comps_rotate in H by exact M. rewrite <- (unrotate_rotate (b_angle l) a), <- (unrotate_rotate (b_angle l) b) by (apply U; reflexivity). rewrite H. reflexivity.
  - rewrite !comps_plain in H by exact M. exact H.
Qed.

Lemma velocity_eq : forall c g, (let '(m1, m2, m3) := mom g in (m1 / Rmax (dn g) (rho_floor c), m2 / Rmax (dn g) (rho_floor c), m3 / Rmax (dn g) (rho_floor c))) = velocity c g.
Proof. intros c g. unfold velocity. destruct (mom g) as [[m1 m2] m3]. cbn [scale]. unfold Rdiv. f_equal; [f_equal|]; ring. Qed.

Definition worker (c : config) (l : cell) (vt : triple) : triple := let '(a, b, d) := comps c l vt in if magnetic c then (a, 0, 0) else (a, b, d).
Definition shift (c : config) (dt : R) (l : cell) (e : R) : R := if magnetic c then e - dt * ec_source l else e.

Lemma be_system : forall c dt l s v vt e0 f0 e1 f1, backward_euler c dt l s v vt e0 f0 e1 f1 <->
  system3 (vmax c) (comps c l v) (worker c l vt) (scale dt s) e0 (comps c l f0) (shift c dt l e1) (comps c l f1).
Proof.
  intros c dt l [[s1 s2] s3] v vt e0 f0 e1 f1. unfold backward_euler, worker, comps, shift, slip; cbv zeta. set (ax := axis (magnetic c) (b_angle l)). set (E := if magnetic c then e1 - dt * ec_source l else e1).
  unfold scale. cbn [nth3]. clearbody ax E. split.
  - intros (H & G). pose proof (H 1%nat ltac:(lia)) as H1. pose proof (H 2%nat ltac:(lia)) as H2. pose proof (H 3%nat ltac:(lia)) as H3. cbn [nth3] in *.
    destruct (magnetic c); unfold system3; refine (conj _ (conj _ (conj _ _))); try (rewrite H1; ring); try (rewrite H2; ring); try (rewrite H3; ring); rewrite G; ring.
  - intro H. assert (H' : (dot f1 (ax 1%nat) - dot f0 (ax 1%nat) = - vmax c * (dt * s1) * (dot f1 (ax 1%nat) - 4 / 3 * dot v (ax 1%nat) * E / vmax c)) /\
      (dot f1 (ax 2%nat) - dot f0 (ax 2%nat) = - vmax c * (dt * s2) * (dot f1 (ax 2%nat) - 4 / 3 * dot v (ax 2%nat) * E / vmax c)) /\
      (dot f1 (ax 3%nat) - dot f0 (ax 3%nat) = - vmax c * (dt * s3) * (dot f1 (ax 3%nat) - 4 / 3 * dot v (ax 3%nat) * E / vmax c)) /\
      E - e0 = - dt * (dot vt (ax 1%nat) * (s1 * (dot f1 (ax 1%nat) - 4 / 3 * dot v (ax 1%nat) * E / vmax c)) + (if magnetic c then 0 else dot vt (ax 2%nat) * (s2 * (dot f1 (ax 2%nat) - 4 / 3 * dot v (ax 2%nat) * E / vmax c)) + dot vt (ax 3%nat) * (s3 * (dot f1 (ax 3%nat) - 4 / 3 * dot v (ax 3%nat) * E / vmax c))))).
    { destruct (magnetic c); unfold system3 in H; destruct H as (H1 & H2 & H3 & H4); repeat (split; [assumption|]); rewrite H4; ring. }
    destruct H' as (H1 & H2 & H3 & H4). split; [|exact H4]. intros n N. assert (Q : n = 1%nat \/ n = 2%nat \/ n = 3%nat) by lia. destruct Q as [->|[->| ->]]; cbn [nth3]; [rewrite H1|rewrite H2|rewrite H3]; ring.
Qed.

Lemma implicit_system : forall c dt l g u, (magnetic c = true -> unit_angles (b_angle l)) ->
  let '(e1, f1) := implicit_update c dt l g u in
  (shift c dt l e1, comps c l f1) = eliminate dt (vmax c) (comps c l (velocity c g)) (worker c l (working c l g)) (totsigma c l) (ec u) (comps c l (fc u)).
Proof.
  intros c dt l g u U. unfold implicit_update; cbv zeta. rewrite velocity_eq. change (if streaming c then zip Rplus (velocity c g) (v_adv l) else velocity c g) with (working c l g).
  unfold worker, shift. destruct (magnetic c) eqn:M.
  - rewrite !comps_rotate by exact M. destruct (rotate (b_angle l) (working c l g)) as [[a b] d] eqn:EW.
    destruct (eliminate dt (vmax c) (rotate (b_angle l) (velocity c g)) (a, 0, 0) (totsigma c l) (ec u) (rotate (b_angle l) (fc u))) as [E F] eqn:EE.
    rewrite comps_rotate by exact M. rewrite rotate_unrotate by (apply U; reflexivity). f_equal. ring.
  - rewrite !comps_plain by exact M. destruct (working c l g) as [[a b] d]. destruct (eliminate _ _ _ _ _ _ _) as [E F]. rewrite comps_plain by exact M. reflexivity.
Qed.

Lemma slow_worker : forall c l v vt, slow c l v vt -> Rabs (nth3 1 (worker c l vt) * nth3 1 (comps c l v)) + Rabs (nth3 2 (worker c l vt) * nth3 2 (comps c l v)) + Rabs (nth3 3 (worker c l vt) * nth3 3 (comps c l v)) < 3 / 4 * (vmax c * vmax c).
Proof. intros c l v vt H. unfold slow in H; cbv zeta in H. unfold worker, comps. destruct (magnetic c); cbn [nth3]; [rewrite !Rmult_0_l, Rabs_R0|]; lra. Qed.

(** The update solves backward Euler and nothing else does. *)
Lemma implicit_ok : forall c dt l g u e1 f1, admissible c dt l g ->
  (backward_euler c dt l (totsigma c l) (velocity c g) (working c l g) (ec u) (fc u) e1 f1 <-> (e1, f1) = implicit_update c dt l g u).
Proof.
  intros c dt l g u e1 f1 (Dt & V & _ & D & A & U & S). destruct (totsigma_ok c l D A) as (_ & NN & _). rewrite be_system.
  rewrite (eliminate_spec dt (vmax c) (comps c l (velocity c g)) (worker c l (working c l g)) (totsigma c l) (ec u) (comps c l (fc u)) Dt V NN (slow_worker _ _ _ _ S)).
  pose proof (implicit_system c dt l g u U) as I. destruct (implicit_update c dt l g u) as [E F]. rewrite <- I. split; intro H.
  - injection H as H1 H2. pose proof (comps_inj c l f1 F U) as CI. rewrite (CI ltac:(unfold comps; cbv zeta; congruence)). f_equal. unfold shift in H1. destruct (magnetic c); lra.
  - injection H as -> ->. reflexivity.
Qed.
