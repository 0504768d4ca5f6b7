(** The theta faces of Schwarzschild coordinates, and Kerr-Schild frames. *)
From Coq Require Import Reals ZArith Lra Lia.
From Verif Require Import Gr_Model Gr_Spec Gr_Proofs.
Local Open Scope R_scope.
Lemma sw_theta_wrong mhd m G j i : 0 < x1v G i -> 2 * m < x1v G i -> x1v G i <> 1 ->
  ~ face_right 2 (fst (sw_Face2 m G j i)) (snd (sw_Face2 m G j i)) (sw_PrimToLocal2 mhd m G j i) (sw_FluxToGlobal2 m G j i).
Proof.
  intros Hr Hm H1 [M [_ [[_ [M1 [M2 M3]]] [_ [TL _]]]]].
  pose proof (TL 0 (mkP 0 0 0 0 0)) as E0. pose proof (TL 0 (mkP 0 1 0 0 0)) as E1. clear TL. set (r := x1v G i) in *.
  assert (S0 : forall p, slot_u 2 (fst (sw_PrimToLocal2 mhd m G j i 0 p)) 1%nat = 1 / r * ivy p /\ slot_u 2 (fst (sw_PrimToLocal2 mhd m G j i 0 p)) 2%nat = r * Rabs (sin (x2f G j)) * ivz p
     /\ slot_u 2 (fst (sw_PrimToLocal2 mhd m G j i 0 p)) 3%nat = 1 / sw_alpha m r * ivx p).
  { intro p. unfold sw_PrimToLocal2. destruct mhd; [|repeat split; reflexivity]. destruct (sw_global _ _ _ _ _ _ _ _) as [[ga u] [[[b0 b1] b2] b3]]. repeat split; reflexivity. }
  pose proof (S0 (mkP 0 0 0 0 0)) as [A1 [A2 A3]]. pose proof (S0 (mkP 0 1 0 0 0)) as [B1 [B2 B3]].
  destruct (sw_PrimToLocal2 mhd m G j i 0 (mkP 0 0 0 0 0)) as [p0 x0]. destruct (sw_PrimToLocal2 mhd m G j i 0 (mkP 0 1 0 0 0)) as [p1 x1]. cbn [fst ivx ivy ivz] in *.
  destruct E0 as [_ [E0 _]]. destruct E1 as [_ [E1 _]]. rewrite A1, A2, A3 in E0. rewrite B1, B2, B3 in E1.
  set (g := fst (sw_Face2 m G j i)) in *. set (gi := snd (sw_Face2 m G j i)) in *.
  assert (L : forall w, w 0%nat = 0 -> local1 M (velocity g gi w) 0%nat = lorentz g w * (M 0%nat 0%nat * normal gi 0%nat)).
  { intros w W. unfold local1, velocity, sum4. rewrite M1, M2, M3, W. ring. }
  rewrite L in E0, E1 by reflexivity.
  assert (L0 : lorentz g (global_u (mkP 0 0 0 0 0)) = 1).
  { rewrite <- sqrt_1. unfold lorentz, sum4, global_u, projected. cbn [ivx ivy ivz]. f_equal. ring. }
  assert (L1 : lorentz g (global_u (mkP 0 1 0 0 0)) = sqrt (1 + r * r)).
  { unfold lorentz, sum4, global_u, projected. cbn [ivx ivy ivz]. f_equal. cbv [g sw_Face2 fst sw_metric ten SQR]. fold r. ring. }
  rewrite L0 in E0. rewrite L1 in E1.
  assert (N : M 0%nat 0%nat * normal gi 0%nat = 1).
  { transitivity (sqrt 1); [|apply sqrt_1]. rewrite <- (Rmult_1_l (_ * _)). rewrite E0. f_equal. ring. }
  rewrite N, Rmult_1_r in E1. apply sqrt_inj in E1; [|nra|].
  - assert (E2 : r * r * (r * r) = 1). { assert (r * r = (1 / r) * (1 / r)) by lra. rewrite H at 1. field. lra. }
    assert (E3 : (r * r - 1) * (r * r + 1) = 0) by lra. apply Rmult_integral in E3. destruct E3 as [E3|E3]; [|nra].
    assert (E4 : (r - 1) * (r + 1) = 0) by lra. apply Rmult_integral in E4. destruct E4; lra.
  - assert (0 <= (1 / r * 1) ^ 2) by nra. assert (0 <= (r * Rabs (sin (x2f G j)) * 0) ^ 2) by nra. assert (0 <= (1 / sw_alpha m r * 0) ^ 2) by nra. lra.
Qed.

(** ** Kerr-Schild: the entries of the frames *)
Section KS.
Variables (m a r th : R).
Hypothesis Hr : 0 < r.
Hypothesis Hm : 0 <= m.
Hypothesis Hs : sin th <> 0.
Let sg := t_sigma a r th.
Let w := 2 * m * r.
Let bg := t_big m a r th.
Lemma Psg : 0 < sg. Proof. apply sigma_pos. assumption. Qed.
Lemma Pw : 0 <= w. Proof. unfold w. nra. Qed.
Lemma Pbg : 0 < bg.
Proof.
  unfold bg, t_big. pose proof Psg as H. fold sg. assert (0 <= 2 * m * SQR a * r / sg * SQR (sin th)).
  { apply Rmult_le_pos; [|unfold SQR; nra]. apply Rmult_le_pos; [|left; apply Rinv_0_lt_compat; assumption]. unfold SQR. assert (0 <= a * a) by nra. assert (0 <= m * r) by nra. nra. }
  unfold SQR in *. nra.
Qed.
Lemma den_eq : t_den m a r th = sg * bg.
Proof.
  pose proof Psg as H. unfold bg, t_big. fold sg. transitivity (sg * (SQR r + SQR a) + 2 * m * SQR a * r * SQR (sin th)); [|field; lra].
  unfold t_den, sg, t_sigma. pose proof (sc th) as S. replace (SQR (sin th)) with (1 - SQR (cos th)) by lra. unfold SQR. ring.
Qed.
Lemma one_w : 1 + 2 * m * r / sg = (sg + w) / sg.
Proof. pose proof Psg. unfold w. field. lra. Qed.
Let al := trans1_1 m a r th.
Lemma al_sq : al * al = sg / (sg + w).
Proof.
  pose proof Psg. pose proof Pw. unfold al, trans1_1. fold sg. rewrite one_w. assert (0 < (sg + w) / sg) by (apply Rdiv_lt_0_compat; lra).
  set (x := (sg + w) / sg) in *. transitivity (/ (sqrt x * sqrt x)); [field; apply Rgt_not_eq, sqrt_lt_R0; assumption|]. rewrite sqrt_sqrt by lra. unfold x. field. split; lra.
Qed.
Lemma al_pos : 0 < al.
Proof. pose proof Psg. pose proof Pw. unfold al, trans1_1. fold sg. rewrite one_w. apply Rdiv_lt_0_compat; [lra|]. apply sqrt_lt_R0. apply Rdiv_lt_0_compat; lra. Qed.
Lemma al_code : sqrt (- 1 / (- (1 + 2 * m * r / (SQR r + SQR a * SQR (cos th))))) = al.
Proof.
  pose proof al_pos as P. pose proof Psg. pose proof Pw. change (SQR r + SQR a * SQR (cos th)) with sg. rewrite one_w. replace (- 1 / - ((sg + w) / sg)) with (sg / (sg + w)) by (field; lra).
  rewrite <- al_sq. apply sqrt_square. lra.
Qed.
(** Face 1. *)
Let q := sqrt (1 / ((sg + w) * bg)).
Lemma q_sq : q * q = 1 / ((sg + w) * bg).
Proof. pose proof Psg. pose proof Pw. pose proof Pbg. unfold q. apply sqrt_sqrt. left. apply Rdiv_lt_0_compat; nra. Qed.
Lemma q_pos : 0 < q.
Proof. pose proof Psg. pose proof Pw. pose proof Pbg. unfold q. apply sqrt_lt_R0. apply Rdiv_lt_0_compat; nra. Qed.
Lemma mx1_eq : trans1_2 m a r th = (sg + w) * q.
Proof.
  pose proof Psg. pose proof Pw. pose proof Pbg. unfold trans1_2. fold sg bg. change (2 * m * r) with w. replace ((sg + w) / bg) with ((sg + w) * (sg + w) * (1 / ((sg + w) * bg))) by (field; lra).
  rewrite sqrt_mult_alt by nra. rewrite sqrt_square by lra. reflexivity.
Qed.
Lemma mx0_eq : trans1_5 m a r th = w * q.
Proof. pose proof Psg. pose proof Pw. pose proof Pbg. unfold trans1_5. rewrite den_eq. fold sg. unfold q, w. do 2 f_equal. field. change (2 * m * r) with w. repeat split; lra. Qed.
Let p := sqrt bg.
Lemma p_sq : p * p = bg. Proof. pose proof Pbg. unfold p. apply sqrt_sqrt. lra. Qed.
Lemma p_pos : 0 < p. Proof. pose proof Pbg. unfold p. apply sqrt_lt_R0. assumption. Qed.
Let s := Rabs (sin th).
Lemma s_pos : 0 < s. Proof. unfold s. apply Rabs_pos_lt. assumption. Qed.
Lemma s_sq : s * s = SQR (sin th). Proof. unfold s, SQR. apply abs_sq. Qed.
Lemma mz3_eq : trans1_4 m a r th = s * p. Proof. reflexivity. Qed.
Lemma mz0_eq : trans1_6 m a r th = - w * a * s * p / (sg * bg).
Proof. unfold trans1_6. rewrite den_eq. fold bg s p. unfold w. field. pose proof Psg. pose proof Pbg. lra. Qed.
Lemma mz1_eq : trans1_7 m a r th = - a * (sg + w) * s * p / (sg * bg).
Proof. unfold trans1_7. rewrite den_eq. reflexivity. Qed.
Lemma my2_sq : trans1_3 m a r th * trans1_3 m a r th = sg.
Proof. unfold trans1_3. fold sg. apply sqrt_sqrt. left. apply Psg. Qed.
Lemma my2_pos : 0 < trans1_3 m a r th.
Proof. unfold trans1_3. apply sqrt_lt_R0. apply Psg. Qed.
Definition ks1 : frame := rows (al, 0, 0, 0) (trans1_5 m a r th, trans1_2 m a r th, 0, 0) (0, 0, trans1_3 m a r th, 0) (trans1_6 m a r th, trans1_7 m a r th, 0, trans1_4 m a r th).
Lemma big_rel : sg * bg = sg * sg + a * a * SQR (sin th) * (sg + w).
Proof.
  pose proof Psg. unfold bg, t_big. fold sg. transitivity (sg * (SQR r + SQR a) + w * (a * a) * SQR (sin th)); [unfold w, SQR; field; lra|].
  unfold sg, t_sigma. pose proof (sc th) as S. replace (SQR (sin th)) with (1 - SQR (cos th)) by lra. unfold SQR. ring.
Qed.
Lemma ks1_ortho : orthonormal ks1 (ks_metric m a r (SQR (sin th)) (SQR (cos th))).
Proof.
  pose proof Psg as A. pose proof Pw as B. pose proof Pbg as C. pose proof q_sq as Q. pose proof p_sq as P. pose proof s_sq as S. pose proof al_sq as L. pose proof my2_sq as Y. pose proof big_rel as E.
  assert (K : ks_metric m a r (SQR (sin th)) (SQR (cos th)) = ten (- (1 - w / sg)) (w / sg) 0 (- w * a / sg * SQR (sin th)) (1 + w / sg) 0 (- (1 + w / sg) * a * SQR (sin th)) sg 0 (bg * SQR (sin th))).
  { unfold ks_metric. change (SQR r + SQR a * SQR (cos th)) with sg. cbv zeta. unfold bg, t_big. fold sg. unfold w, SQR. f_equal; try ring; unfold Rdiv; ring. }
  rewrite K. unfold ks1. rewrite mx0_eq, mx1_eq, mz0_eq, mz1_eq, mz3_eq. set (y := trans1_3 m a r th) in *. rewrite <- S in E |- *.
  assert (EB : bg = sg + a * a * (s * s) * (sg + w) / sg) by (apply Rmult_eq_reg_l with sg; [|lra]; rewrite E; field; lra).
  fc; unfold ten; open_rows; try ring.
  - transitivity (- (al * al) + w * w * (q * q) + w * w * (a * a) * (s * s) * (p * p) / (sg * bg * (sg * bg))); [field; lra|]. rewrite Q, P, L. rewrite EB. field. assert (0 <= a * a * (s * s)) by nra. repeat split; try lra. nra.
  - transitivity (w * (sg + w) * (q * q) + w * (sg + w) * (a * a) * (s * s) * (p * p) / (sg * bg * (sg * bg))); [field; lra|]. rewrite Q, P. rewrite EB. field. assert (0 <= a * a * (s * s)) by nra. repeat split; try lra. nra.
  - transitivity (- w * a * (s * s) * (p * p) / (sg * bg)); [field; lra|]. rewrite P. field. lra.
  - transitivity (w * (sg + w) * (q * q) + w * (sg + w) * (a * a) * (s * s) * (p * p) / (sg * bg * (sg * bg))); [field; lra|]. rewrite Q, P. rewrite EB. field. assert (0 <= a * a * (s * s)) by nra. repeat split; try lra. nra.
  - transitivity ((sg + w) * (sg + w) * (q * q) + (sg + w) * (sg + w) * (a * a) * (s * s) * (p * p) / (sg * bg * (sg * bg))); [field; lra|]. rewrite Q, P. rewrite EB. field. assert (0 <= a * a * (s * s)) by nra. repeat split; try lra. nra.
  - transitivity (- (sg + w) * a * (s * s) * (p * p) / (sg * bg)); [field; lra|]. rewrite P. field. lra.
  - transitivity (y * y); [ring|exact Y].
  - transitivity (- w * a * (s * s) * (p * p) / (sg * bg)); [field; lra|]. rewrite P. field. lra.
  - transitivity (- (sg + w) * a * (s * s) * (p * p) / (sg * bg)); [field; lra|]. rewrite P. field. lra.
  - transitivity ((s * s) * (p * p)); [ring|]. rewrite P. ring.
Qed.
(** Faces 2 and 3. *)
Let h := trans2_2 m a r th.
Lemma h_sq : h * h = (sg + w) / sg.
Proof. pose proof Psg. pose proof Pw. unfold h, trans2_2. fold sg. rewrite one_w. apply sqrt_sqrt. left. apply Rdiv_lt_0_compat; lra. Qed.
Lemma h_pos : 0 < h.
Proof. pose proof Psg. pose proof Pw. unfold h, trans2_2. fold sg. rewrite one_w. apply sqrt_lt_R0. apply Rdiv_lt_0_compat; lra. Qed.
Lemma al_h : al = / h. Proof. unfold al, h, trans1_1, trans2_2. unfold Rdiv. ring. Qed.
Lemma t21 : trans2_1 m a r th = al. Proof. reflexivity. Qed.
Let y := trans2_3 m a r th.
Lemma y_sq : y * y = sg. Proof. exact my2_sq. Qed.
Lemma y_pos : 0 < y. Proof. exact my2_pos. Qed.
Lemma t24 : trans2_4 m a r th = y * s. Proof. reflexivity. Qed.
Lemma t25 : trans2_5 m a r th = w / (sg * h). Proof. reflexivity. Qed.
Lemma t26 : trans2_6 m a r th = - a * SQR (sin th) * h. Proof. reflexivity. Qed.
Definition ks2 : frame := rows (al, 0, 0, 0) (0, 0, y, 0) (0, 0, 0, trans2_4 m a r th) (trans2_5 m a r th, h, 0, trans2_6 m a r th).
Definition ks3 : frame := rows (al, 0, 0, 0) (0, 0, 0, trans2_4 m a r th) (trans2_5 m a r th, h, 0, trans2_6 m a r th) (0, 0, y, 0).
Lemma sum_ks : forall i j, (i < 4)%nat -> (j < 4)%nat -> sum4 (fun a => sum4 (fun b => eta a b * ks3 a i * ks3 b j)) = sum4 (fun a => sum4 (fun b => eta a b * ks2 a i * ks2 b j)).
Proof. intros i j _ _. unfold ks2, ks3, sum4, eta. cbn [Nat.eqb]. unfold rows. ring. Qed.
Lemma ks2_ortho : orthonormal ks2 (ks_metric m a r (SQR (sin th)) (SQR (cos th))).
Proof.
  pose proof Psg as A. pose proof Pw as B. pose proof h_pos as C. pose proof h_sq as Q. pose proof s_sq as S. pose proof y_sq as Y.
  assert (K : ks_metric m a r (SQR (sin th)) (SQR (cos th)) = ten (- (1 - w / sg)) (w / sg) 0 (- w * a / sg * SQR (sin th)) (1 + w / sg) 0 (- (1 + w / sg) * a * SQR (sin th)) sg 0 ((SQR r + SQR a + SQR a * w / sg * SQR (sin th)) * SQR (sin th))).
  { unfold ks_metric. change (SQR r + SQR a * SQR (cos th)) with sg. cbv zeta. unfold w, SQR. f_equal; try ring; unfold Rdiv; ring. }
  assert (D : SQR r + SQR a = sg + SQR a * SQR (sin th)) by (unfold sg, t_sigma; pose proof (sc th) as S'; replace (SQR (sin th)) with (1 - SQR (cos th)) by lra; ring).
  rewrite K. unfold ks2. rewrite t24, t25, t26, al_h. rewrite D. set (z := SQR (sin th)) in *.
  fc; unfold ten; open_rows; try ring.
  - transitivity (w * w / (sg * sg * (h * h)) - / (h * h)); [field; lra|]. rewrite Q. field. repeat split; lra.
  - field. lra.
  - field. lra.
  - field. lra.
  - transitivity (h * h); [ring|]. rewrite Q. field. lra.
  - transitivity (- a * z * (h * h)); [ring|]. rewrite Q. field. lra.
  - transitivity (y * y); [ring|exact Y].
  - field. lra.
  - transitivity (- a * z * (h * h)); [ring|]. rewrite Q. field. lra.
  - transitivity ((y * y) * (s * s) + a * a * z * z * (h * h)); [ring|]. rewrite Q, Y, S. unfold SQR. field. lra.
Qed.
Lemma ks3_ortho : orthonormal ks3 (ks_metric m a r (SQR (sin th)) (SQR (cos th))).
Proof. intros i j Hi Hj. rewrite sum_ks by assumption. apply ks2_ortho; assumption. Qed.
End KS.
