(** Metrics and frames. *)
From Coq Require Import Reals ZArith Lra Lia.
From Verif Require Import Gr_Model Gr_Spec.
Local Open Scope R_scope.
Ltac fc := let x := fresh "x" in let y := fresh "y" in let Hx := fresh in let Hy := fresh in intros x y Hx Hy;
  destruct x as [|[|[|[|x]]]]; [| | | |exfalso; lia]; (destruct y as [|[|[|[|y]]]]; [| | | |exfalso; lia]); clear Hx Hy.
Ltac f3 := let x := fresh "x" in let Hx := fresh in intros x Hx; destruct x as [|[|[|[|x]]]]; [exfalso; lia| | | |exfalso; lia]; clear Hx.
Lemma sq_alpha m r : 0 < r -> 2 * m < r -> SQR (sw_alpha m r) = 1 - 2 * m / r.
Proof. intros. unfold SQR, sw_alpha. apply sqrt_sqrt. apply Rmult_le_reg_r with r; [lra|]. replace (0 * r) with 0 by ring. replace ((1 - 2 * m / r) * r) with (r - 2 * m) by (field; lra). lra. Qed.
Lemma alpha_arg m r : 0 < r -> 2 * m < r -> 0 < 1 - 2 * m / r.
Proof. intros. apply Rmult_lt_reg_r with r; [lra|]. replace (0 * r) with 0 by ring. replace ((1 - 2 * m / r) * r) with (r - 2 * m) by (field; lra). lra. Qed.
Lemma alpha_pos m r : 0 < r -> 2 * m < r -> 0 < sw_alpha m r.
Proof. intros. unfold sw_alpha. apply sqrt_lt_R0. apply alpha_arg; assumption. Qed.
Lemma sq_nz x : x <> 0 -> SQR x <> 0.
Proof. unfold SQR. intros. apply Rmult_integral_contrapositive; auto. Qed.
Lemma sigma_pos a r th : 0 < r -> 0 < t_sigma a r th.
Proof. intro. unfold t_sigma, SQR. assert (0 < r * r) by nra. assert (0 <= a * a) by nra. assert (0 <= cos th * cos th) by nra. nra. Qed.

(** ** Inverse metrics *)
Lemma mk_inv : inverse_metrics mk_metric mk_inverse.
Proof. fc; unfold sum4, mk_metric, mk_inverse, ten, delta_; cbn [Nat.eqb]; lra. Qed.
Lemma sw_inv al r s2 : al <> 0 -> r <> 0 -> s2 <> 0 -> inverse_metrics (sw_metric al r s2) (sw_inverse al r s2).
Proof.
  intros Ha Hr Hs. fc; unfold sum4, sw_metric, sw_inverse, ten, delta_, SQR; cbn [Nat.eqb]; try lra; field; auto.
Qed.
Lemma ks_inv m a r s2 c2 : s2 + c2 = 1 -> SQR r + SQR a * c2 <> 0 -> s2 <> 0 -> inverse_metrics (ks_metric m a r s2 c2) (ks_inverse m a r s2 c2).
Proof.
  intros Hc Hg Hs. unfold SQR in Hg. assert (c2 = 1 - s2) by lra. subst c2.
  fc; unfold sum4, ks_metric, ks_inverse, ten, delta_, SQR; cbn [Nat.eqb]; try lra; field; auto.
Qed.
Lemma sc th : SQR (sin th) + SQR (cos th) = 1.
Proof. unfold SQR. pose proof (sin2_cos2 th) as H. unfold Rsqr in H. lra. Qed.
Lemma sw_same m r th : 0 < r -> 2 * m < r -> same_metric (sw_metric (SQR (sw_alpha m r)) r (SQR (sin th))) (Schwarzschild m r th).
Proof.
  intros Hr Hm. unfold same_metric. rewrite sq_alpha by assumption. pose proof (alpha_arg _ _ Hr Hm).
  fc; unfold sw_metric, ten, Schwarzschild, SQR; try lra; try ring; try (field; split; lra).
Qed.
Lemma ks_same m a r th : 0 < r -> same_metric (ks_metric m a r (SQR (sin th)) (SQR (cos th))) (Kerr m a r th).
Proof.
  intros Hr. pose proof (sigma_pos a r th Hr) as Hs. unfold t_sigma, SQR in Hs.
  fc; unfold ks_metric, ten, Kerr, ks_flat, ks_form, SQR; try ring; try (field; lra).
Qed.

(** ** Frames *)
Lemma to_local_generic d g gi M al toLocal : 0 < al -> orthonormal M g -> M 0%nat 0%nat = al -> M 0%nat 1%nat = 0 -> M 0%nat 2%nat = 0 -> M 0%nat 3%nat = 0 ->
  gi 0%nat 0%nat = - / (al * al) -> (forall a, (1 <= a < 4)%nat -> M a 0%nat = al * al * (gi 0%nat 1%nat * M a 1%nat + gi 0%nat 2%nat * M a 2%nat + gi 0%nat 3%nat * M a 3%nat)) ->
  (forall bn p a, (1 <= a < 4)%nat -> slot_u d (fst (toLocal bn p)) a = M a 1%nat * ivx p + M a 2%nat * ivy p + M a 3%nat * ivz p) ->
  (forall bn p a, (1 <= a < 4)%nat -> slot_b (fst (toLocal bn p)) (snd (toLocal bn p)) a = al * (M a 1%nat * global_b d p bn 1%nat + M a 2%nat * global_b d p bn 2%nat + M a 3%nat * global_b d p bn 3%nat)) ->
  to_local_right d g gi M toLocal.
Proof.
  intros Hal O M00 M01 M02 M03 G0 Hn Hu Hb bn p. specialize (Hu bn p). specialize (Hb bn p). destruct (toLocal bn p) as [p' bx]. cbn [fst snd] in Hu, Hb.
  set (u := velocity g gi (global_u p)).
  assert (S0 : sqrt (- gi 0%nat 0%nat) = / al).
  { rewrite G0, Ropp_involutive. replace (/ (al * al)) with (/ al * / al) by (field; lra). apply sqrt_square. left. apply Rinv_0_lt_compat. assumption. }
  assert (Hg : sum4 (fun m => sum4 (fun n => g m n * global_u p m * global_u p n)) = slot_u d p' 1%nat ^ 2 + slot_u d p' 2%nat ^ 2 + slot_u d p' 3%nat ^ 2).
  { rewrite !Hu by lia. unfold global_u, sum4, projected.
    rewrite <- (O 1%nat 1%nat), <- (O 1%nat 2%nat), <- (O 1%nat 3%nat), <- (O 2%nat 1%nat), <- (O 2%nat 2%nat), <- (O 2%nat 3%nat), <- (O 3%nat 1%nat), <- (O 3%nat 2%nat), <- (O 3%nat 3%nat) by lia.
    unfold sum4, eta. cbn [Nat.eqb]. rewrite M01, M02, M03. ring. }
  assert (Lu : forall a, (1 <= a < 4)%nat -> local1 M u a = M a 1%nat * ivx p + M a 2%nat * ivy p + M a 3%nat * ivz p).
  { intros a Ha. unfold local1, u, velocity, sum4, normal, global_u, projected. rewrite S0, (Hn a Ha), G0. field. lra. }
  split; [|split].
  - intros a Ha. rewrite Hu, Lu by assumption. reflexivity.
  - transitivity (lorentz g (global_u p)).
    + unfold local1, u, velocity, sum4, normal. rewrite S0, M00, M01, M02, M03, G0. unfold global_u, projected. field. lra.
    + unfold lorentz. rewrite Hg. f_equal. ring.
  - intros F [Fa FB] a Ha. rewrite Hb by assumption. unfold local2, sum4. rewrite M00, M01, M02, M03.
    assert (F00 : F 0%nat 0%nat = 0) by (pose proof (Fa 0%nat 0%nat); lra). rewrite F00, (FB 1%nat), (FB 2%nat), (FB 3%nat) by lia. ring.
Qed.
(** Rows of a frame. *)
Definition rows (t x y z : four) : frame := fun a m =>
  let pick (v : four) := let '(v0, v1, v2, v3) := v in match m with 0%nat => v0 | 1%nat => v1 | 2%nat => v2 | 3%nat => v3 | _ => 0 end in
  match a with 0%nat => pick t | 1%nat => pick x | 2%nat => pick y | 3%nat => pick z | _ => 0 end.
Ltac open_rows := cbv [rows sum4 eta Nat.eqb].
Lemma abs_sq x : Rabs x * Rabs x = x * x.
Proof. rewrite <- Rabs_mult. apply Rabs_pos_eq. nra. Qed.

(** *** Schwarzschild *)
Section Schwarz.
Variables (m : R) (G : ggrid).
Definition sw1 (j i : Z) : frame := let r := x1f G i in let al := sw_alpha m r in rows (al, 0, 0, 0) (0, 1 / al, 0, 0) (0, 0, r, 0) (0, 0, 0, r * Rabs (sin (x2v G j))).
Definition sw3 (j i : Z) : frame := let r := x1v G i in let al := sw_alpha m r in rows (al, 0, 0, 0) (0, 0, 0, r * Rabs (sin (x2v G j))) (0, 1 / al, 0, 0) (0, 0, r, 0).
Lemma gam_pos (x : R) : 0 <= x -> 0 < sqrt (1 + x).
Proof. intro. apply sqrt_lt_R0. lra. Qed.
Lemma sw_face1 j i : 0 < x1f G i -> 2 * m < x1f G i -> sin (x2v G j) <> 0 ->
  face_right 1 (fst (sw_Face1 m G j i)) (snd (sw_Face1 m G j i)) (sw_PrimToLocal1 true m G j i) (sw_FluxToGlobal1 m G j i).
Proof.
  intros Hr Hm Hs. pose proof (alpha_pos _ _ Hr Hm) as Ha. exists (sw1 j i).
  assert (O : orthonormal (sw1 j i) (fst (sw_Face1 m G j i))).
  { pose proof (abs_sq (sin (x2v G j))) as Q. fc; unfold sw1, sw_Face1, sw_metric, ten, SQR; open_rows; cbn [fst]; try ring; try (field; lra).
    replace (0 * 0) with 0 by ring. transitivity (x1f G i * x1f G i * (Rabs (sin (x2v G j)) * Rabs (sin (x2v G j)))); [ring|]. rewrite Q. ring. }
  split; [exact O|]. split; [repeat split; unfold sw1; open_rows; auto|]. split.
  { split; [unfold sw1; open_rows; apply Rdiv_lt_0_compat; lra|]. f3; intro H; try congruence; unfold sw1; open_rows; reflexivity. }
  split.
  - apply to_local_generic with (al := sw_alpha m (x1f G i)); auto.
    + unfold sw_Face1, sw_inverse, ten, SQR. cbn [snd]. field. lra.
    + f3; unfold sw1, sw_Face1, sw_inverse, ten; open_rows; cbn [snd]; ring.
    + intros bn p. unfold sw_PrimToLocal1. destruct (sw_global _ _ _ _ _ _ _ _) as [[ga u] [[[b0 b1] b2] b3]]. cbn [fst]. unfold slot_u, sw1. f3; open_rows; cbv [projected ivx ivy ivz]; ring.
    + intros bn p. unfold sw_PrimToLocal1, sw_global. cbv zeta.
      set (ga := sqrt _). assert (Hg : 0 < ga).
      { apply gam_pos. unfold sw_Face1, sw_metric, ten, SQR. cbn [fst]. assert (0 < 1 / (sw_alpha m (x1f G i) * sw_alpha m (x1f G i))) by (apply Rdiv_lt_0_compat; nra).
        set (v := sin (x2v G j)). assert (0 <= (x1f G i * v * ivz p) ^ 2) by nra. assert (0 <= (x1f G i * ivy p) ^ 2) by nra. assert (0 <= ivx p * ivx p) by nra. nra. }
      cbn [fst snd]. unfold slot_b, sw1, global_b. f3; open_rows; cbv [projected iby ibz]; field; lra.
  - intros D T F HT HF. unfold sw_FluxToGlobal1, local_cons, local_flux, place3, global_flux. unfold sw1. cbn [s_d s_e s_1 s_2 s_3 s_y s_z].
    unfold sw_Face1, sw_metric, ten, local1, local2, SQR. open_rows. cbn [fst next]. assert (Rabs (sin (x2v G j)) <> 0) by (apply Rabs_no_R0; assumption).
    f_equal; field; repeat split; lra.
Qed.
Lemma sw_face3 j i : 0 < x1v G i -> 2 * m < x1v G i -> sin (x2v G j) <> 0 ->
  face_right 3 (fst (sw_Face3 m G j i)) (snd (sw_Face3 m G j i)) (sw_PrimToLocal3 true m G j i) (sw_FluxToGlobal3 m G j i).
Proof.
  intros Hr Hm Hs. pose proof (alpha_pos _ _ Hr Hm) as Ha. exists (sw3 j i).
  assert (O : orthonormal (sw3 j i) (fst (sw_Face3 m G j i))).
  { pose proof (abs_sq (sin (x2v G j))) as Q. fc; unfold sw3, sw_Face3, sw_Cell, sw_metric, ten, SQR; open_rows; cbn [fst]; try ring; try (field; lra).
    replace (0 * 0) with 0 by ring. transitivity (x1v G i * x1v G i * (Rabs (sin (x2v G j)) * Rabs (sin (x2v G j)))); [ring|]. rewrite Q. ring. }
  split; [exact O|]. split; [repeat split; unfold sw3; open_rows; auto|]. split.
  { split; [unfold sw3; open_rows; apply Rmult_lt_0_compat; [assumption|apply Rabs_pos_lt; assumption]|]. f3; intro H; try congruence; unfold sw3; open_rows; reflexivity. }
  split.
  - apply to_local_generic with (al := sw_alpha m (x1v G i)); auto.
    + unfold sw_Face3, sw_Cell, sw_inverse, ten, SQR. cbn [snd]. field. lra.
    + f3; unfold sw3, sw_Face3, sw_Cell, sw_inverse, ten; open_rows; cbn [snd]; ring.
    + intros bn p. unfold sw_PrimToLocal3. destruct (sw_global _ _ _ _ _ _ _ _) as [[ga u] [[[b0 b1] b2] b3]]. cbn [fst]. unfold slot_u, sw3. f3; open_rows; cbv [projected ivx ivy ivz]; ring.
    + intros bn p. unfold sw_PrimToLocal3, sw_global. cbv zeta.
      set (ga := sqrt _). assert (Hg : 0 < ga).
      { apply gam_pos. unfold sw_Face3, sw_Cell, sw_metric, ten, SQR. cbn [fst]. assert (0 < 1 / (sw_alpha m (x1v G i) * sw_alpha m (x1v G i))) by (apply Rdiv_lt_0_compat; nra).
        set (v := sin (x2v G j)). assert (0 <= (x1v G i * v * ivz p) ^ 2) by nra. assert (0 <= (x1v G i * ivy p) ^ 2) by nra. assert (0 <= ivx p * ivx p) by nra. nra. }
      cbn [fst snd]. unfold slot_b, sw3, global_b. f3; open_rows; cbv [projected iby ibz]; field; lra.
  - intros D T F HT HF. unfold sw_FluxToGlobal3, local_cons, local_flux, place3, global_flux. unfold sw3. cbn [s_d s_e s_1 s_2 s_3 s_y s_z].
    unfold sw_Face3, sw_Cell, sw_metric, ten, local1, local2, SQR. open_rows. cbn [fst next]. assert (Rabs (sin (x2v G j)) <> 0) by (apply Rabs_no_R0; assumption).
    f_equal; field; repeat split; lra.
Qed.
Definition sw2 (j i : Z) : frame := let r := x1v G i in let al := sw_alpha m r in rows (al, 0, 0, 0) (0, 0, r, 0) (0, 0, 0, r * Rabs (sin (x2f G j))) (0, 1 / al, 0, 0).
Lemma sw_face2_scaled j i : 0 < x1v G i -> 2 * m < x1v G i -> sin (x2f G j) <> 0 ->
  face_right 2 (fst (sw_Face2 m G j i)) (snd (sw_Face2 m G j i)) (rescaled (x1v G i ^ 2) (sw_PrimToLocal2 true m G j i)) (sw_FluxToGlobal2 m G j i).
Proof.
  intros Hr Hm Hs. pose proof (alpha_pos _ _ Hr Hm) as Ha. exists (sw2 j i).
  assert (O : orthonormal (sw2 j i) (fst (sw_Face2 m G j i))).
  { pose proof (abs_sq (sin (x2f G j))) as Q. fc; unfold sw2, sw_Face2, sw_metric, ten, SQR; open_rows; cbn [fst]; try ring; try (field; lra).
    replace (0 * 0) with 0 by ring. transitivity (x1v G i * x1v G i * (Rabs (sin (x2f G j)) * Rabs (sin (x2f G j)))); [ring|]. rewrite Q. ring. }
  split; [exact O|]. split; [repeat split; unfold sw2; open_rows; auto|]. split.
  { split; [unfold sw2; open_rows; assumption|]. f3; intro H; try congruence; unfold sw2; open_rows; reflexivity. }
  split.
  - apply to_local_generic with (al := sw_alpha m (x1v G i)); auto.
    + unfold sw_Face2, sw_inverse, ten, SQR. cbn [snd]. field. lra.
    + f3; unfold sw2, sw_Face2, sw_inverse, ten; open_rows; cbn [snd]; ring.
    + intros bn p. unfold rescaled, sw_PrimToLocal2. destruct (sw_global _ _ _ _ _ _ _ _) as [[ga u] [[[b0 b1] b2] b3]]. cbn [fst]. unfold slot_u, sw2. f3; open_rows; cbv [projected ivx ivy ivz]; field; lra.
    + intros bn p. unfold rescaled, sw_PrimToLocal2, sw_global. cbv zeta.
      set (ga := sqrt _). assert (Hg : 0 < ga).
      { apply gam_pos. unfold sw_Face2, sw_metric, ten, SQR. cbn [fst]. assert (0 < 1 / (sw_alpha m (x1v G i) * sw_alpha m (x1v G i))) by (apply Rdiv_lt_0_compat; nra).
        set (v := sin (x2f G j)). assert (0 <= (x1v G i * v * ivz p) ^ 2) by nra. assert (0 <= (x1v G i * ivy p) ^ 2) by nra. assert (0 <= ivx p * ivx p) by nra. nra. }
      cbn [fst snd]. unfold slot_b, sw2, global_b. f3; open_rows; cbv [projected iby ibz]; field; repeat split; lra.
  - intros D T F HT HF. unfold sw_FluxToGlobal2, local_cons, local_flux, place3, global_flux. unfold sw2. cbn [s_d s_e s_1 s_2 s_3 s_y s_z].
    unfold sw_Face2, sw_metric, ten, local1, local2, SQR. open_rows. cbn [fst next]. assert (Rabs (sin (x2f G j)) <> 0) by (apply Rabs_no_R0; assumption).
    f_equal; field; repeat split; lra.
Qed.
End Schwarz.
