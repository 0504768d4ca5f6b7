(** Kerr-Schild faces. *)
From Coq Require Import Reals ZArith Lra Lia.
From Verif Require Import Gr_Model Gr_Spec Gr_Proofs Gr_Proofs2.
Local Open Scope R_scope.
(** The square of the Lorentz factor is not negative: the spatial metric is a sum of squares. *)
Lemma tmp_pos M g w : orthonormal M g -> M 0%nat 1%nat = 0 -> M 0%nat 2%nat = 0 -> M 0%nat 3%nat = 0 -> w 0%nat = 0 -> 0 <= sum4 (fun m => sum4 (fun n => g m n * w m * w n)).
Proof.
  intros O M1 M2 M3 W. unfold sum4. rewrite W.
  rewrite <- (O 1%nat 1%nat), <- (O 1%nat 2%nat), <- (O 1%nat 3%nat), <- (O 2%nat 1%nat), <- (O 2%nat 2%nat), <- (O 2%nat 3%nat), <- (O 3%nat 1%nat), <- (O 3%nat 2%nat), <- (O 3%nat 3%nat) by lia.
  unfold sum4, eta. cbn [Nat.eqb]. rewrite M1, M2, M3.
  assert (forall x, 0 <= x * x) as P by (intro; nra).
  pose proof (P (M 1%nat 1%nat * w 1%nat + M 1%nat 2%nat * w 2%nat + M 1%nat 3%nat * w 3%nat)). pose proof (P (M 2%nat 1%nat * w 1%nat + M 2%nat 2%nat * w 2%nat + M 2%nat 3%nat * w 3%nat)).
  pose proof (P (M 3%nat 1%nat * w 1%nat + M 3%nat 2%nat * w 2%nat + M 3%nat 3%nat * w 3%nat)). 
  match goal with |- 0 <= ?x => replace x with ((M 1%nat 1%nat * w 1%nat + M 1%nat 2%nat * w 2%nat + M 1%nat 3%nat * w 3%nat) * (M 1%nat 1%nat * w 1%nat + M 1%nat 2%nat * w 2%nat + M 1%nat 3%nat * w 3%nat)
    + (M 2%nat 1%nat * w 1%nat + M 2%nat 2%nat * w 2%nat + M 2%nat 3%nat * w 3%nat) * (M 2%nat 1%nat * w 1%nat + M 2%nat 2%nat * w 2%nat + M 2%nat 3%nat * w 3%nat)
    + (M 3%nat 1%nat * w 1%nat + M 3%nat 2%nat * w 2%nat + M 3%nat 3%nat * w 3%nat) * (M 3%nat 1%nat * w 1%nat + M 3%nat 2%nat * w 2%nat + M 3%nat 3%nat * w 3%nat)) by ring end. lra.
Qed.
(** What ks_global returns, whatever the metric. *)
Lemma global_b_rel al g gi uu1 uu2 uu3 bb1 bb2 bb3 : 0 < al -> sqrt (- 1 / gi 0%nat 0%nat) = al -> 0 <= g 1%nat 1%nat * uu1 * uu1 + 2 * g 1%nat 3%nat * uu1 * uu3 + g 2%nat 2%nat * uu2 * uu2 + g 3%nat 3%nat * uu3 * uu3 ->
  exists ga b0, 0 < ga /\ ks_global g gi uu1 uu2 uu3 bb1 bb2 bb3 = (ga, (ga / al, uu1 - al * ga * gi 0%nat 1%nat, uu2, uu3),
    (b0, (bb1 + b0 * (uu1 - al * ga * gi 0%nat 1%nat)) / (ga / al), (bb2 + b0 * uu2) / (ga / al), (bb3 + b0 * uu3) / (ga / al))).
Proof.
  intros Hal E H. unfold ks_global. rewrite E. cbv zeta. set (ga := sqrt _). exists ga. eexists. split; [apply sqrt_lt_R0; lra|reflexivity].
Qed.
Ltac sym_rw HT HF T F :=
  rewrite ?(HT 1%nat 0%nat), ?(HT 2%nat 0%nat), ?(HT 3%nat 0%nat), ?(HT 2%nat 1%nat), ?(HT 3%nat 1%nat), ?(HT 3%nat 2%nat);
  let Z := fresh in assert (Z : forall k, F k k = 0) by (let k := fresh in intro k; pose proof (HF k k); lra);
  rewrite ?(HF 1%nat 0%nat), ?(HF 2%nat 0%nat), ?(HF 3%nat 0%nat), ?(HF 2%nat 1%nat), ?(HF 3%nat 1%nat), ?(HF 3%nat 2%nat), ?Z; clear Z.
Section Faces.
Variables (m a : R) (G : ggrid) (j i : Z).
Hypothesis Hm : 0 <= m.
Lemma w_rel r th : 0 < r -> trans1_1 m a r th * trans1_1 m a r th * (2 * m * r / (SQR r + SQR a * SQR (cos th))) = 2 * m * r / (t_sigma a r th + 2 * m * r).
Proof.
  intro Hr. rewrite al_sq by assumption. change (SQR r + SQR a * SQR (cos th)) with (t_sigma a r th). pose proof (sigma_pos a r th Hr). assert (0 <= 2 * m * r) by nra. field. split; lra.
Qed.
Lemma gi00 r th : 0 < r -> - (1 + 2 * m * r / (SQR r + SQR a * SQR (cos th))) = - / (trans1_1 m a r th * trans1_1 m a r th).
Proof.
  intro Hr. rewrite al_sq by assumption. change (SQR r + SQR a * SQR (cos th)) with (t_sigma a r th). pose proof (sigma_pos a r th Hr). assert (0 <= 2 * m * r) by nra. field. split; lra.
Qed.
Lemma tmp_form M g uu1 uu2 uu3 : orthonormal M g -> M 0%nat 1%nat = 0 -> M 0%nat 2%nat = 0 -> M 0%nat 3%nat = 0 -> g 1%nat 2%nat = 0 -> g 2%nat 1%nat = 0 -> g 2%nat 3%nat = 0 -> g 3%nat 2%nat = 0 -> g 3%nat 1%nat = g 1%nat 3%nat ->
  0 <= g 1%nat 1%nat * uu1 * uu1 + 2 * g 1%nat 3%nat * uu1 * uu3 + g 2%nat 2%nat * uu2 * uu2 + g 3%nat 3%nat * uu3 * uu3.
Proof.
  intros O M1 M2 M3 A B C D E. pose proof (tmp_pos M g (projected uu1 uu2 uu3) O M1 M2 M3 eq_refl) as P. unfold sum4, projected in P. rewrite A, B, C, D, E in P. lra.
Qed.
Lemma ks_face1_right : 0 < x1f G i -> sin (x2v G j) <> 0 -> face_right 1 (fst (ks_Face1 m a G j i)) (snd (ks_Face1 m a G j i)) (ks_PrimToLocal1 true m a G j i) (ks_FluxToGlobal1 m a G j i).
Proof.
  intros Hr Hs. set (r := x1f G i) in *. set (th := x2v G j) in *. exists (ks1 m a r th).
  pose proof (ks1_ortho m a r th Hr Hm) as O. pose proof (al_pos m a r th Hr Hm) as Pal. pose proof (sigma_pos a r th Hr) as Psg. assert (Pw : 0 <= 2 * m * r) by nra. pose proof (Pbg m a r th Hr Hm) as Pb.
  pose proof (q_pos m a r th Hr Hm) as Pq. pose proof (p_pos m a r th Hr Hm) as Pp. pose proof (s_pos th Hs) as Ps. pose proof (my2_pos m a r th Hr) as Py.
  assert (Px : 0 < trans1_2 m a r th) by (rewrite mx1_eq by assumption; apply Rmult_lt_0_compat; [lra|assumption]).
  assert (Pz : 0 < trans1_4 m a r th) by (apply Rmult_lt_0_compat; assumption).
  assert (Rx : trans1_5 m a r th = 2 * m * r / (t_sigma a r th + 2 * m * r) * trans1_2 m a r th) by (rewrite mx0_eq, mx1_eq by assumption; field; lra).
  assert (Rz : trans1_6 m a r th = 2 * m * r / (t_sigma a r th + 2 * m * r) * trans1_7 m a r th) by (rewrite mz0_eq, mz1_eq by assumption; field; repeat split; lra).
  change (fst (ks_Face1 m a G j i)) with (ks_metric m a r (SQR (sin th)) (SQR (cos th))) in *. change (snd (ks_Face1 m a G j i)) with (ks_inverse m a r (SQR (sin th)) (SQR (cos th))) in *.
  split; [exact O|]. split; [repeat split; auto|]. split.
  { split; [exact Px|]. f3; intro H; try congruence; reflexivity. }
  split.
  - apply to_local_generic with (al := trans1_1 m a r th); auto.
    + apply gi00. exact Hr.
    + f3; unfold ks1, ks_inverse, ten; open_rows; cbv zeta.
      * rewrite Rx, <- w_rel by exact Hr. ring.
      * ring.
      * rewrite Rz, <- w_rel by exact Hr. ring.
    + intros bn p. unfold ks_PrimToLocal1. fold r th. destruct (ks_global _ _ _ _ _ _ _ _) as [[ga u] [[[b0 b1] b2] b3]]. cbn [fst]. unfold slot_u, ks1. f3; open_rows; cbv [projected ivx ivy ivz]; ring.
    + intros bn p. unfold ks_PrimToLocal1. fold r th. change (fst (ks_Face1 m a G j i)) with (ks_metric m a r (SQR (sin th)) (SQR (cos th))). change (snd (ks_Face1 m a G j i)) with (ks_inverse m a r (SQR (sin th)) (SQR (cos th))).
      destruct (global_b_rel (trans1_1 m a r th) (ks_metric m a r (SQR (sin th)) (SQR (cos th))) (ks_inverse m a r (SQR (sin th)) (SQR (cos th))) (ivx p) (ivy p) (ivz p) bn (iby p) (ibz p) Pal) as [ga [b0 [Hg E]]].
      { exact (al_code m a r th Hr Hm). }
      { apply (tmp_form (ks1 m a r th)); auto. }
      rewrite E. cbn [fst snd]. unfold slot_b, ks1, global_b.
      set (k := ks_inverse m a r (SQR (sin th)) (SQR (cos th)) 0%nat 1%nat).
      assert (K : trans1_1 m a r th * trans1_1 m a r th * k = 2 * m * r / (t_sigma a r th + 2 * m * r)) by (apply w_rel; exact Hr).
      rewrite Rx, Rz, <- K. f3; open_rows; cbv [projected iby ibz]; field; lra.
  - intros D T F HT HF. unfold ks_FluxToGlobal1, local_cons, local_flux, place3, global_flux. cbn [s_d s_e s_1 s_2 s_3 s_y s_z]. fold r th.
    change (fst (ks_Face1 m a G j i)) with (ks_metric m a r (SQR (sin th)) (SQR (cos th))).
    unfold ks_metric, ten, local1, local2, ks1. open_rows. cbn [next]. cbv zeta.
    set (al := trans1_1 m a r th) in *. set (x1 := trans1_2 m a r th) in *. set (z1 := trans1_7 m a r th) in *. set (z3 := trans1_4 m a r th) in *. set (y2 := trans1_3 m a r th) in *. set (c := 2 * m * r / (t_sigma a r th + 2 * m * r)) in *.
    rewrite Rx, Rz. clearbody al x1 z1 z3 y2 c.
    assert (HS : SQR r + SQR a * SQR (cos th) <> 0) by (apply Rgt_not_eq; exact Psg). revert HS. generalize (SQR r + SQR a * SQR (cos th)). intros S HS.
    sym_rw HT HF T F. f_equal; field; repeat split; (assumption || lra).
Qed.
Lemma ks_face2_right : (jll G <= j < juu G)%Z -> 0 < x1v G i -> sin (x2f G j) <> 0 -> face_right 2 (fst (ks_Face2 m a G j i)) (snd (ks_Face2 m a G j i)) (ks_PrimToLocal2 true m a G j i) (ks_FluxToGlobal2 m a G j i).
Proof.
  intros Hj Hr Hs. set (r := x1v G i) in *. set (th := x2f G j) in *. exists (ks2 m a r th).
  pose proof (ks2_ortho m a r th Hr Hm) as O. pose proof (al_pos m a r th Hr Hm) as Pal. pose proof (sigma_pos a r th Hr) as Psg. assert (Pw : 0 <= 2 * m * r) by nra.
  pose proof (h_pos m a r th Hr Hm) as Ph. pose proof (y_pos m a r th Hr) as Py. pose proof (s_pos th Hs) as Ps.
  assert (Pt : 0 < trans2_4 m a r th) by (apply Rmult_lt_0_compat; assumption).
  assert (Rx : trans2_5 m a r th = 2 * m * r / (t_sigma a r th + 2 * m * r) * trans2_2 m a r th).
  { rewrite t25. pose proof (h_sq m a r th Hr Hm) as Q. set (h := trans2_2 m a r th) in *. apply Rmult_eq_reg_r with h; [|lra]. transitivity (2 * m * r / (t_sigma a r th + 2 * m * r) * (h * h)); [rewrite Q|]; field; repeat split; lra. }
  assert (EF : ks_Face2 m a G j i = (ks_metric m a r (SQR (sin th)) (SQR (cos th)), ks_inverse m a r (SQR (sin th)) (SQR (cos th)))).
  { unfold ks_Face2, metric_face2_j1, metric_face2_j2. destruct (Z.eqb_spec j (juu G)) as [|_]; [lia|]. destruct (Z.leb_spec (jll G) j); [|lia]. destruct (Z.ltb_spec j (juu G)); [|lia]. reflexivity. }
  rewrite EF. cbn [fst snd].
  split; [exact O|]. split; [repeat split; auto|]. split.
  { split; [exact Py|]. f3; intro H; try congruence; reflexivity. }
  split.
  - apply to_local_generic with (al := trans1_1 m a r th); auto.
    + apply gi00. exact Hr.
    + f3; unfold ks2, ks_inverse, ten; open_rows; cbv zeta; try ring. rewrite Rx, <- w_rel by exact Hr. ring.
    + intros bn p. unfold ks_PrimToLocal2. fold r th. destruct (ks_global _ _ _ _ _ _ _ _) as [[ga u] [[[b0 b1] b2] b3]]. cbn [fst]. unfold slot_u, ks2. f3; open_rows; cbv [projected ivx ivy ivz]; ring.
    + intros bn p. unfold ks_PrimToLocal2. rewrite EF. cbn [fst snd]. fold r th.
      destruct (global_b_rel (trans1_1 m a r th) (ks_metric m a r (SQR (sin th)) (SQR (cos th))) (ks_inverse m a r (SQR (sin th)) (SQR (cos th))) (ivx p) (ivy p) (ivz p) (ibz p) bn (iby p) Pal) as [ga [b0 [Hg E]]].
      { exact (al_code m a r th Hr Hm). }
      { apply (tmp_form (ks2 m a r th)); auto. }
      rewrite E. cbn [fst snd]. unfold slot_b, ks2, global_b.
      set (k := ks_inverse m a r (SQR (sin th)) (SQR (cos th)) 0%nat 1%nat).
      assert (K : trans1_1 m a r th * trans1_1 m a r th * k = 2 * m * r / (t_sigma a r th + 2 * m * r)) by (apply w_rel; exact Hr).
      change (trans2_1 m a r th) with (trans1_1 m a r th). rewrite Rx, <- K. f3; open_rows; cbv [projected iby ibz]; try (field; lra).
  - intros D T F HT HF. unfold ks_FluxToGlobal2, local_cons, local_flux, place3, global_flux. rewrite EF. cbn [fst s_d s_e s_1 s_2 s_3 s_y s_z]. fold r th.
    unfold ks_metric, ten, local1, local2, ks2. open_rows. cbn [next]. cbv zeta. change (trans2_1 m a r th) with (trans1_1 m a r th).
    set (al := trans1_1 m a r th) in *. set (h := trans2_2 m a r th) in *. set (y := trans2_3 m a r th) in *. set (t4 := trans2_4 m a r th) in *. set (t6 := trans2_6 m a r th) in *. set (c := 2 * m * r / (t_sigma a r th + 2 * m * r)) in *.
    rewrite Rx. clearbody al h y t4 t6 c.
    assert (HS : SQR r + SQR a * SQR (cos th) <> 0) by (apply Rgt_not_eq; exact Psg). revert HS. generalize (SQR r + SQR a * SQR (cos th)). intros S HS.
    sym_rw HT HF T F. f_equal; field; repeat split; (assumption || lra).
Qed.
Lemma ks_face3_right : 0 < x1v G i -> sin (x2v G j) <> 0 -> face_right 3 (fst (ks_Face3 m a G j i)) (snd (ks_Face3 m a G j i)) (ks_PrimToLocal3 true m a G j i) (ks_FluxToGlobal3 m a G j i).
Proof.
  intros Hr Hs. set (r := x1v G i) in *. set (th := x2v G j) in *. exists (ks3 m a r th).
  pose proof (ks3_ortho m a r th Hr Hm) as O. pose proof (al_pos m a r th Hr Hm) as Pal. pose proof (sigma_pos a r th Hr) as Psg. assert (Pw : 0 <= 2 * m * r) by nra.
  pose proof (h_pos m a r th Hr Hm) as Ph. pose proof (y_pos m a r th Hr) as Py. pose proof (s_pos th Hs) as Ps.
  assert (Pt : 0 < trans2_4 m a r th) by (apply Rmult_lt_0_compat; assumption).
  assert (Rx : trans2_5 m a r th = 2 * m * r / (t_sigma a r th + 2 * m * r) * trans2_2 m a r th).
  { rewrite t25. pose proof (h_sq m a r th Hr Hm) as Q. set (h := trans2_2 m a r th) in *. apply Rmult_eq_reg_r with h; [|lra]. transitivity (2 * m * r / (t_sigma a r th + 2 * m * r) * (h * h)); [rewrite Q|]; field; repeat split; lra. }
  assert (EF : ks_Face3 m a G j i = (ks_metric m a r (SQR (sin th)) (SQR (cos th)), ks_inverse m a r (SQR (sin th)) (SQR (cos th)))).
  { reflexivity. }
  rewrite EF. cbn [fst snd].
  split; [exact O|]. split; [repeat split; auto|]. split.
  { split; [exact Pt|]. f3; intro H; try congruence; reflexivity. }
  split.
  - apply to_local_generic with (al := trans1_1 m a r th); auto.
    + apply gi00. exact Hr.
    + f3; unfold ks3, ks_inverse, ten; open_rows; cbv zeta; try ring. rewrite Rx, <- w_rel by exact Hr. ring.
    + intros bn p. unfold ks_PrimToLocal3. fold r th. destruct (ks_global _ _ _ _ _ _ _ _) as [[ga u] [[[b0 b1] b2] b3]]. cbn [fst]. unfold slot_u, ks3. f3; open_rows; cbv [projected ivx ivy ivz]; ring.
    + intros bn p. unfold ks_PrimToLocal3. rewrite EF. cbn [fst snd]. fold r th.
      destruct (global_b_rel (trans1_1 m a r th) (ks_metric m a r (SQR (sin th)) (SQR (cos th))) (ks_inverse m a r (SQR (sin th)) (SQR (cos th))) (ivx p) (ivy p) (ivz p) (iby p) (ibz p) bn Pal) as [ga [b0 [Hg E]]].
      { exact (al_code m a r th Hr Hm). }
      { apply (tmp_form (ks3 m a r th)); auto. }
      rewrite E. cbn [fst snd]. unfold slot_b, ks3, global_b.
      set (k := ks_inverse m a r (SQR (sin th)) (SQR (cos th)) 0%nat 1%nat).
      assert (K : trans1_1 m a r th * trans1_1 m a r th * k = 2 * m * r / (t_sigma a r th + 2 * m * r)) by (apply w_rel; exact Hr).
      change (trans2_1 m a r th) with (trans1_1 m a r th). rewrite Rx, <- K. f3; open_rows; cbv [projected iby ibz]; try (field; lra).
  - intros D T F HT HF. unfold ks_FluxToGlobal3, local_cons, local_flux, place3, global_flux. rewrite EF. cbn [fst s_d s_e s_1 s_2 s_3 s_y s_z]. fold r th.
    unfold ks_metric, ten, local1, local2, ks3. open_rows. cbn [next]. cbv zeta. change (trans2_1 m a r th) with (trans1_1 m a r th).
    set (al := trans1_1 m a r th) in *. set (h := trans2_2 m a r th) in *. set (y := trans2_3 m a r th) in *. set (t4 := trans2_4 m a r th) in *. set (t6 := trans2_6 m a r th) in *. set (c := 2 * m * r / (t_sigma a r th + 2 * m * r)) in *.
    rewrite Rx. clearbody al h y t4 t6 c.
    assert (HS : SQR r + SQR a * SQR (cos th) <> 0) by (apply Rgt_not_eq; exact Psg). revert HS. generalize (SQR r + SQR a * SQR (cos th)). intros S HS.
    sym_rw HT HF T F. f_equal; field; repeat split; (assumption || lra).
Qed.
End Faces.
