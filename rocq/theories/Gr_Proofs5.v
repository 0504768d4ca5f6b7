(** Source terms, volumes and areas. *)
From Coq Require Import Reals ZArith Lra Lia.
From Verif Require Import Gr_Model Gr_Spec Gr_Proofs Gr_Proofs2 Gr_Proofs3 Gr_Proofs4.
Local Open Scope R_scope.
Definition dSw_r (m r th : R) : met := fun i j =>
  match i, j with 0%nat, 0%nat => - (2 * m / r ^ 2) | 1%nat, 1%nat => - (2 * m / r ^ 2) / (1 - 2 * m / r) ^ 2 | 2%nat, 2%nat => 2 * r | 3%nat, 3%nat => 2 * r * sin th ^ 2 | _, _ => 0 end.
Definition dSw_th (m r th : R) : met := fun i j => match i, j with 3%nat, 3%nat => r ^ 2 * (2 * sin th * cos th) | _, _ => 0 end.
Lemma d_zero x : derivable_pt_lim (fun _ => 0) x 0.
Proof. exact (derivable_pt_lim_const 0 x). Qed.
Lemma sw_r m r th : 0 < r -> 2 * m < r -> derivative_r (Schwarzschild m) r th (dSw_r m r th).
Proof.
  intros Hr Hm. pose proof (alpha_arg _ _ Hr Hm) as A.
  assert (Q : derivable_pt_lim (fun t => 1 + - (2 * m) * ((1 + 0 * t) / t)) r (- (2 * m) * ((0 * 1 * r - 1 * (1 + 0 * r)) / (r * r)))).
  { apply d_affine. apply (d_quot (fun t => 1 + 0 * t) (fun t => t)); [lra|apply d_affine; apply d_id|apply d_id]. }
  fc; unfold Schwarzschild, dSw_r; try apply d_zero.
  - apply (d_ext (fun t => 0 + -1 * (1 + - (2 * m) * ((1 + 0 * t) / t))) _ _ (-1 * (- (2 * m) * ((0 * 1 * r - 1 * (1 + 0 * r)) / (r * r))))); [intro; unfold Rdiv; ring|field; lra|]. apply d_affine. exact Q.
  - apply (d_ext (fun t => (1 + 0 * t) / (1 + - (2 * m) * ((1 + 0 * t) / t))) _ _ ((0 * 1 * (1 + - (2 * m) * ((1 + 0 * r) / r)) - (- (2 * m) * ((0 * 1 * r - 1 * (1 + 0 * r)) / (r * r))) * (1 + 0 * r)) / ((1 + - (2 * m) * ((1 + 0 * r) / r)) * (1 + - (2 * m) * ((1 + 0 * r) / r))))).
    + intro t. replace (1 + - (2 * m) * ((1 + 0 * t) / t)) with (1 - 2 * m / t) by (unfold Rdiv; ring). unfold Rdiv. ring.
    + replace (1 + - (2 * m) * ((1 + 0 * r) / r)) with (1 - 2 * m / r) by (unfold Rdiv; ring). set (k := 1 - 2 * m / r) in *. field. split; lra.
    + apply (d_quot (fun t => 1 + 0 * t) (fun t => 1 + - (2 * m) * ((1 + 0 * t) / t))); [replace (1 + - (2 * m) * ((1 + 0 * r) / r)) with (1 - 2 * m / r) by (unfold Rdiv; ring); lra|apply d_affine; apply d_id|exact Q].
  - apply (d_ext (fun t => t * t) _ _ (2 * r)); [intro; ring|ring|apply d_sq].
  - apply (d_ext (fun t => 0 + sin th ^ 2 * (t * t)) _ _ (sin th ^ 2 * (2 * r))); [intro; ring|ring|apply d_affine; apply d_sq].
Qed.
Lemma sw_th m r th : derivative_th (Schwarzschild m) r th (dSw_th m r th).
Proof.
  fc; unfold Schwarzschild, dSw_th; try apply d_zero; try (match goal with |- derivable_pt_lim (fun _ => ?c) _ _ => exact (derivable_pt_lim_const c th) end).
  apply (d_ext (fun t => 0 + r ^ 2 * (sin t * sin t)) _ _ (r ^ 2 * (2 * sin th * cos th))); [intro; ring|ring|apply d_affine; apply d_sin2].
Qed.
Definition q_u (q : gas) : nat -> R := projected (q_1 q) (q_2 q) (q_3 q).
Definition q_b (q : gas) : nat -> R := projected (q_b1 q) (q_b2 q) (q_b3 q).
Lemma ten_sym a b c d e f g h i j : symmetric (ten a b c d e f g h i j).
Proof. intros x y. unfold ten. destruct x as [|[|[|[|x]]]]; destruct y as [|[|[|[|y]]]]; reflexivity. Qed.

Lemma sw_source_right ga m G j i q b : 0 < x1v G i -> 2 * m < x1v G i -> sin (x2v G j) <> 0 -> let g := fst (sw_Cell m G j i) in let gi := snd (sw_Cell m G j i) in let u := velocity g gi (q_u q) in
  is_fluid_field g u (q_b q) b -> sw_source ga m G j i q = (geometric (dSw_r m (x1v G i) (x2v G j)) (stress ga gi g (q_rho q) (q_p q) u b), geometric (dSw_th m (x1v G i) (x2v G j)) (stress ga gi g (q_rho q) (q_p q) u b)).
Proof.
  intros Hr Hm Hs g gi u Hb. set (r := x1v G i) in *. set (th := x2v G j) in *. pose proof (alpha_arg _ _ Hr Hm) as A. pose proof (alpha_pos _ _ Hr Hm) as Pa.
  assert (Hs2 : 0 < SQR (sin th)) by (unfold SQR; nra).
  assert (Eg : g = sw_metric (SQR (sw_alpha m r)) r (SQR (sin th))) by reflexivity. assert (Egi : gi = sw_inverse (SQR (sw_alpha m r)) r (SQR (sin th))) by reflexivity.
  set (al := sw_alpha m r) in *. assert (A2 : SQR al = 1 - 2 * m / r) by (apply sq_alpha; assumption).
  assert (I : inverse_metrics g gi) by (rewrite Eg, Egi; apply sw_inv; [apply sq_nz; lra|lra|lra]).
  assert (Hal : sqrt (- 1 / gi 0%nat 0%nat) = al).
  { rewrite Egi. unfold sw_inverse, ten. replace (- 1 / (- 1 / SQR al)) with (al * al) by (unfold SQR; field; lra). apply sqrt_square. lra. }
  assert (Hal' : sqrt (- gi 0%nat 0%nat) = / al).
  { rewrite Egi. unfold sw_inverse, ten. replace (- (- 1 / SQR al)) with (/ al * / al) by (unfold SQR; field; lra). apply sqrt_square. left. apply Rinv_0_lt_compat. exact Pa. }
  assert (P : 0 <= g 1%nat 1%nat * q_1 q * q_1 q + g 2%nat 2%nat * q_2 q * q_2 q + g 3%nat 3%nat * q_3 q * q_3 q).
  { rewrite Eg. unfold sw_metric, ten. assert (0 < 1 / SQR al) by (rewrite A2; apply Rdiv_lt_0_compat; lra). assert (0 < SQR r) by (unfold SQR; nra). 
    assert (forall x y, 0 < x -> 0 <= x * y * y) as S by (intros x y Hx; rewrite Rmult_assoc; apply Rmult_le_pos; [lra|nra]).
    pose proof (S (1 / SQR al) (q_1 q)). pose proof (S (SQR r) (q_2 q)). pose proof (S (SQR r * SQR (sin th)) (q_3 q)). assert (0 < SQR r * SQR (sin th)) by (apply Rmult_lt_0_compat; assumption). lra. }
  assert (Wt : sum4 (fun m => sum4 (fun n => g m n * q_u q m * q_u q n)) = g 1%nat 1%nat * q_1 q * q_1 q + g 2%nat 2%nat * q_2 q * q_2 q + g 3%nat 3%nat * q_3 q * q_3 q).
  { rewrite Eg. unfold sum4, q_u, projected, sw_metric, ten. ring. }
  set (L := sqrt (1 + (g 1%nat 1%nat * q_1 q * q_1 q + g 2%nat 2%nat * q_2 q * q_2 q + g 3%nat 3%nat * q_3 q * q_3 q))) in *. assert (PL : 0 < L) by (apply sqrt_lt_R0; lra).
  assert (EL : lorentz g (q_u q) = L) by (unfold lorentz; rewrite Wt; reflexivity).
  assert (U0 : u 0%nat = L / al). { unfold u, velocity, normal. rewrite EL, Hal', Egi. unfold q_u, projected, sw_inverse, ten, SQR. field. lra. }
  assert (U1 : u 1%nat = q_1 q). { unfold u, velocity, normal. rewrite EL, Hal', Egi. unfold q_u, projected, sw_inverse, ten, SQR. field. lra. }
  assert (U2 : u 2%nat = q_2 q). { unfold u, velocity, normal. rewrite EL, Hal', Egi. unfold q_u, projected, sw_inverse, ten, SQR. field. lra. }
  assert (U3 : u 3%nat = q_3 q). { unfold u, velocity, normal. rewrite EL, Hal', Egi. unfold q_u, projected, sw_inverse, ten, SQR. field. lra. }
  assert (N0 : u 0%nat <> 0) by (rewrite U0; apply Rgt_not_eq; apply Rdiv_lt_0_compat; assumption).
  assert (UU : sum4 (fun m => sum4 (fun n => g m n * u m * u n)) = -1).
  { apply unit; [|exact I|rewrite Eg; apply ten_sym|rewrite Egi; apply ten_sym|reflexivity|rewrite Wt; exact P]. rewrite Egi. unfold sw_inverse, ten. rewrite A2. assert (0 < 1 / (1 - 2 * m / r)) by (apply Rdiv_lt_0_compat; lra). unfold Rdiv in *. lra. }
  destruct (fluid_field g u (q_b q) b UU N0 Hb) as [B0 Bi].
  unfold sw_source. fold r th. cbv zeta. fold g gi. rewrite Hal. unfold sw_global. fold L. cbv zeta. rewrite <- U1, <- U2, <- U3, <- U0.
  assert (EB0 : g 1%nat 1%nat * u 1%nat * q_b1 q + g 2%nat 2%nat * u 2%nat * q_b2 q + g 3%nat 3%nat * u 3%nat * q_b3 q = b 0%nat) by (rewrite B0, Eg; unfold sum4, q_b, projected, sw_metric, ten; ring).
  rewrite EB0.
  assert (EBB : g 0%nat 0%nat * b 0%nat * b 0%nat + g 1%nat 1%nat * b 1%nat * b 1%nat + g 2%nat 2%nat * b 2%nat * b 2%nat + g 3%nat 3%nat * b 3%nat * b 3%nat = sum4 (fun m => sum4 (fun n => g m n * b m * b n))) by (rewrite Eg; unfold sum4, sw_metric, ten; ring).
  change (q_b1 q) with (q_b q 1%nat). change (q_b2 q) with (q_b q 2%nat). change (q_b3 q) with (q_b q 3%nat). rewrite <- (Bi 1%nat), <- (Bi 2%nat), <- (Bi 3%nat) by lia. rewrite EBB.
  unfold geometric, stress. set (bb := sum4 (fun m => sum4 (fun n => g m n * b m * b n))). cbv zeta.
  assert (G11 : SQR (g 1%nat 1%nat) = / (1 - 2 * m / r) ^ 2) by (rewrite Eg; unfold sw_metric, ten; rewrite A2; unfold SQR; field; split; lra).
  rewrite G11. set (W := q_rho q + ga / (ga - 1) * q_p q + bb). unfold sum4, dSw_r, dSw_th. clearbody W bb. f_equal.
  - unfold SQR. set (k := 1 - 2 * m / r) in *. field. split; lra.
  - unfold SQR. field.
Qed.

Lemma ks_source_right ga m a G j i q b : 0 <= m -> 0 < x1v G i -> sin (x2v G j) <> 0 -> let g := fst (ks_Cell m a G j i) in let gi := snd (ks_Cell m a G j i) in let u := velocity g gi (q_u q) in
  is_fluid_field g u (q_b q) b -> ks_source ga m a G j i q = (geometric (dKerr_r m a (x1v G i) (x2v G j)) (stress ga gi g (q_rho q) (q_p q) u b), geometric (dKerr_th m a (x1v G i) (x2v G j)) (stress ga gi g (q_rho q) (q_p q) u b)).
Proof.
  intros Hm Hr Hs g gi u Hb. set (r := x1v G i) in *. set (th := x2v G j) in *. pose proof (al_pos m a r th Hr Hm) as Pa. pose proof (sigma_pos a r th Hr) as Psg.
  assert (Hs2 : 0 < SQR (sin th)) by (unfold SQR; nra).
  assert (Eg : g = ks_metric m a r (SQR (sin th)) (SQR (cos th))) by reflexivity. assert (Egi : gi = ks_inverse m a r (SQR (sin th)) (SQR (cos th))) by reflexivity.
  set (al := trans1_1 m a r th) in *.
  assert (I : inverse_metrics g gi) by (rewrite Eg, Egi; apply ks_inv; [apply sc|unfold t_sigma in Psg; lra|lra]).
  assert (Hal : sqrt (- 1 / gi 0%nat 0%nat) = al) by (exact (al_code m a r th Hr Hm)).
  assert (G0 : gi 0%nat 0%nat = - / (al * al)) by (exact (gi00 m a Hm r th Hr)).
  assert (Hal' : sqrt (- gi 0%nat 0%nat) = / al).
  { rewrite G0, Ropp_involutive. replace (/ (al * al)) with (/ al * / al) by (field; lra). apply sqrt_square. left. apply Rinv_0_lt_compat. exact Pa. }
  assert (O : orthonormal (ks3 m a r th) g) by (rewrite Eg; apply ks3_ortho; assumption).
  assert (Sg : symmetric g) by (rewrite Eg; apply ten_sym).
  assert (P : 0 <= g 1%nat 1%nat * q_1 q * q_1 q + 2 * g 1%nat 3%nat * q_1 q * q_3 q + g 2%nat 2%nat * q_2 q * q_2 q + g 3%nat 3%nat * q_3 q * q_3 q) by (apply (tmp_form (ks3 m a r th)); auto).
  assert (Wt : sum4 (fun m => sum4 (fun n => g m n * q_u q m * q_u q n)) = g 1%nat 1%nat * q_1 q * q_1 q + 2 * g 1%nat 3%nat * q_1 q * q_3 q + g 2%nat 2%nat * q_2 q * q_2 q + g 3%nat 3%nat * q_3 q * q_3 q).
  { rewrite Eg. unfold sum4, q_u, projected, ks_metric, ten. cbv zeta. ring. }
  set (L := sqrt (1 + (g 1%nat 1%nat * q_1 q * q_1 q + 2 * g 1%nat 3%nat * q_1 q * q_3 q + g 2%nat 2%nat * q_2 q * q_2 q + g 3%nat 3%nat * q_3 q * q_3 q))) in *. assert (PL : 0 < L) by (apply sqrt_lt_R0; lra).
  assert (EL : lorentz g (q_u q) = L) by (unfold lorentz; rewrite Wt; reflexivity).
  assert (U0 : u 0%nat = L / al). { unfold u, velocity, normal. rewrite EL, Hal', G0. unfold q_u, projected. field. lra. }
  assert (U1 : u 1%nat = q_1 q - al * L * gi 0%nat 1%nat). { unfold u, velocity, normal. rewrite EL, Hal'. unfold q_u, projected. field. lra. }
  assert (U2 : u 2%nat = q_2 q). { unfold u, velocity, normal. rewrite EL, Hal', Egi. unfold q_u, projected, ks_inverse, ten. cbv zeta. field. lra. }
  assert (U3 : u 3%nat = q_3 q). { unfold u, velocity, normal. rewrite EL, Hal', Egi. unfold q_u, projected, ks_inverse, ten. cbv zeta. field. lra. }
  assert (N0 : u 0%nat <> 0) by (rewrite U0; apply Rgt_not_eq; apply Rdiv_lt_0_compat; assumption).
  assert (UU : sum4 (fun m => sum4 (fun n => g m n * u m * u n)) = -1).
  { apply unit; [|exact I|exact Sg|rewrite Egi; apply ten_sym|reflexivity|rewrite Wt; exact P]. rewrite G0. assert (0 < / (al * al)) by (apply Rinv_0_lt_compat; nra). lra. }
  destruct (fluid_field g u (q_b q) b UU N0 Hb) as [B0 Bi].
  unfold ks_source. fold r th. cbv zeta. fold g gi. unfold ks_global. rewrite Hal. fold L. cbv zeta. rewrite <- U1, <- U0, <- U2, <- U3.
  assert (Z : g 0%nat 2%nat = 0 /\ g 1%nat 2%nat = 0 /\ g 2%nat 3%nat = 0) by (rewrite Eg; repeat split; reflexivity). destruct Z as (Z02 & Z12 & Z23).
  assert (Zi : gi 0%nat 3%nat = 0) by (rewrite Egi; reflexivity).
  set (B0' := (g 0%nat 1%nat * u 0%nat + g 1%nat 1%nat * u 1%nat + g 1%nat 3%nat * u 3%nat) * q_b1 q + g 2%nat 2%nat * u 2%nat * q_b2 q + (g 0%nat 3%nat * u 0%nat + g 1%nat 3%nat * u 1%nat + g 3%nat 3%nat * u 3%nat) * q_b3 q).
  assert (EB0 : B0' = b 0%nat). { rewrite B0. unfold B0', sum4, q_b, projected. rewrite (Sg 1%nat 0%nat), (Sg 2%nat 0%nat), (Sg 2%nat 1%nat), (Sg 3%nat 0%nat), (Sg 3%nat 1%nat), (Sg 3%nat 2%nat), Z02, Z12, Z23. ring. }
  rewrite EB0. clear B0' EB0.
  change (q_b1 q) with (q_b q 1%nat). change (q_b2 q) with (q_b q 2%nat). change (q_b3 q) with (q_b q 3%nat). rewrite <- (Bi 1%nat), <- (Bi 2%nat), <- (Bi 3%nat) by lia.
  set (bb' := (g 0%nat 0%nat * b 0%nat + g 0%nat 1%nat * b 1%nat + g 0%nat 3%nat * b 3%nat) * b 0%nat + _ + _ + _).
  assert (EBB : bb' = sum4 (fun m => sum4 (fun n => g m n * b m * b n))).
  { unfold bb', sum4. rewrite (Sg 1%nat 0%nat), (Sg 2%nat 0%nat), (Sg 2%nat 1%nat), (Sg 3%nat 0%nat), (Sg 3%nat 1%nat), (Sg 3%nat 2%nat), Z02, Z12, Z23. ring. }
  rewrite EBB. clear bb' EBB. unfold geometric, stress. set (bb := sum4 (fun m => sum4 (fun n => g m n * b m * b n))). cbv zeta.
  set (W := q_rho q + ga / (ga - 1) * q_p q + bb). 
  assert (Si : symmetric gi) by (rewrite Egi; apply ten_sym).
  unfold sum4. rewrite (Si 1%nat 0%nat), (Si 2%nat 0%nat), (Si 2%nat 1%nat), (Si 3%nat 0%nat), (Si 3%nat 1%nat), (Si 3%nat 2%nat), Zi. replace (bb / 2) with (/ 2 * bb) by (unfold Rdiv; ring).
  set (pt := q_p q + / 2 * bb). unfold t_sigma in Psg. pose proof (sc th) as C. clearbody W pt u gi. clear - Psg C.
  generalize (u 0%nat), (u 1%nat), (u 2%nat), (u 3%nat), (b 0%nat), (b 1%nat), (b 2%nat), (b 3%nat), (gi 0%nat 0%nat), (gi 0%nat 1%nat), (gi 1%nat 1%nat), (gi 1%nat 3%nat), (gi 2%nat 2%nat), (gi 3%nat 3%nat), (gi 0%nat 2%nat), (gi 1%nat 2%nat), (gi 2%nat 3%nat).
  intros. unfold SQR in *. f_equal.
  - unfold dKerr_r, ks_flat, ks_form. assert (Q : cos th * cos th = 1 - sin th * sin th) by lra. rewrite Q in *. replace (cos th ^ 2) with (1 - sin th * sin th) by (rewrite <- Q; ring). field; nra.
  - unfold dKerr_th, flat_s, form_s. cbv zeta. assert (Q : cos th * cos th = 1 - sin th * sin th) by lra. rewrite Q in *. field; nra.
Qed.

(** ** Volumes and areas: integrals of the root of the determinant *)
Lemma d_loc f g x l : (exists d, 0 < d /\ forall t, Rabs (t - x) < d -> f t = g t) -> derivable_pt_lim f x l -> derivable_pt_lim g x l.
Proof.
  intros (d & Hd & E) D eps He. destruct (D eps He) as [e Pe]. assert (0 < Rmin e d) as M by (apply Rmin_pos; [apply cond_pos|exact Hd]). exists (mkposreal _ M). cbn [pos]. intros h Hh Hk.
  rewrite <- (E (x + h)), <- (E x). - apply Pe; [exact Hh|]. eapply Rlt_le_trans; [exact Hk|apply Rmin_l]. - replace (x - x) with 0 by ring. rewrite Rabs_R0. exact Hd.
  - replace (x + h - x) with h by ring. eapply Rlt_le_trans; [exact Hk|apply Rmin_r].
Qed.
Lemma cos_near t0 t1 : 0 <= t0 -> t0 < t1 -> t1 < PI -> exists d, 0 < d /\ forall t, Rabs (t - t1) < d -> cos t0 - cos t = Rabs (cos t0 - cos t).
Proof.
  intros A B C. exists (Rmin (t1 - t0) (PI - t1)). split; [apply Rmin_pos; lra|]. intros t Ht. symmetry. apply Rabs_pos_eq.
  assert (Rabs (t - t1) < t1 - t0 /\ Rabs (t - t1) < PI - t1) as [D1 D2] by (split; eapply Rlt_le_trans; [exact Ht|apply Rmin_l|exact Ht|apply Rmin_r]).
  apply Rabs_def2 in D1. apply Rabs_def2 in D2. assert (cos t < cos t0) by (apply cos_decreasing_1; lra). lra.
Qed.
Lemma d_cos x : derivable_pt_lim (fun t => cos t) x (- sin x). Proof. exact (derivable_pt_lim_cos x). Qed.
Definition cube (t : R) := t * (t * t).
Lemma d_cube x : derivable_pt_lim cube x (3 * (x * x)).
Proof. apply (d_ext (fun t => t * (t * t)) _ x (1 * (x * x) + x * (2 * x))); [reflexivity|ring|]. apply (d_mul (fun t => t) (fun t => t * t)); [apply d_id|apply d_sq]. Qed.
Lemma d_cos3 x : derivable_pt_lim (fun t => cube (cos t)) x (- (3 * (cos x * cos x) * sin x)).
Proof. eapply d_ext; [reflexivity| |apply (derivable_pt_lim_comp cos cube x _ _ (derivable_pt_lim_cos x) (d_cube (cos x)))]. ring. Qed.
Lemma ks_vol_r a r0 t0 t1 dphi r : derivable_pt_lim (fun r1 => ks_CellVolume a r0 r1 t0 t1 dphi) r (ks_Face1Area a r t0 t1 dphi).
Proof.
  set (A := Rabs (cos t0 - cos t1) * dphi). set (B := SQR a * (SQR (cos t0) + cos t0 * cos t1 + SQR (cos t1))).
  apply (d_ext (fun t => (- / 3 * A * (cube r0 + B * r0) + / 3 * A * cube t) + (0 + / 3 * A * B * t)) _ _ (/ 3 * A * (3 * (r * r)) + / 3 * A * B * 1)).
  - intro t. unfold ks_CellVolume, A, B, cube, SQR. ring.
  - unfold ks_Face1Area, A, B, SQR. field.
  - apply d_plus; apply d_affine; [apply d_cube|apply d_id].
Qed.
Lemma sw_vol_r r0 t0 t1 dphi r : derivable_pt_lim (fun r1 => sw_CellVolume r0 r1 t0 t1 dphi) r (sw_Face1Area r t0 t1 dphi).
Proof.
  set (A := Rabs (cos t0 - cos t1) * dphi). apply (d_ext (fun t => - / 3 * A * cube r0 + / 3 * A * cube t) _ _ (/ 3 * A * (3 * (r * r)))).
  - intro t. unfold sw_CellVolume, A, cube. ring. - unfold sw_Face1Area, A, SQR. field. - apply d_affine. apply d_cube.
Qed.
Lemma ks_vol_th a r0 r1 t0 dphi t : 0 <= t0 -> t0 < t -> t < PI -> derivable_pt_lim (fun t1 => ks_CellVolume a r0 r1 t0 t1 dphi) t (ks_Face2Area a r0 r1 t dphi).
Proof.
  intros A B C. pose proof (cos_near t0 t A B C) as (d & Hd & E).
  set (K := / 3 * (r1 - r0) * dphi). set (Q := SQR r0 + r0 * r1 + SQR r1).
  apply (d_loc (fun t1 => (K * (Q * cos t0 + SQR a * cube (cos t0)) + - (K * Q) * cos t1) + (0 + - (K * SQR a) * cube (cos t1)))).
  - exists d. split; [exact Hd|]. intros u Hu. unfold ks_CellVolume. rewrite <- (E u Hu). unfold K, Q, cube, SQR. ring.
  - eapply d_ext; [reflexivity| |apply d_plus; apply d_affine; [apply d_cos|apply d_cos3]]. unfold ks_Face2Area. rewrite (Rabs_pos_eq (sin t)) by (apply sin_ge_0; lra). unfold K, Q, SQR. field.
Qed.
Lemma sw_vol_th r0 r1 t0 dphi t : 0 <= t0 -> t0 < t -> t < PI -> derivable_pt_lim (fun t1 => sw_CellVolume r0 r1 t0 t1 dphi) t (sw_Face2Area r0 r1 t dphi).
Proof.
  intros A B C. pose proof (cos_near t0 t A B C) as (d & Hd & E). set (K := / 3 * (r1 * r1 * r1 - r0 * r0 * r0) * dphi).
  apply (d_loc (fun t1 => K * cos t0 + - K * cos t1)).
  - exists d. split; [exact Hd|]. intros u Hu. unfold sw_CellVolume. rewrite <- (E u Hu). unfold K. ring.
  - eapply d_ext; [reflexivity| |apply d_affine; apply d_cos]. unfold sw_Face2Area. rewrite (Rabs_pos_eq (sin t)) by (apply sin_ge_0; lra). unfold K. ring.
Qed.
Lemma ks_area1_th a r t0 dphi t : 0 <= t0 -> t0 < t -> t < PI -> derivable_pt_lim (fun t1 => ks_Face1Area a r t0 t1 dphi) t ((r ^ 2 + a ^ 2 * cos t ^ 2) * Rabs (sin t) * dphi).
Proof.
  intros A B C. pose proof (cos_near t0 t A B C) as (d & Hd & E).
  apply (d_loc (fun t1 => (dphi * (SQR r * cos t0 + / 3 * SQR a * cube (cos t0)) + - (dphi * SQR r) * cos t1) + (0 + - (dphi * (/ 3 * SQR a)) * cube (cos t1)))).
  - exists d. split; [exact Hd|]. intros u Hu. unfold ks_Face1Area. rewrite <- (E u Hu). unfold cube, SQR. ring.
  - eapply d_ext; [reflexivity| |apply d_plus; apply d_affine; [apply d_cos|apply d_cos3]]. rewrite (Rabs_pos_eq (sin t)) by (apply sin_ge_0; lra). unfold SQR. field.
Qed.
Lemma sw_area1_th r t0 dphi t : 0 <= t0 -> t0 < t -> t < PI -> derivable_pt_lim (fun t1 => sw_Face1Area r t0 t1 dphi) t (r ^ 2 * Rabs (sin t) * dphi).
Proof.
  intros A B C. pose proof (cos_near t0 t A B C) as (d & Hd & E). apply (d_loc (fun t1 => dphi * SQR r * cos t0 + - (dphi * SQR r) * cos t1)).
  - exists d. split; [exact Hd|]. intros u Hu. unfold sw_Face1Area. rewrite <- (E u Hu). unfold SQR. ring.
  - eapply d_ext; [reflexivity| |apply d_affine; apply d_cos]. rewrite (Rabs_pos_eq (sin t)) by (apply sin_ge_0; lra). unfold SQR. ring.
Qed.
Lemma ks_area2_r a r0 th dphi r : derivable_pt_lim (fun r1 => ks_Face2Area a r0 r1 th dphi) r ((r ^ 2 + a ^ 2 * cos th ^ 2) * Rabs (sin th) * dphi).
Proof.
  set (K := Rabs (sin th) * dphi). apply (d_ext (fun t => (- K * (/ 3 * cube r0 + SQR a * SQR (cos th) * r0) + K * / 3 * cube t) + (0 + K * (SQR a * SQR (cos th)) * t)) _ _ (K * / 3 * (3 * (r * r)) + K * (SQR a * SQR (cos th)) * 1)).
  - intro t. unfold ks_Face2Area, K, cube, SQR. field. - unfold K, SQR. field. - apply d_plus; apply d_affine; [apply d_cube|apply d_id].
Qed.
Lemma sw_area2_r r0 th dphi r : derivable_pt_lim (fun r1 => sw_Face2Area r0 r1 th dphi) r (r ^ 2 * Rabs (sin th) * dphi).
Proof.
  set (K := Rabs (sin th) * dphi). apply (d_ext (fun t => - / 3 * K * cube r0 + / 3 * K * cube t) _ _ (/ 3 * K * (3 * (r * r)))).
  - intro t. unfold sw_Face2Area, K, cube. ring. - unfold K. field. - apply d_affine. apply d_cube.
Qed.
Lemma root_det D x : 0 <= x -> D = - x ^ 2 -> sqrt (- D) = x.
Proof. intros Hx ->. replace (- - x ^ 2) with (x * x) by ring. apply sqrt_square. exact Hx. Qed.
Lemma ks_root m a r th : 0 < r -> sqrt (- det4 (Kerr m a r th)) = (r ^ 2 + a ^ 2 * cos th ^ 2) * Rabs (sin th).
Proof. intro Hr. apply root_det; [|apply det_ks; exact Hr]. apply Rmult_le_pos; [|apply Rabs_pos]. pose proof (sigma_pos a r th Hr) as A. unfold t_sigma, SQR in A. nra. Qed.
Lemma sw_root m r th : 0 < r -> 2 * m < r -> sqrt (- det4 (Schwarzschild m r th)) = r ^ 2 * Rabs (sin th).
Proof. intros Hr Hm. apply root_det; [|apply det_sw; assumption]. apply Rmult_le_pos; [nra|apply Rabs_pos]. Qed.
