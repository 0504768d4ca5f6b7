(** C85: spacetimes. *)
From Coq Require Import Reals ZArith Lra Lia.
From Verif Require Import Gr_Model Gr_Spec Gr_Proofs Gr_Proofs2 Gr_Proofs3 Gr_Proofs4 Gr_Proofs5.
Local Open Scope R_scope.

(** The arrays handed out at cell centres and faces are the metric of the spacetime at that place, and its inverse. *)
Theorem C85_schwarzschild_metric : forall m G j i,
  (0 < x1v G i -> 2 * m < x1v G i -> sin (x2v G j) <> 0 -> same_metric (fst (sw_Cell m G j i)) (Schwarzschild m (x1v G i) (x2v G j)) /\ inverse_metrics (fst (sw_Cell m G j i)) (snd (sw_Cell m G j i))) /\
  (0 < x1f G i -> 2 * m < x1f G i -> sin (x2v G j) <> 0 -> same_metric (fst (sw_Face1 m G j i)) (Schwarzschild m (x1f G i) (x2v G j)) /\ inverse_metrics (fst (sw_Face1 m G j i)) (snd (sw_Face1 m G j i))) /\
  (0 < x1v G i -> 2 * m < x1v G i -> sin (x2f G j) <> 0 -> same_metric (fst (sw_Face2 m G j i)) (Schwarzschild m (x1v G i) (x2f G j)) /\ inverse_metrics (fst (sw_Face2 m G j i)) (snd (sw_Face2 m G j i))) /\
  (0 < x1v G i -> 2 * m < x1v G i -> sin (x2v G j) <> 0 -> same_metric (fst (sw_Face3 m G j i)) (Schwarzschild m (x1v G i) (x2v G j)) /\ inverse_metrics (fst (sw_Face3 m G j i)) (snd (sw_Face3 m G j i))).
Proof.
  intros m G j i. repeat split; intros; try (apply sw_same; assumption); (apply sw_inv; [apply sq_nz, Rgt_not_eq, alpha_pos; assumption|apply Rgt_not_eq; assumption|apply sq_nz; assumption]).
Qed.
Print Assumptions C85_schwarzschild_metric.
Theorem C85_kerr_metric : forall m a G j i,
  (0 < x1v G i -> sin (x2v G j) <> 0 -> same_metric (fst (ks_Cell m a G j i)) (Kerr m a (x1v G i) (x2v G j)) /\ inverse_metrics (fst (ks_Cell m a G j i)) (snd (ks_Cell m a G j i))) /\
  (0 < x1f G i -> sin (x2v G j) <> 0 -> same_metric (fst (ks_Face1 m a G j i)) (Kerr m a (x1f G i) (x2v G j)) /\ inverse_metrics (fst (ks_Face1 m a G j i)) (snd (ks_Face1 m a G j i))) /\
  ((jll G <= j < juu G)%Z -> 0 < x1v G i -> sin (x2f G j) <> 0 -> same_metric (fst (ks_Face2 m a G j i)) (Kerr m a (x1v G i) (x2f G j)) /\ inverse_metrics (fst (ks_Face2 m a G j i)) (snd (ks_Face2 m a G j i))) /\
  (0 < x1v G i -> sin (x2v G j) <> 0 -> same_metric (fst (ks_Face3 m a G j i)) (Kerr m a (x1v G i) (x2v G j)) /\ inverse_metrics (fst (ks_Face3 m a G j i)) (snd (ks_Face3 m a G j i))).
Proof.
  assert (A : forall m a r th, 0 < r -> sin th <> 0 -> same_metric (ks_metric m a r (SQR (sin th)) (SQR (cos th))) (Kerr m a r th) /\ inverse_metrics (ks_metric m a r (SQR (sin th)) (SQR (cos th))) (ks_inverse m a r (SQR (sin th)) (SQR (cos th)))).
  { intros m a r th Hr Hs. split; [apply ks_same; exact Hr|apply ks_inv; [apply sc|apply Rgt_not_eq; exact (sigma_pos a r th Hr)|apply sq_nz; exact Hs]]. }
  intros m a G j i. split; [|split; [|split]]; intros; try (apply A; assumption).
  unfold ks_Face2, metric_face2_j1, metric_face2_j2. destruct (Z.eqb_spec j (juu G)) as [|_]; [lia|]. destruct (Z.leb_spec (jll G) j); [|lia]. destruct (Z.ltb_spec j (juu G)); [|lia]. apply A; assumption.
Qed.
Print Assumptions C85_kerr_metric.
Theorem C85_minkowski_metric : same_metric mk_metric eta /\ inverse_metrics mk_metric mk_inverse.
Proof. split; [fc; unfold mk_metric, ten, eta; cbn [Nat.eqb]; reflexivity|exact mk_inv]. Qed.
Print Assumptions C85_minkowski_metric.
(** FINDING F78.  At the last polar face that has its own entry, the metric handed out is that of the face after it. *)
Theorem C85_kerr_outer_face_refuted : forall m a G i, 0 < x1v G i -> cos (x2f G (juu G)) ^ 2 <> cos (x2f G (juu G + 1)) ^ 2 -> a <> 0 -> ~ same_metric (fst (ks_Face2 m a G (juu G) i)) (Kerr m a (x1v G i) (x2f G (juu G))).
Proof.
  intros m a G i Hr Hc Ha H. specialize (H 2%nat 2%nat ltac:(lia) ltac:(lia)). unfold ks_Face2, ks_metric, ten, metric_face2_j2, Kerr, ks_flat, ks_form in H. cbn [fst] in H. cbv zeta in H. rewrite Z.eqb_refl in H. unfold SQR in H.
  apply Hc. assert (a * a <> 0) by (apply sq_nz; exact Ha). apply Rmult_eq_reg_l with (a * a); [|assumption]. lra.
Qed.
Print Assumptions C85_kerr_outer_face_refuted.

(** Indices are moved with the metric of the cell. *)
Theorem C85_indices : forall m a G j i v,
  lowered mk_metric v (mk_Lower v) /\ lowered mk_inverse v (mk_Raise v) /\
  lowered (fst (sw_Cell m G j i)) v (sw_Lower m G j i v) /\ lowered (snd (sw_Cell m G j i)) v (sw_Raise m G j i v) /\
  lowered (fst (ks_Cell m a G j i)) v (ks_Lower m a G j i v) /\ lowered (snd (ks_Cell m a G j i)) v (ks_Raise m a G j i v).
Proof. intros. repeat split; [apply mk_lower|apply mk_raise|apply sw_lower|apply sw_raise|apply ks_lower|apply ks_raise]. Qed.
Print Assumptions C85_indices.

(** At every face there is one orthonormal frame, at rest in the time slice and adapted to the face, into which states are transformed and out of which fluxes are transformed: the Riemann solver sees special relativity, and its fluxes are returned as tensors. *)
Theorem C85_kerr_frames : forall m a G j i, 0 <= m ->
  (0 < x1f G i -> sin (x2v G j) <> 0 -> face_right 1 (fst (ks_Face1 m a G j i)) (snd (ks_Face1 m a G j i)) (ks_PrimToLocal1 true m a G j i) (ks_FluxToGlobal1 m a G j i)) /\
  ((jll G <= j < juu G)%Z -> 0 < x1v G i -> sin (x2f G j) <> 0 -> face_right 2 (fst (ks_Face2 m a G j i)) (snd (ks_Face2 m a G j i)) (ks_PrimToLocal2 true m a G j i) (ks_FluxToGlobal2 m a G j i)) /\
  (0 < x1v G i -> sin (x2v G j) <> 0 -> face_right 3 (fst (ks_Face3 m a G j i)) (snd (ks_Face3 m a G j i)) (ks_PrimToLocal3 true m a G j i) (ks_FluxToGlobal3 m a G j i)).
Proof. intros m a G j i Hm. split; [|split]; intros; [apply ks_face1_right|apply ks_face2_right|apply ks_face3_right]; assumption. Qed.
Print Assumptions C85_kerr_frames.
Theorem C85_schwarzschild_frames : forall m G j i, sin (x2v G j) <> 0 ->
  (0 < x1f G i -> 2 * m < x1f G i -> face_right 1 (fst (sw_Face1 m G j i)) (snd (sw_Face1 m G j i)) (sw_PrimToLocal1 true m G j i) (sw_FluxToGlobal1 m G j i)) /\
  (0 < x1v G i -> 2 * m < x1v G i -> face_right 3 (fst (sw_Face3 m G j i)) (snd (sw_Face3 m G j i)) (sw_PrimToLocal3 true m G j i) (sw_FluxToGlobal3 m G j i)).
Proof. intros m G j i Hs. split; intros; [apply sw_face1|apply sw_face3]; assumption. Qed.
Print Assumptions C85_schwarzschild_frames.
(** FINDING F77.  At polar faces of the Schwarzschild spacetime there is no such frame, at any radius but one. *)
Theorem C85_schwarzschild_theta_refuted : forall mhd m G j i, 0 < x1v G i -> 2 * m < x1v G i -> x1v G i <> 1 ->
  ~ face_right 2 (fst (sw_Face2 m G j i)) (snd (sw_Face2 m G j i)) (sw_PrimToLocal2 mhd m G j i) (sw_FluxToGlobal2 m G j i).
Proof. intros. apply sw_theta_wrong; assumption. Qed.
Print Assumptions C85_schwarzschild_theta_refuted.
(** All else is right: there would be one if the normal components of velocity and field were larger by the square of the radius. *)
Theorem C85_schwarzschild_theta_scaled : forall m G j i, 0 < x1v G i -> 2 * m < x1v G i -> sin (x2f G j) <> 0 ->
  face_right 2 (fst (sw_Face2 m G j i)) (snd (sw_Face2 m G j i)) (rescaled (x1v G i ^ 2) (sw_PrimToLocal2 true m G j i)) (sw_FluxToGlobal2 m G j i).
Proof. intros. apply sw_face2_scaled; assumption. Qed.
Print Assumptions C85_schwarzschild_theta_scaled.
(** Without a magnetic field the velocities are transformed in the same way, and nothing is done to the slots of the field. *)
Definition same_velocity (f : bool -> R -> prim -> prim * R) : Prop := forall bn p, ivx (fst (f false bn p)) = ivx (fst (f true bn p)) /\ ivy (fst (f false bn p)) = ivy (fst (f true bn p)) /\ ivz (fst (f false bn p)) = ivz (fst (f true bn p)).
Theorem C85_hydro : forall m a G j i,
  same_velocity (fun mhd => ks_PrimToLocal1 mhd m a G j i) /\ same_velocity (fun mhd => ks_PrimToLocal2 mhd m a G j i) /\ same_velocity (fun mhd => ks_PrimToLocal3 mhd m a G j i) /\
  same_velocity (fun mhd => sw_PrimToLocal1 mhd m G j i) /\ same_velocity (fun mhd => sw_PrimToLocal2 mhd m G j i) /\ same_velocity (fun mhd => sw_PrimToLocal3 mhd m G j i).
Proof.
  intros. repeat split; unfold ks_PrimToLocal1, ks_PrimToLocal2, ks_PrimToLocal3, sw_PrimToLocal1, sw_PrimToLocal2, sw_PrimToLocal3, ks_global, sw_global; cbv zeta; reflexivity.
Qed.
Print Assumptions C85_hydro.

(** Source terms: half the derivative of the metric contracted with the stress-energy tensor of the gas. *)
Theorem C85_schwarzschild_sources : forall ga m G j i, 0 < x1v G i -> 2 * m < x1v G i -> sin (x2v G j) <> 0 -> let g := fst (sw_Cell m G j i) in let gi := snd (sw_Cell m G j i) in
  exists dr dth, derivative_r (Schwarzschild m) (x1v G i) (x2v G j) dr /\ derivative_th (Schwarzschild m) (x1v G i) (x2v G j) dth /\
  forall q b, let u := velocity g gi (projected (q_1 q) (q_2 q) (q_3 q)) in is_fluid_field g u (projected (q_b1 q) (q_b2 q) (q_b3 q)) b ->
    sw_source ga m G j i q = (geometric dr (stress ga gi g (q_rho q) (q_p q) u b), geometric dth (stress ga gi g (q_rho q) (q_p q) u b)).
Proof.
  intros ga m G j i Hr Hm Hs g gi. exists (dSw_r m (x1v G i) (x2v G j)), (dSw_th m (x1v G i) (x2v G j)). split; [apply sw_r; assumption|]. split; [apply sw_th|]. intros q b u Hb. apply (sw_source_right ga m G j i q b Hr Hm Hs Hb).
Qed.
Print Assumptions C85_schwarzschild_sources.
Theorem C85_kerr_sources : forall ga m a G j i, 0 <= m -> 0 < x1v G i -> sin (x2v G j) <> 0 -> let g := fst (ks_Cell m a G j i) in let gi := snd (ks_Cell m a G j i) in
  exists dr dth, derivative_r (Kerr m a) (x1v G i) (x2v G j) dr /\ derivative_th (Kerr m a) (x1v G i) (x2v G j) dth /\
  forall q b, let u := velocity g gi (projected (q_1 q) (q_2 q) (q_3 q)) in is_fluid_field g u (projected (q_b1 q) (q_b2 q) (q_b3 q)) b ->
    ks_source ga m a G j i q = (geometric dr (stress ga gi g (q_rho q) (q_p q) u b), geometric dth (stress ga gi g (q_rho q) (q_p q) u b)).
Proof.
  intros ga m a G j i Hm Hr Hs g gi. exists (dKerr_r m a (x1v G i) (x2v G j)), (dKerr_th m a (x1v G i) (x2v G j)). split; [apply kerr_r; assumption|]. split; [apply kerr_th; assumption|]. intros q b u Hb. apply (ks_source_right ga m a G j i q b Hm Hr Hs Hb).
Qed.
Print Assumptions C85_kerr_sources.

(** Volumes and areas are integrals of the root of minus the determinant of the metric over the cell or its face (per unit of dphi in direction 3). *)
Definition integrates (root : R -> R -> R) (vol : R -> R -> R -> R -> R -> R) (area1 : R -> R -> R -> R -> R) (area2 : R -> R -> R -> R -> R) (area3 : R -> R -> R -> R -> R) (inside : R -> Prop) : Prop :=
  (forall r0 t0 t1 dphi r, inside r -> derivable_pt_lim (fun r1 => vol r0 r1 t0 t1 dphi) r (area1 r t0 t1 dphi)) /\ (forall r t0 t1 dphi, vol r r t0 t1 dphi = 0) /\
  (forall r0 r1 t0 dphi t, 0 <= t0 -> t0 < t -> t < PI -> derivable_pt_lim (fun t1 => vol r0 r1 t0 t1 dphi) t (area2 r0 r1 t dphi)) /\ (forall r0 r1 t dphi, vol r0 r1 t t dphi = 0) /\
  (forall r0 r1 t0 t1 dphi, vol r0 r1 t0 t1 dphi = area3 r0 r1 t0 t1 * dphi) /\
  (forall r t0 dphi t, inside r -> 0 <= t0 -> t0 < t -> t < PI -> derivable_pt_lim (fun t1 => area1 r t0 t1 dphi) t (root r t * dphi)) /\ (forall r t dphi, area1 r t t dphi = 0) /\
  (forall r0 th dphi r, inside r -> derivable_pt_lim (fun r1 => area2 r0 r1 th dphi) r (root r th * dphi)) /\ (forall r th dphi, area2 r r th dphi = 0).
Theorem C85_kerr_volume : forall m a, integrates (fun r th => sqrt (- det4 (Kerr m a r th))) (ks_CellVolume a) (ks_Face1Area a) (ks_Face2Area a) (ks_Face3Area a) (fun r => 0 < r).
Proof.
  intros m a. repeat split; intros.
  - apply ks_vol_r. - unfold ks_CellVolume. ring. - apply ks_vol_th; assumption. - unfold ks_CellVolume. replace (cos t - cos t) with 0 by ring. rewrite Rabs_R0. ring. - unfold ks_CellVolume, ks_Face3Area. ring.
  - rewrite ks_root by assumption. apply ks_area1_th; assumption. - unfold ks_Face1Area. replace (cos t - cos t) with 0 by ring. rewrite Rabs_R0. ring. - rewrite ks_root by assumption. apply ks_area2_r. - unfold ks_Face2Area. ring.
Qed.
Print Assumptions C85_kerr_volume.
Theorem C85_schwarzschild_volume : forall m, integrates (fun r th => sqrt (- det4 (Schwarzschild m r th))) sw_CellVolume sw_Face1Area sw_Face2Area sw_Face3Area (fun r => 0 < r /\ 2 * m < r).
Proof.
  intros m. refine (conj _ (conj _ (conj _ (conj _ (conj _ (conj _ (conj _ (conj _ _)))))))); intros.
  - apply sw_vol_r. - unfold sw_CellVolume. ring. - apply sw_vol_th; assumption. - unfold sw_CellVolume. replace (cos t - cos t) with 0 by ring. rewrite Rabs_R0. ring. - unfold sw_CellVolume, sw_Face3Area. ring.
  - rewrite sw_root by tauto. apply sw_area1_th; assumption. - unfold sw_Face1Area. replace (cos t - cos t) with 0 by ring. rewrite Rabs_R0. ring. - rewrite sw_root by tauto. apply sw_area2_r. - unfold sw_Face2Area. ring.
Qed.
Print Assumptions C85_schwarzschild_volume.

(** ** The hypotheses hold for a block outside a spinning hole *)
Definition grid1 : ggrid := mkGG (fun i => 2 + IZR i) (fun i => 2 + IZR i + / 2) (fun j => IZR j * PI / 16) (fun j => (IZR j + / 2) * PI / 16) 0 8.
Example grid1_ok : 0 < x1f grid1 1 /\ 2 * 1 < x1f grid1 1 /\ 0 < x1v grid1 1 /\ 2 * 1 < x1v grid1 1 /\ x1v grid1 1 <> 1 /\ (jll grid1 <= 8 - 1 < juu grid1)%Z /\ sin (x2v grid1 3) <> 0 /\ sin (x2f grid1 7) <> 0.
Proof.
  pose proof PI_RGT_0. cbn [grid1 x1f x1v x2f x2v jll juu]. repeat split; try lra; try lia; apply Rgt_not_eq; apply sin_gt_0; lra.
Qed.
(** Two different faces have different polar angles, and the hypotheses on the outer face are met by them. *)
Example outer_ok : cos (x2f grid1 (juu grid1)) ^ 2 <> cos (x2f grid1 (juu grid1 + 1)) ^ 2.
Proof.
  cbn [grid1 x2f juu]. change (8 + 1)%Z with 9%Z. replace (8 * PI / 16) with (PI / 2) by lra. rewrite cos_PI2. pose proof PI_RGT_0. assert (cos (9 * PI / 16) < 0) by (apply cos_lt_0; lra). nra.
Qed.
(** A field of the fluid exists for any velocity and any components. *)
Example field_exists : is_fluid_field mk_metric (fun n => match n with 0%nat => 5 / 4 | 1%nat => 3 / 4 | _ => 0 end) (projected 4 5 0) (fun n => match n with 0%nat => 3 | 1%nat => 5 | 2%nat => 4 | _ => 0 end).
Proof. split; [unfold sum4, mk_metric, ten; lra|]. f3; unfold projected; lra. Qed.
