(** C80: diffusion of passive scalars and heat. *)
From Coq Require Import Reals ZArith List Bool Lra Lia Psatz.
From Verif Require Import Fv_Model Fv_Spec Pos_Model Dif_Model Dif_Spec Dif_Proofs.
Import ListNotations.
Local Open Scope R_scope.

Lemma stage_ext d g F G dt u k j i : (forall k j i, x1 F k j i = x1 G k j i) -> (forall k j i, x2 F k j i = x2 G k j i) -> (forall k j i, x3 F k j i = x3 G k j i) ->
  AddFluxDivergence d g F dt u k j i = AddFluxDivergence d g G dt u k j i.
Proof. intros H1 H2 H3. unfold AddFluxDivergence, dflx. rewrite !H1, !H2, !H3. reflexivity. Qed.
Lemma stage_old d g F dt u v k j i : (forall k j i, u k j i = v k j i) -> AddFluxDivergence d g F dt u k j i = AddFluxDivergence d g F dt v k j i.
Proof. intros H. unfold AddFluxDivergence. rewrite !H. reflexivity. Qed.
Lemma scalar_spread d dx dy dz nu r w : let F := DiffusiveFluxIso d (flat_metric dx dy dz) nu r w no_flux in let G := spread d dx dy dz (fun _ _ _ => nu) w r in
  (forall k j i, x1 F k j i = x1 G k j i) /\ (forall k j i, x2 F k j i = x2 G k j i) /\ (forall k j i, x3 F k j i = x3 G k j i).
Proof.
  cbv zeta. unfold DiffusiveFluxIso, spread, flat_metric, no_flux; cbn [x1 x2 x3 dx1v dx2v dx3v h2v h31v h32v]. repeat split; intros; destruct (_ && _); auto; replace (/ 2 * (nu + nu)) with nu by field; unfold Rdiv; rewrite ?Rinv_1; ring.
Qed.
Lemma heat_spread d dx dy dz ka den prs : let F := ThermalFluxIso d (flat_metric dx dy dz) ka den prs no_flux in let G := spread d dx dy dz ka den (fun k j i => prs k j i / den k j i) in
  (forall k j i, x1 F k j i = x1 G k j i) /\ (forall k j i, x2 F k j i = x2 G k j i) /\ (forall k j i, x3 F k j i = x3 G k j i).
Proof.
  cbv zeta. unfold ThermalFluxIso, spread, flat_metric, no_flux; cbn [x1 x2 x3 dx1v dx2v dx3v h2v h31v h32v]. repeat split; intros; destruct (_ && _); auto; unfold Rdiv; rewrite ?Rinv_1; ring.
Qed.

Lemma step_ok d ng rmax dx dy dz c dt X : (0 <= ng)%Z -> 0 <= X -> 0 <= dt -> (forall k j i, 0 <= c k j i) ->
  dt <= NewDiffusionDt d ng rmax (uniform dx) (uniform dy) (uniform dz) c * X -> forall k j i, is_active d k j i ->
  dt * c k j i <= len d (uniform dx) (uniform dy) (uniform dz) 0 0 0 * len d (uniform dx) (uniform dy) (uniform dz) 0 0 0 * fac d * X.
Proof.
  intros Hn HX Hd Hc S k j i [Hk [Hj Hi]]. pose proof (NewDiffusionDt_le d ng rmax (uniform dx) (uniform dy) (uniform dz) c k j i Hk Hj ltac:(lia)) as B.
  set (l := len d _ _ _ 0 0 0) in *. change (len d (uniform dx) (uniform dy) (uniform dz) k j i) with l in B. set (N := NewDiffusionDt _ _ _ _ _ _ _) in *. set (A := l * l * fac d) in *.
  pose proof tiny_pos as T. specialize (Hc k j i). set (y := c k j i) in *. clearbody N A y l.
  assert (D : dt <= A / (y + TINY_NUMBER) * X) by (eapply Rle_trans; [apply S|]; apply Rmult_le_compat_r; auto).
  assert (E : dt * (y + TINY_NUMBER) <= A * X). { replace (A * X) with (A / (y + TINY_NUMBER) * X * (y + TINY_NUMBER)) by (field; lra). apply Rmult_le_compat_r; lra. }
  nra.
Qed.

(** Fluxes point from larger to smaller values, in every geometry. *)
Theorem C80_downhill_scalar : forall d m nu r w k j i, 0 <= nu -> (forall k j i, 0 < w k j i) ->
  (forall n, 0 < dx1v m n /\ 0 < dx2v m n /\ 0 < dx3v m n /\ 0 < h2v m n /\ 0 < h31v m n /\ 0 < h32v m n) ->
  let F := DiffusiveFluxIso d m nu r w no_flux in
  downhill (r k j (i - 1)%Z) (r k j i) (x1 F k j i) /\ downhill (r k (j - 1)%Z i) (r k j i) (x2 F k j i) /\ downhill (r (k - 1)%Z j i) (r k j i) (x3 F k j i).
Proof.
  intros d m nu r w k j i Hn Hw Hm. cbv zeta. unfold DiffusiveFluxIso, downhill; cbn [x1 x2 x3 no_flux].
  assert (A : forall c f v, 0 <= c -> 0 < f -> (0 - c * (v / f)) * v <= 0). { intros c f v P F. replace ((0 - c * (v / f)) * v) with (- (c * (v * v) * / f)) by (field; lra). pose proof (Rinv_0_lt_compat f F). assert (0 <= c * (v * v) * / f) by (apply Rmult_le_pos; [apply Rmult_le_pos; [lra|clear; nra]|lra]). lra. }
  assert (B : forall a b, 0 < a -> 0 < b -> 0 <= nu * (/ 2 * (a + b))) by (intros; repeat apply Rmult_le_pos; lra).
  repeat split.
  - destruct (_ && _); [|lra]. apply A; [apply B; auto|apply Hm].
  - intros E. destruct (_ && _); auto. rewrite E. unfold Rdiv. ring.
  - destruct (_ && _); [|lra]. replace ((r k j i - r k (j - 1)%Z i) / h2v m i / dx2v m (j - 1)%Z) with ((r k j i - r k (j - 1)%Z i) / (h2v m i * dx2v m (j - 1)%Z)) by (field; split; apply Rgt_not_eq; apply Hm). apply A; [apply B; auto|apply Rmult_lt_0_compat; apply Hm].
  - intros E. destruct (_ && _); auto. rewrite E. unfold Rdiv. ring.
  - destruct (_ && _); [|lra]. replace ((r k j i - r (k - 1)%Z j i) / dx3v m (k - 1)%Z / h31v m i / h32v m j) with ((r k j i - r (k - 1)%Z j i) / (dx3v m (k - 1)%Z * h31v m i * h32v m j)) by (field; repeat split; apply Rgt_not_eq; apply Hm). apply A; [apply B; auto|repeat apply Rmult_lt_0_compat; apply Hm].
  - intros E. destruct (_ && _); auto. rewrite E. unfold Rdiv. ring.
Qed.
Print Assumptions C80_downhill_scalar.
Theorem C80_downhill_heat : forall d m ka den prs k j i, (forall k j i, 0 <= ka k j i) -> (forall k j i, 0 < den k j i) ->
  (forall n, 0 < dx1v m n /\ 0 < dx2v m n /\ 0 < dx3v m n /\ 0 < h2v m n /\ 0 < h31v m n /\ 0 < h32v m n) ->
  let F := ThermalFluxIso d m ka den prs no_flux in let T k j i := prs k j i / den k j i in
  downhill (T k j (i - 1)%Z) (T k j i) (x1 F k j i) /\ downhill (T k (j - 1)%Z i) (T k j i) (x2 F k j i) /\ downhill (T (k - 1)%Z j i) (T k j i) (x3 F k j i).
Proof.
  intros d m ka den prs k j i Hn Hw Hm. cbv zeta. unfold ThermalFluxIso, downhill; cbn [x1 x2 x3 no_flux].
  assert (A : forall c f v, 0 <= c -> 0 < f -> (0 - c * (v / f)) * v <= 0). { intros c f v P F. replace ((0 - c * (v / f)) * v) with (- (c * (v * v) * / f)) by (field; lra). pose proof (Rinv_0_lt_compat f F). assert (0 <= c * (v * v) * / f) by (apply Rmult_le_pos; [apply Rmult_le_pos; [lra|clear; nra]|lra]). lra. }
  assert (B : forall a b c e, 0 <= c -> 0 <= e -> 0 < a -> 0 < b -> 0 <= (/ 2 * (c + e)) * (/ 2 * (a + b))) by (intros; repeat apply Rmult_le_pos; lra).
  repeat split.
  - destruct (_ && _); [|lra]. apply A; [apply B; auto|apply Hm].
  - intros E. destruct (_ && _); auto. rewrite E. unfold Rdiv. ring.
  - destruct (_ && _); [|lra]. set (v := prs k j i / den k j i - prs k (j - 1)%Z i / den k (j - 1)%Z i). replace (v / h2v m i / dx2v m (j - 1)%Z) with (v / (h2v m i * dx2v m (j - 1)%Z)) by (field; split; apply Rgt_not_eq; apply Hm). apply A; [apply B; auto|apply Rmult_lt_0_compat; apply Hm].
  - intros E. destruct (_ && _); auto. rewrite E. unfold Rdiv. ring.
  - destruct (_ && _); [|lra]. set (v := prs k j i / den k j i - prs (k - 1)%Z j i / den (k - 1)%Z j i). replace (v / dx3v m (k - 1)%Z / h31v m i / h32v m j) with (v / (dx3v m (k - 1)%Z * h31v m i * h32v m j)) by (field; repeat split; apply Rgt_not_eq; apply Hm). apply A; [apply B; auto|repeat apply Rmult_lt_0_compat; apply Hm].
  - intros E. destruct (_ && _); auto. rewrite E. unfold Rdiv. ring.
Qed.
Print Assumptions C80_downhill_heat.

(** No new extrema of the concentration, in one, two and three dimensions, if the step is the limit of the code reduced for the contrast of the density. *)
Theorem C80_scalar : forall d dx dy dz ng real_max nu dt r w lo hi m M, nonempty d -> 0 < dx -> 0 < dy -> 0 < dz -> (0 <= ng)%Z -> 0 <= nu -> 0 <= dt ->
  0 < m -> bounded_by m M w -> bounded_by lo hi r ->
  dt <= NewDiffusionDt d ng real_max (uniform dx) (uniform dy) (uniform dz) (uniform nu) * (2 * m / (m + M)) ->
  stays_between d lo hi (fun k j i => scalar_stage d dx dy dz nu dt r w k j i / w k j i).
Proof.
  intros d dx dy dz ng rmax nu dt r w lo hi m M NE Px Py Pz Hn Hnu Hdt Hm Hw Hr S k j i Ha. unfold scalar_stage.
  destruct (scalar_spread d dx dy dz nu r w) as [H1 [H2 H3]]. rewrite (stage_ext _ _ _ _ _ _ _ _ _ H1 H2 H3).
  assert (HmM : m <= M) by (destruct (Hw 0%Z 0%Z 0%Z); lra).
  pose proof (spread_bounds d dx dy dz 1 dt lo hi m M (fun _ _ _ => nu) w r Px Py Pz ltac:(lra) Hdt Hm Hw Hr (fun _ _ _ => Hnu)) as B.
  assert (St : dt * nu <= len d (uniform dx) (uniform dy) (uniform dz) 0 0 0 * len d (uniform dx) (uniform dy) (uniform dz) 0 0 0 * fac d * (2 * m / (m + M))).
  { refine (step_ok d ng rmax dx dy dz (uniform nu) dt (2 * m / (m + M)) Hn _ Hdt (fun _ _ _ => Hnu) S k j i Ha). apply Rmult_le_pos; [lra|]. apply Rlt_le, Rinv_0_lt_compat. lra. }
  specialize (B (fun _ _ _ => St) k j i NE Ha). rewrite Rmult_1_r in B. rewrite (stage_old _ _ _ _ _ (fun k j i => r k j i * w k j i / 1)); [exact B|]. intros. field.
Qed.
Print Assumptions C80_scalar.
(** With a uniform density the limit of the code itself. *)
Theorem C80_scalar_uniform : forall d dx dy dz ng real_max nu dt r rho lo hi, nonempty d -> 0 < dx -> 0 < dy -> 0 < dz -> (0 <= ng)%Z -> 0 <= nu -> 0 <= dt -> 0 < rho -> bounded_by lo hi r ->
  dt <= NewDiffusionDt d ng real_max (uniform dx) (uniform dy) (uniform dz) (uniform nu) ->
  stays_between d lo hi (fun k j i => scalar_stage d dx dy dz nu dt r (uniform rho) k j i / rho).
Proof.
  intros d dx dy dz ng rmax nu dt r rho lo hi NE Px Py Pz Hn Hnu Hdt Hrho Hr S. apply (C80_scalar d dx dy dz ng rmax nu dt r (uniform rho) lo hi rho rho); auto; [intros k j i; unfold uniform; lra|].
  replace (2 * rho / (rho + rho)) with 1 by (field; lra). lra.
Qed.
Print Assumptions C80_scalar_uniform.
(** Heat: no new extrema of the temperature, with any array of conductivities that is not larger in the ghost cells than inside, and gamma up to two. *)
Theorem C80_heat : forall d dx dy dz ng real_max gamma dt kappa den prs lo hi m M, nonempty d -> 0 < dx -> 0 < dy -> 0 < dz -> (0 <= ng)%Z -> 1 < gamma <= 2 -> 0 <= dt ->
  (forall k j i, 0 <= kappa k j i) -> (forall k j i, exists k' j' i', is_active d k' j' i' /\ kappa k j i <= kappa k' j' i') ->
  0 < m -> bounded_by m M den -> bounded_by lo hi (fun k j i => prs k j i / den k j i) ->
  dt <= NewDiffusionDt d ng real_max (uniform dx) (uniform dy) (uniform dz) kappa * (2 * m / (m + M)) ->
  stays_between d lo hi (fun k j i => energy_stage d dx dy dz gamma dt kappa den prs k j i * (gamma - 1) / den k j i).
Proof.
  intros d dx dy dz ng rmax ga dt ka den prs lo hi m M NE Px Py Pz Hn Hg Hdt Hk Hg2 Hm Hw Hr S k j i Ha. unfold energy_stage.
  destruct (heat_spread d dx dy dz ka den prs) as [H1 [H2 H3]]. rewrite (stage_ext _ _ _ _ _ _ _ _ _ H1 H2 H3).
  assert (HmM : m <= M) by (destruct (Hw 0%Z 0%Z 0%Z); lra).
  pose proof (spread_bounds d dx dy dz (ga - 1) dt lo hi m M ka den (fun k j i => prs k j i / den k j i) Px Py Pz ltac:(lra) Hdt Hm Hw Hr Hk) as B.
  assert (St : forall k j i, dt * ka k j i <= len d (uniform dx) (uniform dy) (uniform dz) 0 0 0 * len d (uniform dx) (uniform dy) (uniform dz) 0 0 0 * fac d * (2 * m / (m + M))).
  { intros k1 j1 i1. destruct (Hg2 k1 j1 i1) as [k' [j' [i' [A' L']]]]. eapply Rle_trans; [apply Rmult_le_compat_l; [exact Hdt|exact L']|].
    refine (step_ok d ng rmax dx dy dz ka dt (2 * m / (m + M)) Hn _ Hdt Hk S k' j' i' A'). apply Rmult_le_pos; [lra|]. apply Rlt_le, Rinv_0_lt_compat. lra. }
  specialize (B St k j i NE Ha). rewrite (stage_old _ _ _ _ _ (fun k j i => prs k j i / den k j i * den k j i / (ga - 1))); [exact B|]. intros a b c. destruct (Hw a b c). field. lra.
Qed.
Print Assumptions C80_heat.

(** *** Findings *)
Lemma fold_ge {A} (g : R -> A -> R) l v : (forall x a, v <= x -> v <= g x a) -> forall x0, v <= x0 -> v <= fold_left g l x0.
Proof. intros H. induction l as [|a l IH]; intros; simpl; auto. Qed.
Lemma NewDiffusionDt_const d ng rmax l1 l2 l3 c v : nonempty d -> (0 <= ng)%Z -> v <= rmax -> (forall k j i, len d l1 l2 l3 k j i * len d l1 l2 l3 k j i * fac d / (c k j i + TINY_NUMBER) = v) -> NewDiffusionDt d ng rmax l1 l2 l3 c = v.
Proof.
  intros [[N1 [N2 N3]] _] Hn Hr E. apply Rle_antisym.
  - rewrite <- (E (ks d) (js d) (is_ d)). apply NewDiffusionDt_le; lia.
  - unfold NewDiffusionDt. do 3 (apply fold_ge; [|assumption || auto]; intros). apply Rmin_glb; auto. rewrite E. lra.
Qed.
Definition one_cell : dims := mkD 0 0 0 0 0 0 false false.
Lemma one_cell_ok : nonempty one_cell.
Proof. repeat split; cbn; lia. Qed.
Lemma one_cell_stage F dt u : AddFluxDivergence one_cell (cart 1 1 1) F dt u 0%Z 0%Z 0%Z = u 0%Z 0%Z 0%Z - dt * (x1 F 0%Z 0%Z 1%Z - x1 F 0%Z 0%Z 0%Z).
Proof. unfold AddFluxDivergence, dflx, cart. cbn -[Rmult Rplus Rdiv Rminus]. field. Qed.

(** However small the Courant number, with a large contrast of the density the limit of the code lets the concentration overshoot. *)
Theorem C80_contrast_refuted : forall cfl ng real_max, 0 < cfl -> (0 <= ng)%Z -> 1 <= real_max -> exists nu r w, 0 < nu /\ (forall k j i, 0 < w k j i) /\ bounded_by 0 1 r /\
  let dt := cfl * NewDiffusionDt one_cell ng real_max (uniform 1) (uniform 1) (uniform 1) (uniform nu) in 1 < scalar_stage one_cell 1 1 1 nu dt r w 0%Z 0%Z 0%Z / w 0%Z 0%Z 0%Z.
Proof.
  intros cfl ng rmax Hc Hn Hr. pose proof tiny_pos as T. assert (Ti : TINY_NUMBER <= 1). { unfold TINY_NUMBER. rewrite <- Rinv_1. apply Rinv_le_contravar; [lra|]. apply pow_R1_Rle. lra. }
  set (N := 2 * (1 + TINY_NUMBER) / cfl). assert (PN : 0 < N) by (unfold N; apply Rmult_lt_0_compat; [lra|apply Rinv_0_lt_compat; auto]).
  exists 1, (fun _ _ i => if Z.eqb i 0 then 0 else 1), (fun _ _ i => if Z.eqb i 0 then 1 else N).
  split; [lra|]. split; [intros; destruct (Z.eqb _ _); lra|]. split; [intros k j i; destruct (Z.eqb _ _); lra|]. cbv zeta.
  assert (PI : 0 < / (1 + TINY_NUMBER)) by (apply Rinv_0_lt_compat; lra).
  rewrite (NewDiffusionDt_const one_cell ng rmax _ _ _ _ (/ 2 / (1 + TINY_NUMBER)) one_cell_ok Hn).
  2:{ apply Rle_trans with 1; auto. apply Rmult_le_reg_r with (1 + TINY_NUMBER); [lra|]. replace (/ 2 / (1 + TINY_NUMBER) * (1 + TINY_NUMBER)) with (/ 2) by (field; lra). lra. }
  2:{ intros. unfold len, fac, one_cell, f2, f3, nx2, nx3, uniform. cbn -[Rmult Rdiv Rplus TINY_NUMBER]. field. lra. }
  unfold scalar_stage. rewrite one_cell_stage. unfold DiffusiveFluxIso, no_flux, flat_metric. cbn -[Rmult Rdiv Rplus TINY_NUMBER Rminus Rinv].
  match goal with |- 1 < ?x => replace x with (cfl * (1 + N) / (2 * (1 + TINY_NUMBER))) by (field; lra) end.
  replace (cfl * (1 + N) / (2 * (1 + TINY_NUMBER))) with (1 + cfl / (2 * (1 + TINY_NUMBER))) by (unfold N; field; lra).
  assert (0 < cfl / (2 * (1 + TINY_NUMBER))) by (apply Rmult_lt_0_compat; [auto|apply Rinv_0_lt_compat; lra]). lra.
Qed.
Print Assumptions C80_contrast_refuted.
(** The limit for heat does not know gamma: above two the full step (Courant number one) overshoots even with a uniform density. *)
Theorem C80_gamma_refuted : forall gamma ng, 2 < gamma -> (0 <= ng)%Z -> exists kappa prs real_max, 0 < kappa /\ bounded_by (/ 2) 1 prs /\
  let dt := NewDiffusionDt one_cell ng real_max (uniform 1) (uniform 1) (uniform 1) (uniform kappa) in
  1 < energy_stage one_cell 1 1 1 gamma dt (uniform kappa) (uniform 1) prs 0%Z 0%Z 0%Z * (gamma - 1).
Proof.
  intros ga ng Hg Hn. pose proof tiny_pos as T. set (K := 2 * TINY_NUMBER / (ga - 2)). assert (PK : 0 < K) by (unfold K; apply Rmult_lt_0_compat; [lra|apply Rinv_0_lt_compat; lra]).
  exists K, (fun _ _ i => if Z.eqb i 0 then / 2 else 1), (/ 2 / (K + TINY_NUMBER)). split; [auto|]. split; [intros k j i; destruct (Z.eqb _ _); lra|]. cbv zeta.
  rewrite (NewDiffusionDt_const one_cell ng _ _ _ _ _ (/ 2 / (K + TINY_NUMBER)) one_cell_ok Hn); [|lra|].
  2:{ intros. unfold len, fac, one_cell, f2, f3, nx2, nx3, uniform. cbn -[Rmult Rdiv Rplus TINY_NUMBER]. field. lra. }
  unfold energy_stage. rewrite one_cell_stage. unfold ThermalFluxIso, no_flux, flat_metric, uniform. cbn -[Rmult Rdiv Rplus TINY_NUMBER Rminus Rinv].
  match goal with |- 1 < ?x => replace x with (/ 2 + / 2 * ((ga - 1) * K / (K + TINY_NUMBER))) by (field; lra) end.
  assert (1 < (ga - 1) * K / (K + TINY_NUMBER)); [|lra]. apply Rmult_lt_reg_r with (K + TINY_NUMBER); [lra|]. replace ((ga - 1) * K / (K + TINY_NUMBER) * (K + TINY_NUMBER)) with ((ga - 1) * K) by (field; lra).
  assert ((ga - 2) * K = 2 * TINY_NUMBER) by (unfold K; field; lra). nra.
Qed.
Print Assumptions C80_gamma_refuted.
(** The hypotheses can be met: a block of three dimensions with a density that varies, and a positive step. *)
Example C80_witness : let d := mkD 2 5 2 5 2 5 false false in nonempty d /\ bounded_by 1 3 (fun _ _ i => if Z.even i then 1 else 3) /\ bounded_by 0 1 (fun k _ _ => if Z.even k then 0 else 1) /\
  0 < NewDiffusionDt d 2 1 (uniform 1) (uniform 1) (uniform 1) (uniform 1) * (2 * 1 / (1 + 3)).
Proof.
  cbv zeta. split; [repeat split; cbn; lia|]. split; [intros k j i; destruct (Z.even i); lra|]. split; [intros k j i; destruct (Z.even k); lra|]. pose proof tiny_pos.
  assert (Ti : TINY_NUMBER <= 1). { unfold TINY_NUMBER. rewrite <- Rinv_1. apply Rinv_le_contravar; [lra|]. apply pow_R1_Rle. lra. }
  rewrite (NewDiffusionDt_const _ _ _ _ _ _ _ (1 / 6 / (1 + TINY_NUMBER))); [apply Rmult_lt_0_compat; [apply Rmult_lt_0_compat; [lra|apply Rinv_0_lt_compat; lra]|lra] | repeat split; cbn; lia | lia | |].
  - apply Rmult_le_reg_r with (1 + TINY_NUMBER); [lra|]. replace (1 / 6 / (1 + TINY_NUMBER) * (1 + TINY_NUMBER)) with (1 / 6) by (field; lra). lra.
  - intros. unfold len, fac, f2, f3, nx2, nx3, uniform. cbn -[Rmult Rdiv Rplus TINY_NUMBER Rmin]. rewrite !Rmin_left by (rewrite ?Rmin_left; lra). field. lra.
Qed.
