(** C64, C65: positivity of the first-order scheme, and the bounds kept by passive scalars. *)
From Coq Require Import Reals ZArith List Bool Lia Lra Psatz.
From Verif Require Import Time_Model Time_Spec Time_Proofs Fv_Model Eos_Model Rie_Model Rie_Spec Rie_Proofs Pos_Model Pos_Spec Pos_Proofs Pos_Proofs2.
Local Open Scope R_scope.

(** Positive density and internal energy everywhere before the stage, Courant number at most 1/(number of active directions): the same after it. *)
Theorem C64_positive : forall e d dx dy dz dt c W, good_eos e -> (forall k j i, good e (W k j i)) -> 0 < dx -> 0 < dy -> 0 < dz -> 0 <= dt ->
  courant e d dx dy dz dt c W -> ndim d * c <= 1 -> forall k j i, admissible e (stage e d dx dy dz dt W k j i).
Proof. exact stage_adm. Qed.
(** With the time step that the code computes for the block: its cells' widths and signal speeds are the entries of the minimum. *)
Theorem C64_code_time_step : forall e d dx dy dz dt W M cfl sts cs l, good_eos e -> (forall k j i, good e (W k j i)) -> 0 < dx -> 0 < dy -> 0 < dz -> 0 < cfl ->
  (forall r, cfl_rad l = Some r -> 0 < r <= 1) ->
  (forall x, In x cs <-> exists k j i, x = mkC dx (speed 0 e (W k j i)) dy (speed 1 e (W k j i)) dz (speed 2 e (W k j i))) ->
  0 <= dt <= new_dt (NewBlockTimeStep M cfl sts (Z.ltb 1 (nx2 d)) (Z.ltb 1 (nx3 d)) cs l) -> ndim d * cfl <= 1 ->
  forall k j i, admissible e (stage e d dx dy dz dt W k j i).
Proof.
  intros e d dx dy dz dt W M cfl sts cl l G GW DX DY DZ CF RD IN T N. apply (stage_adm e d dx dy dz dt cfl); try assumption; [lra |].
  intros k j i. pose proof (block_cfl M cfl sts (Z.ltb 1 (nx2 d)) (Z.ltb 1 (nx3 d)) cl l _ eq_refl CF RD) as B.
  assert (P : forall x, In x cl -> positive_cell x).
  { intros x Hx. apply IN in Hx. destruct Hx as (k' & j' & i' & ->). unfold positive_cell. cbn [w1 s1 w2 s2 w3 s3]. repeat apply conj; try assumption; apply speed_pos; auto. }
  specialize (B P (mkC dx (speed 0 e (W k j i)) dy (speed 1 e (W k j i)) dz (speed 2 e (W k j i))) dt). destruct B as (B1 & B2 & B3); [apply IN; exists k, j, i; reflexivity | exact T |].
  cbn [w1 s1 w2 s2 w3 s3] in *. split; [exact B1 |]. split; intro H; [apply B2 | apply B3]; apply Z.ltb_lt; exact H.
Qed.
(** In two dimensions the limit of rk1, rk2 and rk3 (time_integrator.cpp 323, 445, 580: 1.0) does not keep the density positive. *)
Theorem C64_full_courant_2d_refuted : exists e d dx dy dz dt W, good_eos e /\ (forall k j i, good e (W k j i)) /\ 0 < dx /\ 0 < dy /\ 0 < dz /\ 0 <= dt /\
  courant e d dx dy dz dt 1 W /\ ndim d = 2 /\ exists k j i, u_d (stage e d dx dy dz dt W k j i) < 0.
Proof.
  exists (Iso 1), (mkD 0 3 0 3 0 0 false false), 1, 1, 1, 1.
  exists (fun k j i => if (Z.eqb i 1 && Z.eqb j 1)%bool then mkW 1 0 0 0 0 else mkW (1/10) 0 0 0 0).
  assert (S : forall n, speed n (Iso 1) (mkW 1 0 0 0 0) = 1 /\ speed n (Iso 1) (mkW (1/10) 0 0 0 0) = 1).
  { intros [|[|n]]; unfold speed, load; cbn [w_vx w_vy w_vz cs]; rewrite Rabs_R0; lra. }
  repeat apply conj; try (cbn; lra).
  - intros k j i. destruct (Z.eqb i 1 && Z.eqb j 1)%bool; unfold good; cbn [w_d]; split; try exact I; lra.
  - intros k j i. destruct (Z.eqb i 1 && Z.eqb j 1)%bool; repeat apply conj; intros; rewrite ?(proj1 (S _)), ?(proj2 (S _)); lra.
  - unfold ndim. change (1 <? nx2 (mkD 0 3 0 3 0 0 false false))%Z with true. change (1 <? nx3 (mkD 0 3 0 3 0 0 false false))%Z with false. cbv iota. lra.
  - exists 0%Z, 1%Z, 1%Z. unfold stage. cbn [u_d]. unfold stage_of, AddFluxDivergence. change (active (mkD 0 3 0 3 0 0 false false) 0 1 1) with true. cbv iota. unfold dflx.
    change (1 <? nx2 (mkD 0 3 0 3 0 0 false false))%Z with true. change (1 <? nx3 (mkD 0 3 0 3 0 0 false false))%Z with false. cbv iota zeta. cbn [x1 x2 x3 A1 A2 A3 V cart conserved]. unfold flux1, flux2. rewrite !mass_split.
    change (0 + 1)%Z with 1%Z. change (1 + 1 - 1)%Z with 1%Z. change (1 - 1)%Z with 0%Z. change (1 + 1)%Z with 2%Z. cbn [Z.eqb Pos.eqb andb load w_vx w_vy w_d]. unfold alpha. rewrite !(proj1 (S _)), !(proj2 (S _)). rewrite Rmax_left by lra. cbn [u_d w_d Z.eqb Pos.eqb andb]. change (u_d (conserved (Iso 1) (mkW 1 0 0 0 0))) with 1. lra.
Qed.
(** HLLE in one dimension: Courant number at most 1/2, both for the cells' own signal speeds and for the outer waves of the solver at every face. *)
Theorem C64_hlle_positive : forall e is_ ie dx dt W, good_eos e -> (forall i, good e (W i)) -> 0 < dx -> 0 <= dt ->
  (forall i, dt * (Rabs (w_vx (W i)) + cs e (W i)) <= 1/2 * dx) ->
  (forall i, dt * hlle_ar e (W i) (W (i + 1)%Z) <= 1/2 * dx) -> (forall i, dt * - hlle_al e (W i) (W (i + 1)%Z) <= 1/2 * dx) ->
  forall i, admissible e (stage_hlle e is_ ie dx dt W i).
Proof. exact stage_hlle_adm. Qed.
(** Passive scalars stay between the bounds they had (concentration = scalar density / gas density). *)
Theorem C65_scalar_bounds : forall e d dx dy dz dt c W r lo hi, good_eos e -> (forall k j i, good e (W k j i)) -> 0 < dx -> 0 < dy -> 0 < dz -> 0 <= dt ->
  courant e d dx dy dz dt c W -> ndim d * c <= 1 -> (forall k j i, lo <= r k j i <= hi) ->
  forall k j i, lo <= scalar_stage e d dx dy dz dt W r k j i / u_d (stage e d dx dy dz dt W k j i) <= hi.
Proof.
  intros e d dx dy dz dt c W r lo hi G GW DX DY DZ T C N H k j i.
  pose proof (stage_adm e d dx dy dz dt c W G GW DX DY DZ T C N k j i) as [D _].
  pose proof (scalar_bounds e d dx dy dz dt c W G GW DX DY DZ T C N r lo hi k j i H) as [A B]. set (q := u_d (stage _ _ _ _ _ _ _ _ _ _)) in *. set (s := scalar_stage _ _ _ _ _ _ _ _ _ _ _) in *.
  assert (I : 0 < / q) by (apply Rinv_0_lt_compat; exact D). split.
  - apply (Rmult_le_reg_r q); [exact D |]. replace (s / q * q) with s by (field; intro X0; lra). exact A.
  - apply (Rmult_le_reg_r q); [exact D |]. replace (s / q * q) with s by (field; intro X0; lra). exact B.
Qed.
(** A uniform concentration stays uniform. *)
Theorem C65_uniform : forall e d dx dy dz dt W r0 k j i, scalar_stage e d dx dy dz dt W (fun _ _ _ => r0) k j i = r0 * u_d (stage e d dx dy dz dt W k j i).
Proof.
  intros. pose proof (scalar_affine e d dx dy dz dt W 0 r0 (fun _ _ _ => 0) k j i) as H. rewrite Rmult_0_l, Rplus_0_l in H. rewrite <- H. unfold scalar_stage, AddFluxDivergence, dflx. cbn [x1 x2 x3]. unfold sflux1, sflux2, sflux3.
  replace (0 * 0 + r0) with r0 by ring. reflexivity.
Qed.

(** The hypotheses are met by a state with jumps and motion: a checkerboard of densities 1 and 4 moving in opposite directions, 3 dimensions. *)
Definition ex_W : cells := fun k j i => if Z.even (i + j + k) then mkW 1 1 0 0 0 else mkW 4 (-1) 0 (1/2) 0.
Example ex_courant : courant (Iso 1) (mkD 0 3 0 3 0 3 false false) 1 1 1 (1/6) (1/3) ex_W /\ ndim (mkD 0 3 0 3 0 3 false false) * (1/3) <= 1 /\ (forall k j i, good (Iso 1) (ex_W k j i)).
Proof.
  repeat apply conj.
  - intros k j i. unfold ex_W, speed. destruct (Z.even (i + j + k)); cbn [load w_vx w_vy w_vz cs w_d w_p]; unfold Rabs; repeat (destruct (Rcase_abs _)); repeat apply conj; intros; lra.
  - unfold ndim. change (1 <? nx2 (mkD 0 3 0 3 0 3 false false))%Z with true. change (1 <? nx3 (mkD 0 3 0 3 0 3 false false))%Z with true. cbv iota. lra.
  - intros k j i. unfold ex_W, good. destruct (Z.even (i + j + k)); cbn [w_d]; split; try exact I; lra.
Qed.
Example ex_hlle : let W := fun i => if Z.even i then mkW 1 1 0 0 0 else mkW 4 (-1) 0 (1/2) 0 in
  forall i, (1/4) * (Rabs (w_vx (W i)) + cs (Iso 1) (W i)) <= 1/2 * 1 /\ (1/4) * hlle_ar (Iso 1) (W i) (W (i + 1)%Z) <= 1/2 * 1 /\ (1/4) * - hlle_al (Iso 1) (W i) (W (i + 1)%Z) <= 1/2 * 1.
Proof.
  intros W i. unfold W. replace (Z.even (i + 1)) with (negb (Z.even i)) by (rewrite Z.even_add; destruct (Z.even i); reflexivity).
  assert (S4 : sqrt 4 = 2) by (replace 4 with (2 * 2) by ring; apply sqrt_square; lra).
  destruct (Z.even i); cbn [negb]; unfold hlle_ar, hlle_al, roe_average, hlle_a; cbn [w_vx w_d cs]; cbv zeta; cbn [w_vx]; rewrite ?S4, ?sqrt_1; repeat apply conj;
    try (unfold Rabs; destruct (Rcase_abs _); lra); unfold Rmax, Rmin; destruct (Rle_dec _ _); lra.
Qed.
Print Assumptions C64_positive.
Print Assumptions C64_hlle_positive.
Print Assumptions C64_code_time_step.
Print Assumptions C64_full_courant_2d_refuted.
Print Assumptions C65_scalar_bounds.
Print Assumptions C65_uniform.
