(** Proofs for C83: potential energy, self-gravity without net force, orbital velocities. *)
From Coq Require Import Reals ZArith List Bool Lra Lia Psatz.
From Verif Require Import Fv_Model Fv_Spec Pos_Model Met_Model Lud_Spec Lud_Proofs Tor_Spec Tor_Proofs Dif_Proofs Res_Spec Res_Proofs Src_Model Src_Spec Src_Proofs.
Local Open Scope R_scope.

Lemma whole_active n1 n2 n3 k j i : (0 <= k < Z.of_nat n3)%Z -> (0 <= j < Z.of_nat n2)%Z -> (0 <= i < Z.of_nat n1)%Z -> active (whole n1 n2 n3) k j i = true.
Proof. intros Hk Hj Hi. unfold active. rewrite !andb_true_iff, !within_iff. cbn [is_ ie js je ks ke whole]. lia. Qed.
Lemma whole_nx2 n1 n2 n3 : nx2 (whole n1 n2 n3) = Z.of_nat n2.
Proof. unfold nx2, whole. cbn [js je]. lia. Qed.
Lemma whole_nx3 n1 n2 n3 : nx3 (whole n1 n2 n3) = Z.of_nat n3.
Proof. unfold nx3, whole. cbn [ks ke]. lia. Qed.

(** ** Potential energy *)
Definition energy_flux (F : vec) (phi : arr) : vec :=
  mkV (fun k j i => x1 F k j i * ((phi k j (i - 1)%Z + phi k j i) / 2)) (fun k j i => x2 F k j i * ((phi k (j - 1)%Z i + phi k j i) / 2)) (fun k j i => x3 F k j i * ((phi (k - 1)%Z j i + phi k j i) / 2)).
Lemma grav_potential p c d dx dy dz dt F w phi u r k j i : active d k j i = true -> nonbaro p = true -> 0 < dx -> 0 < dy -> 0 < dz ->
  dx1v c i = dx -> dx2v c j = dy -> dx3v c k = dz ->
  (c_e (SelfGravity p c d dt F w phi u k j i) + phi k j i * AddFluxDivergence d (cart dx dy dz) F dt r k j i) - (c_e (u k j i) + phi k j i * r k j i) = by_fluxes d dx dy dz dt (energy_flux F phi) k j i.
Proof.
  intros A NB Hx Hy Hz E1 E2 E3. unfold SelfGravity. cells A. unfold AddFluxDivergence. rewrite A, NB, E1, E2, E3. unfold dflx, by_fluxes, energy_flux, cart, bump. cbn [x1 x2 x3 A1 A2 A3 V c_e].
  replace (i + 1 - 1)%Z with i by lia. replace (j + 1 - 1)%Z with j by lia. replace (k + 1 - 1)%Z with k by lia.
  destruct (Z.ltb 1 (nx2 d)), (Z.ltb 1 (nx3 d)); cbn [c_e]; field; repeat split; lra.
Qed.
Lemma box_by_fluxes n1 n2 n3 dx dy dz dt G : periodic n1 n2 n3 (x1 G) -> periodic n1 n2 n3 (x2 G) -> periodic n1 n2 n3 (x3 G) ->
  box_sum n1 n2 n3 (by_fluxes (whole n1 n2 n3) dx dy dz dt G) = 0.
Proof.
  intros P1 P2 P3. set (t2 := if Z.ltb 1 (nx2 (whole n1 n2 n3)) then 1 else 0). set (t3 := if Z.ltb 1 (nx3 (whole n1 n2 n3)) then 1 else 0).
  transitivity (box_sum n1 n2 n3 (fun k j i => (- dt / dx * (x1 G k j (i + 1)%Z - x1 G k j i) + - dt / dy * t2 * (x2 G k (j + 1)%Z i - x2 G k j i)) + - dt / dz * t3 * (x3 G (k + 1)%Z j i - x3 G k j i))).
  - apply box_ext. intros. unfold by_fluxes, t2, t3. destruct (Z.ltb 1 (nx2 _)), (Z.ltb 1 (nx3 _)); unfold Rdiv; ring.
  - rewrite !box_plus, !box_scal, !box_minus, (box_i _ _ _ _ P1), (box_j _ _ _ _ P2), (box_k _ _ _ _ P3). ring.
Qed.

(** ** No net force *)
Section Torus.
Variables n1 n2 n3 : nat.
Notation box := (box_sum n1 n2 n3).
Notation per := (periodic n1 n2 n3).
Lemma box_shift a b c f : per f -> box (fun k j i => f (k + a)%Z (j + b)%Z (i + c)%Z) = box f.
Proof.
  intros P. transitivity (box (fun k j i => f k (j + b)%Z (i + c)%Z)).
  - revert a. apply (Z.peano_ind (fun a => box (fun k j i => f (k + a)%Z (j + b)%Z (i + c)%Z) = box (fun k j i => f k (j + b)%Z (i + c)%Z))).
    + apply box_ext. intros. f_equal; lia.
    + intros a IH. rewrite <- IH, <- (box_k n1 n2 n3 (fun k j i => f (k + a)%Z (j + b)%Z (i + c)%Z)) by (apply per_shift; auto). apply box_ext. intros. f_equal; lia.
    + intros a IH. rewrite <- IH, <- (box_km n1 n2 n3 (fun k j i => f (k + a)%Z (j + b)%Z (i + c)%Z)) by (apply per_shift; auto). apply box_ext. intros. f_equal; lia.
  - transitivity (box (fun k j i => f k j (i + c)%Z)).
    + assert (Q : forall b, per (fun k j i => f k (j + b)%Z (i + c)%Z)). { intros b'. apply (per_eq n1 n2 n3 (fun k j i => f (k + 0)%Z (j + b')%Z (i + c)%Z)); [intros; f_equal; lia|apply per_shift; auto]. }
      revert b. apply (Z.peano_ind (fun b => box (fun k j i => f k (j + b)%Z (i + c)%Z) = box (fun k j i => f k j (i + c)%Z))).
      * apply box_ext. intros. f_equal; lia.
      * intros b IH. rewrite <- IH, <- (box_j n1 n2 n3 (fun k j i => f k (j + b)%Z (i + c)%Z)) by apply Q. apply box_ext. intros. f_equal; lia.
      * intros b IH. rewrite <- IH, <- (box_jm n1 n2 n3 (fun k j i => f k (j + b)%Z (i + c)%Z)) by apply Q. apply box_ext. intros. f_equal; lia.
    + assert (Q : forall c, per (fun k j i => f k j (i + c)%Z)). { intros c'. apply (per_eq n1 n2 n3 (fun k j i => f (k + 0)%Z (j + 0)%Z (i + c')%Z)); [intros; f_equal; lia|apply per_shift; auto]. }
      revert c. apply (Z.peano_ind (fun c => box (fun k j i => f k j (i + c)%Z) = box f)).
      * apply box_ext. intros. f_equal; lia.
      * intros c IH. rewrite <- IH, <- (box_i n1 n2 n3 (fun k j i => f k j (i + c)%Z)) by apply Q. apply box_ext. intros. f_equal; lia.
      * intros c IH. rewrite <- IH, <- (box_im n1 n2 n3 (fun k j i => f k j (i + c)%Z)) by apply Q. apply box_ext. intros. f_equal; lia.
Qed.
(** A second difference along one direction and a central difference along another. *)
Lemma no_force a b c a' b' c' f : per f ->
  box (fun k j i => (f (k + a)%Z (j + b)%Z (i + c)%Z - 2 * f k j i + f (k - a)%Z (j - b)%Z (i - c)%Z) * (f (k + a')%Z (j + b')%Z (i + c')%Z - f (k - a')%Z (j - b')%Z (i - c')%Z)) = 0.
Proof.
  intros P. set (S := fun a b c k j i => f (k + a)%Z (j + b)%Z (i + c)%Z).
  assert (PS : forall a b c, per (S a b c)) by (intros; apply per_shift; auto).
  assert (PM : forall a b c x y z, per (fun k j i => S a b c k j i * S x y z k j i)) by (intros; apply per_mult; auto).
  assert (T : forall a b c x y z p q r, box (fun k j i => S a b c k j i * S x y z k j i) = box (fun k j i => S (a + p)%Z (b + q)%Z (c + r)%Z k j i * S (x + p)%Z (y + q)%Z (z + r)%Z k j i)).
  { intros. rewrite <- (box_shift p q r _ (PM a0 b0 c0 x y z)). apply box_ext. intros. unfold S. f_equal; f_equal; lia. }
  transitivity (box (fun k j i => ((S a b c k j i * S a' b' c' k j i - S (- a)%Z (- b)%Z (- c)%Z k j i * S (- a')%Z (- b')%Z (- c')%Z k j i) - 2 * (S 0%Z 0%Z 0%Z k j i * S a' b' c' k j i - S 0%Z 0%Z 0%Z k j i * S (- a')%Z (- b')%Z (- c')%Z k j i)
    + (S (- a)%Z (- b)%Z (- c)%Z k j i * S a' b' c' k j i - S a b c k j i * S (- a')%Z (- b')%Z (- c')%Z k j i)))).
  - apply box_ext. intros k j i. unfold S. rewrite !Z.add_0_r, !Z.add_opp_r. ring.
  - rewrite !box_plus, !box_minus, !box_scal, !box_minus.
    rewrite (T (- a)%Z (- b)%Z (- c)%Z (- a')%Z (- b')%Z (- c')%Z (a + a')%Z (b + b')%Z (c + c')%Z).
    rewrite (T 0%Z 0%Z 0%Z (- a')%Z (- b')%Z (- c')%Z a' b' c').
    rewrite (T a b c (- a')%Z (- b')%Z (- c')%Z (a' - a)%Z (b' - b)%Z (c' - c)%Z).
    rewrite (box_ext n1 n2 n3 (fun k j i => S (- a + (a + a'))%Z (- b + (b + b'))%Z (- c + (c + c'))%Z k j i * _) (fun k j i => S a b c k j i * S a' b' c' k j i)) by (intros; unfold S; rewrite Rmult_comm; f_equal; f_equal; lia).
    rewrite (box_ext n1 n2 n3 (fun k j i => S (0 + a')%Z (0 + b')%Z (0 + c')%Z k j i * _) (fun k j i => S 0%Z 0%Z 0%Z k j i * S a' b' c' k j i)) by (intros; unfold S; rewrite Rmult_comm; f_equal; f_equal; lia).
    rewrite (box_ext n1 n2 n3 (fun k j i => S (a + (a' - a))%Z (b + (b' - b))%Z (c + (c' - c))%Z k j i * _) (fun k j i => S (- a)%Z (- b)%Z (- c)%Z k j i * S a' b' c' k j i)) by (intros; unfold S; rewrite Rmult_comm; f_equal; f_equal; lia).
    ring.
Qed.
Lemma no_force_rho dx dy dz G mean rho phi a b c : per phi -> G <> 0 -> poisson (whole n1 n2 n3) dx dy dz G mean rho phi ->
  box (fun k j i => rho k j i * (phi (k + a)%Z (j + b)%Z (i + c)%Z - phi (k - a)%Z (j - b)%Z (i - c)%Z)) = 0.
Proof.
  intros P HG HP. set (t2 := if Z.ltb 1 (nx2 (whole n1 n2 n3)) then 1 else 0). set (t3 := if Z.ltb 1 (nx3 (whole n1 n2 n3)) then 1 else 0).
  assert (E : forall k j i, rho k j i = mean + / G * (/ (dx * dx) * (phi (k + 0)%Z (j + 0)%Z (i + 1)%Z - 2 * phi k j i + phi (k - 0)%Z (j - 0)%Z (i - 1)%Z)
     + t2 / (dy * dy) * (phi (k + 0)%Z (j + 1)%Z (i + 0)%Z - 2 * phi k j i + phi (k - 0)%Z (j - 1)%Z (i - 0)%Z) + t3 / (dz * dz) * (phi (k + 1)%Z (j + 0)%Z (i + 0)%Z - 2 * phi k j i + phi (k - 1)%Z (j - 0)%Z (i - 0)%Z))).
  { intros k j i. specialize (HP k j i). rewrite !Z.add_0_r, !Z.sub_0_r. apply Rmult_eq_reg_l with G; auto. rewrite Rmult_plus_distr_l, <- Rmult_assoc, Rinv_r by auto.
    transitivity (G * mean + G * (rho k j i - mean)); [ring|]. rewrite <- HP. unfold t2, t3. destruct (Z.ltb 1 (nx2 _)), (Z.ltb 1 (nx3 _)); unfold Rdiv; ring. }
  set (D := fun k j i => phi (k + a)%Z (j + b)%Z (i + c)%Z - phi (k - a)%Z (j - b)%Z (i - c)%Z).
  transitivity (box (fun k j i => mean * D k j i + (/ G / (dx * dx) * ((phi (k + 0)%Z (j + 0)%Z (i + 1)%Z - 2 * phi k j i + phi (k - 0)%Z (j - 0)%Z (i - 1)%Z) * D k j i)
     + / G * t2 / (dy * dy) * ((phi (k + 0)%Z (j + 1)%Z (i + 0)%Z - 2 * phi k j i + phi (k - 0)%Z (j - 1)%Z (i - 0)%Z) * D k j i)
     + / G * t3 / (dz * dz) * ((phi (k + 1)%Z (j + 0)%Z (i + 0)%Z - 2 * phi k j i + phi (k - 1)%Z (j - 0)%Z (i - 0)%Z) * D k j i)))).
  - apply box_ext. intros k j i. unfold D. rewrite (E k j i). unfold Rdiv. ring.
  - rewrite !box_plus, !box_scal. unfold D. rewrite (no_force 0 0 1 a b c phi P), (no_force 0 1 0 a b c phi P), (no_force 1 0 0 a b c phi P), box_minus, (box_shift a b c phi P).
    rewrite (box_ext n1 n2 n3 (fun k j i => phi (k - a)%Z (j - b)%Z (i - c)%Z) (fun k j i => phi (k + - a)%Z (j + - b)%Z (i + - c)%Z)) by (intros; f_equal; lia). rewrite (box_shift (- a) (- b) (- c) phi P). ring.
Qed.
End Torus.

(** ** Orbital velocities *)
Lemma dlim_ext f g x l : (exists e, 0 < e /\ forall y, Rabs (y - x) < e -> f y = g y) -> derivable_pt_lim f x l -> derivable_pt_lim g x l.
Proof.
  intros [e [He E]] H eps Heps. destruct (H eps Heps) as [[del Hdel] Q]. assert (Hm : 0 < Rmin del e) by (apply Rmin_pos; auto). exists (mkposreal _ Hm). intros h H0 Hh. cbn [pos] in *.
  rewrite <- !E; [apply Q; auto; eapply Rlt_le_trans; [exact Hh|apply Rmin_l]|rewrite Rminus_diag_eq by auto; rewrite Rabs_R0; auto|]. replace (x + h - x) with h by ring. eapply Rlt_le_trans; [exact Hh|apply Rmin_r].
Qed.
Lemma dlim_eq f x l l' : l = l' -> derivable_pt_lim f x l -> derivable_pt_lim f x l'.
Proof. now intros ->. Qed.
(** sqrt (gm / u) for a positive u with derivative u'. *)
Lemma d_sqrt_over gm u u' x : 0 < gm -> 0 < u x -> derivable_pt_lim u x u' -> derivable_pt_lim (fun y => sqrt (gm / u y)) x (- (1 / 2) * sqrt (gm / u x) / u x * u').
Proof.
  intros Hg Hu D. assert (P : 0 < gm / u x) by (apply Rdiv_lt_0_compat; auto).
  assert (D1 : derivable_pt_lim (fun y => gm / u y) x (- gm * u' / (u x * u x))).
  { apply (dlim_eq _ _ ((0 * u x - u' * gm) / Rsqr (u x))); [unfold Rsqr; field; lra|]. apply (derivable_pt_lim_div (fct_cte gm) u x 0 u'); [apply derivable_pt_lim_const|auto|lra]. }
  apply (dlim_eq _ _ (/ (2 * sqrt (gm / u x)) * (- gm * u' / (u x * u x)))).
  - assert (S : sqrt (gm / u x) * sqrt (gm / u x) = gm / u x) by (apply sqrt_sqrt; lra). assert (S0 : 0 < sqrt (gm / u x)) by (apply sqrt_lt_R0; auto). set (s := sqrt (gm / u x)) in *.
    assert (G : gm = s * s * u x) by (rewrite S; field; lra). rewrite G. field. lra.
  - apply (derivable_pt_lim_comp (fun y => gm / u y) sqrt x); [auto|apply derivable_pt_lim_sqrt; auto].
Qed.
Lemma d_lin c x : derivable_pt_lim (fun y => c * y) x c.
Proof. apply (dlim_eq _ _ (c * 1)); [ring|]. apply (derivable_pt_lim_scal (fun y => y) c x 1). apply derivable_pt_lim_id. Qed.
Lemma d_cyl2 gm Om x : 0 < gm -> 0 < x -> derivable_pt_lim (CylOrbitalVelocity2D gm Om) x (CylOrbitalVelocity2D_r gm Om x).
Proof.
  intros Hg Hx. unfold CylOrbitalVelocity2D_r. apply (derivable_pt_lim_minus (fun y => sqrt (gm / y)) (fun y => Om * y)); [|apply d_lin].
  apply (dlim_eq _ _ (- (1 / 2) * sqrt (gm / x) / x * 1)); [ring|]. apply (d_sqrt_over gm (fun y => y)); auto. apply derivable_pt_lim_id.
Qed.
Lemma d_sph_r gm Om x y : 0 < gm -> 0 < x -> 0 < sin y -> derivable_pt_lim (fun x => SphOrbitalVelocity gm Om x y) x (SphOrbitalVelocity_r gm Om x y).
Proof.
  intros Hg Hx Hs. unfold SphOrbitalVelocity, SphOrbitalVelocity_r. destruct (Req_EM_T (sin y) 0); [lra|].
  apply (derivable_pt_lim_minus (fun z => sqrt (gm / (z * sin y))) (fun z => Om * z * sin y)).
  - apply (dlim_eq _ _ (- (1 / 2) * sqrt (gm / (x * sin y)) / (x * sin y) * sin y)).
    + replace (sqrt (gm / (sin y * x * x * x))) with (sqrt (gm / (x * sin y)) / x); [field; lra|].
      replace (gm / (sin y * x * x * x)) with (gm / (x * sin y) / (x * x)) by (field; lra).
      assert (0 < gm / (x * sin y)) by (apply Rdiv_lt_0_compat; auto; apply Rmult_lt_0_compat; auto). rewrite (sqrt_div (gm / (x * sin y)) (x * x)) by nra. rewrite sqrt_square by lra. reflexivity.
    + apply (d_sqrt_over gm (fun z => z * sin y)); auto; [apply Rmult_lt_0_compat; auto|].
      apply (dlim_ext (fun z => sin y * z)); [exists 1; split; [lra|intros; ring]|apply d_lin].
  - apply (dlim_ext (fun z => Om * sin y * z)); [exists 1; split; [lra|intros; ring]|apply d_lin].
Qed.
Lemma d_sph_t gm Om x y : 0 < gm -> 0 < x -> 0 < y < PI -> derivable_pt_lim (fun y => SphOrbitalVelocity gm Om x y) y (SphOrbitalVelocity_t gm Om x y).
Proof.
  intros Hg Hx Hy. assert (Hs : 0 < sin y) by (apply sin_gt_0; lra). unfold SphOrbitalVelocity_t. destruct (Req_EM_T (sin y) 0); [lra|].
  apply (dlim_ext (fun z => sqrt (gm / (x * sin z)) - Om * x * sin z)).
  - exists (Rmin y (PI - y)). split; [apply Rmin_pos; lra|]. intros z Hz. unfold SphOrbitalVelocity.
    assert (Rabs (z - y) < y /\ Rabs (z - y) < PI - y) as [Q1 Q2] by (split; eapply Rlt_le_trans; [exact Hz|apply Rmin_l|exact Hz|apply Rmin_r]).
    apply Rabs_def2 in Q1. apply Rabs_def2 in Q2. assert (0 < sin z) by (apply sin_gt_0; lra). destruct (Req_EM_T (sin z) 0); [lra|reflexivity].
  - apply (derivable_pt_lim_minus (fun z => sqrt (gm / (x * sin z))) (fun z => Om * x * sin z)).
    + apply (dlim_eq _ _ (- (1 / 2) * sqrt (gm / (x * sin y)) / (x * sin y) * (x * cos y))).
      * rewrite (Rmult_comm x (sin y)). field. lra.
      * apply (d_sqrt_over gm (fun z => x * sin z)); auto; [apply Rmult_lt_0_compat; auto|]. apply (derivable_pt_lim_scal sin x y). apply derivable_pt_lim_sin.
    + apply (derivable_pt_lim_scal sin (Om * x) y). apply derivable_pt_lim_sin.
Qed.
(** The distance from the origin. *)
Lemma d_dist a b u x u' : u x = a -> derivable_pt_lim u x u' -> 0 < SQR a + SQR b -> derivable_pt_lim (fun y => sqrt (SQR (u y) + SQR b)) x (a * u' / sqrt (SQR a + SQR b)).
Proof.
  intros E D P. apply (dlim_eq _ _ (/ (2 * sqrt (SQR (u x) + SQR b)) * (u' * u x + u x * u' + 0))).
  - rewrite E. field. apply Rgt_not_eq, sqrt_lt_R0. auto.
  - apply (derivable_pt_lim_comp (fun y => SQR (u y) + SQR b) sqrt x).
    + apply (derivable_pt_lim_plus (fun y => u y * u y) (fct_cte (SQR b))); [|apply derivable_pt_lim_const]. apply (derivable_pt_lim_mult u u); auto.
    + apply derivable_pt_lim_sqrt. rewrite E. auto.
Qed.
Lemma d_cyl3_r gm Om x z : 0 < gm -> 0 < x -> derivable_pt_lim (fun x => CylOrbitalVelocity3D gm Om x z) x (CylOrbitalVelocity3D_r gm Om x z).
Proof.
  intros Hg Hx. unfold CylOrbitalVelocity3D, CylOrbitalVelocity3D_r. assert (P : 0 < SQR x + SQR z) by (unfold SQR; nra). pose proof (sqrt_lt_R0 _ P) as Pd. pose proof (sqrt_sqrt _ (Rlt_le _ _ P)) as Sd.
  assert (Dd := d_dist x z (fun y => y) x 1 eq_refl (derivable_pt_lim_id x) P). cbv beta in Dd.
  apply (derivable_pt_lim_minus (fun y => sqrt (gm / sqrt (SQR y + SQR z)) * y / sqrt (SQR y + SQR z)) (fun y => Om * y)); [|apply d_lin].
  pose proof (d_sqrt_over gm (fun y => sqrt (SQR y + SQR z)) _ x Hg Pd Dd) as Ds. cbv beta in Ds.
  pose proof (derivable_pt_lim_mult _ _ _ _ _ Ds (derivable_pt_lim_id x)) as Dm.
  assert (Nd : sqrt (SQR x + SQR z) <> 0) by lra.
  pose proof (derivable_pt_lim_div _ (fun y => sqrt (SQR y + SQR z)) _ _ _ Dm Dd Nd) as Dq.
  eapply dlim_eq; [|exact Dq]. unfold mult_fct, id, Rsqr. set (l := sqrt (SQR x + SQR z)) in *. set (s := sqrt (gm / l)). unfold SQR. field. lra.
Qed.
Lemma d_cyl3_z gm Om x z : 0 < gm -> 0 < x -> derivable_pt_lim (fun z => CylOrbitalVelocity3D gm Om x z) z (CylOrbitalVelocity3D_z gm Om x z / sqrt (SQR x + SQR z)).
Proof.
  intros Hg Hx. unfold CylOrbitalVelocity3D. assert (P : 0 < SQR x + SQR z) by (unfold SQR; nra). pose proof (sqrt_lt_R0 _ P) as Pd.
  assert (P' : 0 < SQR z + SQR x) by lra. assert (Dd := d_dist z x (fun y => y) z 1 eq_refl (derivable_pt_lim_id z) P'). cbv beta in Dd. rewrite (Rplus_comm (SQR z)) in Dd.
  assert (Dd' : derivable_pt_lim (fun y => sqrt (SQR x + SQR y)) z (z * 1 / sqrt (SQR x + SQR z))) by (apply (dlim_ext (fun y => sqrt (SQR y + SQR x))); [exists 1; split; [lra|intros; now rewrite Rplus_comm]|exact Dd]).
  apply (dlim_eq _ _ ((CylOrbitalVelocity3D_z gm Om x z / sqrt (SQR x + SQR z)) - 0)); [ring|].
  apply (derivable_pt_lim_minus (fun y => sqrt (gm / sqrt (SQR x + SQR y)) * x / sqrt (SQR x + SQR y)) (fct_cte (Om * x))); [|apply derivable_pt_lim_const].
  pose proof (d_sqrt_over gm (fun y => sqrt (SQR x + SQR y)) _ z Hg Pd Dd') as Ds. cbv beta in Ds.
  pose proof (derivable_pt_lim_mult _ (fct_cte x) _ _ _ Ds (derivable_pt_lim_const x z)) as Dm.
  assert (Nd : sqrt (SQR x + SQR z) <> 0) by lra.
  pose proof (derivable_pt_lim_div _ (fun y => sqrt (SQR x + SQR y)) _ _ _ Dm Dd' Nd) as Dq.
  eapply dlim_eq; [|exact Dq]. unfold CylOrbitalVelocity3D_z, mult_fct, fct_cte, Rsqr. set (l := sqrt (SQR x + SQR z)) in *. set (s := sqrt (gm / l)). unfold SQR. field. lra.
Qed.
