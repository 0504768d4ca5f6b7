(** C97: the relativistic HLLC flux in a mirror. *)
From Coq Require Import Reals Lra Bool.
From Verif Require Import Time_Model Time_Proofs Sr_Model Sr_Spec Sr_Proofs2 Sr_Proofs4 Srr_Model Srr_Spec Srr_Proofs Srr_Props Shc_Model Shc_Proofs Shc_Props.
Local Open Scope R_scope.

Lemma cons_hll_mirror g wl wr : lambda_l g wl wr < lambda_r g wl wr -> cons_hll g (mirror wr) (mirror wl) = umirror (cons_hll g wl wr).
Proof. intro O. unfold cons_hll. cbv zeta. rewrite lambda_l_mirror, lambda_r_mirror, !cons_mirror, !flux_mirror. apply cons_ext; cbn [each mirror_flux umirror DD EE MM1 MM2 MM3]; field; lra. Qed.
Lemma flux_hll_mirror g wl wr : lambda_l g wl wr < lambda_r g wl wr -> flux_hll g (mirror wr) (mirror wl) = mirror_flux (flux_hll g wl wr).
Proof. intro O. unfold flux_hll. cbv zeta. rewrite lambda_l_mirror, lambda_r_mirror, !cons_mirror, !flux_mirror. apply cons_ext; cbn [each mirror_flux umirror DD EE MM1 MM2 MM3]; field; lra. Qed.
Lemma lambda_star_mirror T g wl wr : lambda_l g wl wr < lambda_r g wl wr -> lambda_star T g (mirror wr) (mirror wl) = - lambda_star T g wl wr.
Proof.
  intro O. unfold lambda_star. cbv zeta. rewrite (cons_hll_mirror g wl wr O), (flux_hll_mirror g wl wr O). cbn [umirror mirror_flux EE MM1]. rewrite Rabs_Ropp. set (u := cons_hll g wl wr). set (f := flux_hll g wl wr).
  replace (4 * - EE f * - MM1 u) with (4 * EE f * MM1 u) by ring. destruct (ltR T (Rabs (EE f))); unfold Rdiv; ring.
Qed.
Lemma pgas_star_mirror T g wl wr : lambda_l g wl wr < lambda_r g wl wr -> pgas_star T g (mirror wr) (mirror wl) = pgas_star T g wl wr.
Proof. intro O. unfold pgas_star. rewrite (lambda_star_mirror T g wl wr O), (flux_hll_mirror g wl wr O). cbn [mirror_flux EE MM1]. ring. Qed.
Lemma flux_star_mirror g s x ps w : s - x <> 0 -> flux_star g (- s) (- x) ps (mirror w) = mirror_flux (flux_star g s x ps w).
Proof.
  intro N. unfold flux_star, cons_star. cbv zeta. rewrite cons_mirror, flux_mirror. assert (L : lorentz (mirror w) = lorentz w) by (unfold lorentz, mirror; cbn [u1 u2 u3]; f_equal; ring). rewrite L. change (pgas (mirror w)) with (pgas w). change (u1 (mirror w)) with (- u1 w).
  assert (V : - u1 w / lorentz w = - (u1 w / lorentz w)) by (unfold Rdiv; ring). rewrite V. set (v := u1 w / lorentz w). clearbody v. assert (I : 1 / (- s - - x) = - (1 / (s - x))) by (field; split; lra). rewrite I. set (i := 1 / (s - x)). clearbody i. apply cons_ext; cbn [each mirror_flux umirror DD EE MM1 MM2 MM3]; ring.
Qed.
(** Mirroring the states mirrors the flux. *)
Theorem C97_mirror : forall T g wl wr, 0 <= T -> 1 < g <= 2 -> gas_ok wl -> gas_ok wr -> regular T g wl wr -> HLLC_SR T g (mirror wr) (mirror wl) = mirror_flux (HLLC_SR T g wl wr).
Proof.
  intros T g wl wr T0 G Gl Gr Reg. destruct (lambda_order g wl wr G Gl Gr) as (_ & O & _). pose proof (star_between T g wl wr T0 G Gl Gr Reg) as XB. pose proof (star_carried T g wl wr T0 G Gl Gr Reg) as SC. pose proof (SC _ _ (or_introl (conj eq_refl eq_refl))) as CL. pose proof (SC _ _ (or_intror (conj eq_refl eq_refl))) as CR. clear SC.
  unfold HLLC_SR. cbv zeta. rewrite lambda_l_mirror, lambda_r_mirror, !flux_mirror, (lambda_star_mirror T g wl wr O), (pgas_star_mirror T g wl wr O). rewrite !flux_star_mirror by lra.
  set (ll := lambda_l g wl wr) in *. set (lr := lambda_r g wl wr) in *. set (y := lambda_star T g wl wr) in *. set (ps := pgas_star T g wl wr) in *. clearbody ll lr y ps.
  destruct (leR 0 ll) eqn:K1; [apply leR_true in K1 | apply leR_false in K1].
  { replace (leR 0 (- lr)) with false by (symmetry; apply leR_false; lra). replace (leR (- ll) 0) with true by (symmetry; apply leR_true; lra). reflexivity. }
  replace (leR (- ll) 0) with false by (symmetry; apply leR_false; lra).
  destruct (leR lr 0) eqn:K2; [apply leR_true in K2 | apply leR_false in K2].
  { replace (leR 0 (- lr)) with true by (symmetry; apply leR_true; lra). reflexivity. }
  replace (leR 0 (- lr)) with false by (symmetry; apply leR_false; lra).
  destruct (leR 0 y) eqn:K3; [apply leR_true in K3 | apply leR_false in K3].
  - destruct (leR 0 (- y)) eqn:K4; [apply leR_true in K4 | reflexivity]. assert (Y : y = 0) by lra. subst y. f_equal.
    assert (Z : forall s w, s <> 0 -> flux_star g s 0 ps w = carried (cons_star g s 0 ps w) 0 ps -> MM1 (cons_star g s 0 ps w) = 0).
    { intros s w N H. apply (f_equal EE) in H. cbn [carried EE] in H. rewrite <- H. destruct (energy_momentum g w) as (V1 & V2 & V3). assert (V : u1 w / lorentz w = velocity w) by (unfold velocity; rewrite lorentz_lfac; reflexivity).
      unfold flux_star, each, cons_star. cbv zeta. cbn [EE]. rewrite V, V2, V1. field. exact N. }
    rewrite CL, CR. unfold carried. rewrite (Z ll wl ltac:(lra) CL), (Z lr wr ltac:(lra) CR). apply cons_ext; cbn [DD EE MM1 MM2 MM3]; ring.
  - replace (leR 0 (- y)) with true by (symmetry; apply leR_true; lra). reflexivity.
Qed.
Print Assumptions C97_mirror.
(** The collision of ex_fan is its own mirror image: no rest mass and no energy cross the face. *)
Example ex_mirror : DD (HLLC_SR (/ 10 ^ 20) 2 fast (mirror fast)) = 0 /\ EE (HLLC_SR (/ 10 ^ 20) 2 fast (mirror fast)) = 0.
Proof.
  assert (G : gas_ok fast) by (unfold gas_ok, fast; cbn; lra). assert (M2 : mirror (mirror fast) = fast) by (unfold mirror, fast; cbn; f_equal; ring). assert (T0 : 0 <= / 10 ^ 20) by (apply Rlt_le, Rinv_0_lt_compat, pow_lt; lra).
  pose proof (C97_mirror (/ 10 ^ 20) 2 fast (mirror fast) T0 ltac:(lra) G G (proj1 ex_fan)) as E. rewrite M2 in E. set (f := HLLC_SR (/ 10 ^ 20) 2 fast (mirror fast)) in *. clearbody f. pose proof (f_equal DD E) as E1. pose proof (f_equal EE E) as E2. cbn [mirror_flux DD EE] in E1, E2. lra.
Qed.
