(** Faces, edges, blocks, refinement, centroids. *)
From Coq Require Import Reals ZArith List Bool Lra Lia.
From Verif Require Import Fv_Model Fv_Spec Fv_Proofs2 Ref_Model Ref_Spec Met_Model Met_Spec Met_Proofs.
Import ListNotations.
Local Open Scope R_scope.

Lemma face1_int : forall s g k j i, aligned g -> proper s g k j i -> forall i', (i' = i \/ i' = i + 1)%Z ->
  integral2 (fun b c => h2 s (x1f g i') b c * h3 s (x1f g i') b c) (x2f g j) (x2f g (j + 1)%Z) (x3f g k) (x3f g (k + 1)%Z) (GetFace1Area s g k j i').
Proof.
  intros s g k j i A P i' _. replace (GetFace1Area s g k j i') with (vj s g j * a1i s g i' * dx3f g k) by (rewrite (area1_sep s g k j i'); ring).
  apply (integral2_prod _ (fun b => uj s b * a1i s g i') (fun _ => 1)).
  - intros b c _ _; unfold h2, h3, uj, a1i, coord_area1_i; destruct s; ring.
  - apply integral_scale. eapply int_vj; eassumption.
  - eapply int_vk; eassumption.
Qed.
Lemma face2_int : forall s g k j i, aligned g -> proper s g k j i -> forall j', (j' = j \/ j' = j + 1)%Z ->
  integral2 (fun a c => h1 s a (x2f g j') c * h3 s a (x2f g j') c) (x1f g i) (x1f g (i + 1)%Z) (x3f g k) (x3f g (k + 1)%Z) (GetFace2Area s g k j' i).
Proof.
  intros s g k j i A P j' Hj. replace (GetFace2Area s g k j' i) with (a2i s g i * a2j s g j' * dx3f g k) by (rewrite (area2_sep s g k j' i); ring).
  apply (integral2_prod _ (fun a => (match s with spherical_polar => a | _ => 1 end) * a2j s g j') (fun _ => 1)).
  - intros a c _ _; unfold h1, h3, a2j. destruct s; try ring. rewrite area2_j_val; [ring|].
    destruct P as (_ & P2 & _ & _ & Pa); cbn [angle_ok] in Pa. destruct Hj as [->| ->]; lra.
  - apply integral_scale. eapply int_a2i; eassumption.
  - eapply int_vk; eassumption.
Qed.
Lemma face3_int : forall s g k j i, aligned g -> proper s g k j i -> forall k',
  integral2 (fun a b => h1 s a b (x3f g k') * h2 s a b (x3f g k')) (x1f g i) (x1f g (i + 1)%Z) (x2f g j) (x2f g (j + 1)%Z) (GetFace3Area s g k' j i).
Proof.
  intros s g k j i A P k'. replace (GetFace3Area s g k' j i) with (a3i s g i * dx2f g j) by (rewrite (area3_sep s g k' j i); ring).
  apply (integral2_prod _ (fun a => match s with cartesian => 1 | _ => a end) (fun _ => 1)).
  - intros a b _ _; unfold h1, h2; destruct s; ring.
  - eapply int_a3i; eassumption.
  - eapply int_dj; eassumption.
Qed.
Lemma edge1_int : forall s g k j i, aligned g -> proper s g k j i -> forall k' j',
  integral (fun a => h1 s a (x2f g j') (x3f g k')) (x1f g i) (x1f g (i + 1)%Z) (GetEdge1Length s g k' j' i).
Proof. intros; unfold h1, GetEdge1Length. eapply int_di; eassumption. Qed.
Lemma edge2_int : forall s g k j i, aligned g -> proper s g k j i -> forall k' i',
  integral (fun b => h2 s (x1f g i') b (x3f g k')) (x2f g j) (x2f g (j + 1)%Z) (GetEdge2Length s g k' j i').
Proof.
  intros s g k j i A P k' i'. pose proof (int_dj s g k j i A P) as Q. unfold h2, GetEdge2Length; destruct s; [exact Q| |];
    (eapply integral_ext; [| |apply integral_scale with (c := x1f g i'); exact Q]; [intros; cbv beta; ring|ring]).
Qed.
Lemma edge3_int : forall s g k j i, aligned g -> proper s g k j i -> forall j' i', (j' = j \/ j' = j + 1)%Z ->
  integral (fun c => h3 s (x1f g i') (x2f g j') c) (x3f g k) (x3f g (k + 1)%Z) (GetEdge3Length s g k j' i').
Proof.
  intros s g k j i A P j' i' Hj. pose proof (int_vk s g k j i A P) as Q. unfold h3, GetEdge3Length; destruct s; [exact Q|exact Q|].
  eapply integral_ext; [| |apply integral_scale with (c := x1f g i' * sin (x2f g j')); exact Q]; [intros; cbv beta; ring|].
  rewrite area2_j_val; [ring|]. destruct P as (_ & P2 & _ & _ & Pa); cbn [angle_ok] in Pa. destruct Hj as [->| ->]; lra.
Qed.

(** ** Centroids *)
Lemma x1v_vol : forall s g k j i, aligned g -> proper s g k j i -> integral (fun a => a * ui s a) (x1f g i) (x1f g (i + 1)%Z) (x1v s g i * vi s g i).
Proof.
  intros s g k j i A P. pose proof (P1 s g k j i P) as H. pose proof (D1 g i A) as Hd. pose proof (vi_pos s g k j i A P) as Hv. unfold ui, x1v, vi, coord_vol_i, coord_area3_i, coord_area2_i in *.
  set (a := x1f g i) in *; set (b := x1f g (i + 1)%Z) in *. assert (Hab : a <= b) by lra. destruct s.
  - eapply integral_ext; [| |apply (int_x a b Hab)]; [intros; cbv beta; ring|]. rewrite Hd; field.
  - eapply integral_ext; [| |apply (int_xx a b Hab)]; [intros; cbv beta; ring|]. field. intro X0; lra.
  - eapply integral_ext; [| |apply (int_xxx a b Hab)]; [intros; cbv beta; ring|]. field. intro X0; lra.
Qed.
Lemma x2v_vol : forall s g k j i n, aligned g -> proper s g k j i -> (s = spherical_polar -> n <> 1%Z) -> integral (fun b => b * uj s b) (x2f g j) (x2f g (j + 1)%Z) (x2v s g n j * vj s g j).
Proof.
  intros s g k j i n A P Hn. pose proof (P2 s g k j i P) as H. pose proof (D2 g j A) as Hd. pose proof (vj_pos s g k j i A P) as Hv. unfold uj, x2v, vj, coord_vol_j in *.
  set (a := x2f g j) in *; set (b := x2f g (j + 1)%Z) in *. assert (Hab : a <= b) by lra. destruct s.
  - eapply integral_ext; [| |apply (int_x a b Hab)]; [intros; cbv beta; ring|]. rewrite Hd; field.
  - eapply integral_ext; [| |apply (int_x a b Hab)]; [intros; cbv beta; ring|]. rewrite Hd; field.
  - destruct (Z.eqb_spec n 1) as [E|E]; [exfalso; exact (Hn eq_refl E)|]. destruct P as (_ & _ & _ & _ & Pa); cbn [angle_ok] in Pa.
    pose proof (proj1 (area1_j_val g j H (proj1 Pa) (proj2 Pa))) as Q. fold a b in Q. rewrite Q in Hv. rewrite Q.
    eapply integral_ext; [| |apply (int_xsin a b Hab)]; [intros; cbv beta; ring|]. field. intro X0; lra.
Qed.
Lemma x3v_vol : forall s g k j i, aligned g -> proper s g k j i -> integral (fun c => c * 1) (x3f g k) (x3f g (k + 1)%Z) (x3v s g k * dx3f g k).
Proof.
  intros s g k j i A P. pose proof (P3 s g k j i P) as H. pose proof (D3 g k A) as Hd. unfold x3v. set (a := x3f g k) in *; set (b := x3f g (k + 1)%Z) in *. assert (Hab : a <= b) by lra.
  eapply integral_ext; [| |apply (int_x a b Hab)]; [intros; cbv beta; ring|]. rewrite Hd; field.
Qed.
Lemma centre_int : forall s g k j i n, aligned g -> proper s g k j i -> (s = spherical_polar -> n <> 1%Z) ->
  let box f v := integral3 f (x1f g i) (x1f g (i + 1)%Z) (x2f g j) (x2f g (j + 1)%Z) (x3f g k) (x3f g (k + 1)%Z) v in
  box (fun a b c => a * volume_element s a b c) (x1v s g i * GetCellVolume s g k j i) /\
  box (fun a b c => b * volume_element s a b c) (x2v s g n j * GetCellVolume s g k j i) /\
  box (fun a b c => c * volume_element s a b c) (x3v s g k * GetCellVolume s g k j i).
Proof.
  intros s g k j i n A P Hn box. unfold box. split; [|split].
  - replace (x1v s g i * GetCellVolume s g k j i) with ((x1v s g i * vi s g i) * vj s g j * dx3f g k) by (rewrite (volume_sep s g k j i); ring).
    apply (integral3_prod _ (fun a => a * ui s a) (uj s) (fun _ => 1)); [|eapply x1v_vol; eassumption|eapply int_vj; eassumption|eapply int_vk; eassumption].
    intros x y z _ _ _; unfold volume_element, h1, h2, h3, ui, uj; destruct s; ring.
  - replace (x2v s g n j * GetCellVolume s g k j i) with (vi s g i * (x2v s g n j * vj s g j) * dx3f g k) by (rewrite (volume_sep s g k j i); ring).
    apply (integral3_prod _ (ui s) (fun b => b * uj s b) (fun _ => 1)); [|eapply int_vi; eassumption|eapply x2v_vol; eassumption|eapply int_vk; eassumption].
    intros x y z _ _ _; unfold volume_element, h1, h2, h3, ui, uj; destruct s; ring.
  - replace (x3v s g k * GetCellVolume s g k j i) with (vi s g i * vj s g j * (x3v s g k * dx3f g k)) by (rewrite (volume_sep s g k j i); ring).
    apply (integral3_prod _ (ui s) (uj s) (fun c => c * 1)); [|eapply int_vi; eassumption|eapply int_vj; eassumption|eapply x3v_vol; eassumption].
    intros x y z _ _ _; unfold volume_element, h1, h2, h3, ui, uj; destruct s; ring.
Qed.

Lemma x1v_in : forall s g k j i, aligned g -> proper s g k j i -> x1f g i < x1v s g i < x1f g (i + 1)%Z.
Proof.
  intros s g k j i A P. pose proof (P1 s g k j i P) as H. destruct P as (_ & _ & _ & Hr & _). unfold x1v. set (a := x1f g i) in *; set (b := x1f g (i + 1)%Z) in *. clearbody a b.
  destruct s; cbn [radius_ok] in Hr; [lra| |].
  - assert (Q : 0 < b ^ 2 - a ^ 2) by (cbn [pow]; nra). set (q := b ^ 2 - a ^ 2) in *.
    assert (E : forall t u, t < u * q -> t / q < u) by (intros t u X0; apply (Rmult_lt_reg_r q); [exact Q|]; unfold Rdiv; rewrite Rmult_assoc, Rinv_l by lra; lra).
    assert (E' : forall t u, u * q < t -> u < t / q) by (intros t u X0; apply (Rmult_lt_reg_r q); [exact Q|]; unfold Rdiv; rewrite Rmult_assoc, Rinv_l by lra; lra).
    unfold q in *. split; [apply E'|apply E].
    + assert (2 / 3 * (b ^ 3 - a ^ 3) - a * (b ^ 2 - a ^ 2) = (b - a) * (b - a) * (2 * b + a) / 3) by (cbn [pow]; field). assert (0 < (b - a) * (b - a) * (2 * b + a)) by (repeat apply Rmult_lt_0_compat; lra). lra.
    + assert (b * (b ^ 2 - a ^ 2) - 2 / 3 * (b ^ 3 - a ^ 3) = (b - a) * (b - a) * (b + 2 * a) / 3) by (cbn [pow]; field). assert (0 < (b - a) * (b - a) * (b + 2 * a)) by (repeat apply Rmult_lt_0_compat; lra). lra.
  - assert (Q : 0 < b ^ 3 - a ^ 3) by (pose proof (cb_lt a b Hr H); cbn [pow]; lra). set (q := b ^ 3 - a ^ 3) in *.
    assert (E : forall t u, t < u * q -> t / q < u) by (intros t u X0; apply (Rmult_lt_reg_r q); [exact Q|]; unfold Rdiv; rewrite Rmult_assoc, Rinv_l by lra; lra).
    assert (E' : forall t u, u * q < t -> u < t / q) by (intros t u X0; apply (Rmult_lt_reg_r q); [exact Q|]; unfold Rdiv; rewrite Rmult_assoc, Rinv_l by lra; lra).
    unfold q in *. split; [apply E'|apply E].
    + assert (3 / 4 * (b ^ 4 - a ^ 4) - a * (b ^ 3 - a ^ 3) = (b - a) * (b - a) * (3 * (b * b) + 2 * (a * b) + a * a) / 4) by (cbn [pow]; field).
      assert (0 < (b - a) * (b - a) * (3 * (b * b) + 2 * (a * b) + a * a)) by (repeat apply Rmult_lt_0_compat; nra). lra.
    + assert (b * (b ^ 3 - a ^ 3) - 3 / 4 * (b ^ 4 - a ^ 4) = (b - a) * (b - a) * (b * b + 2 * (a * b) + 3 * (a * a)) / 4) by (cbn [pow]; field).
      assert (0 < (b - a) * (b - a) * (b * b + 2 * (a * b) + 3 * (a * a))) by (repeat apply Rmult_lt_0_compat; nra). lra.
Qed.
Lemma x2v_in : forall s g k j i n, aligned g -> proper s g k j i -> x2f g j < x2v s g n j < x2f g (j + 1)%Z.
Proof.
  intros s g k j i n A P. pose proof (P2 s g k j i P) as H. destruct P as (_ & _ & _ & _ & Hr). unfold x2v. set (a := x2f g j) in *; set (b := x2f g (j + 1)%Z) in *. clearbody a b.
  destruct s; [lra|lra|]. cbn [angle_ok] in Hr. destruct (Z.eqb n 1); [lra|].
  assert (Q : 0 < cos a - cos b) by (pose proof (cos_lt a b ltac:(lra) H ltac:(lra)); lra).
  assert (E : forall t u, t < u * (cos a - cos b) -> t / (cos a - cos b) < u) by (intros t u X0; apply (Rmult_lt_reg_r (cos a - cos b)); [exact Q|]; unfold Rdiv; rewrite Rmult_assoc, Rinv_l by lra; lra).
  assert (E' : forall t u, u * (cos a - cos b) < t -> u < t / (cos a - cos b)) by (intros t u X0; apply (Rmult_lt_reg_r (cos a - cos b)); [exact Q|]; unfold Rdiv; rewrite Rmult_assoc, Rinv_l by lra; lra).
  assert (M : forall u, exists c, a < c < b /\ (sin b - b * cos b + u * cos b) - (sin a - a * cos a + u * cos a) = ((c - u) * sin c) * (b - a)).
  { intro u. destruct (MVT_cor2 (fun x => (sin x - x * cos x) + u * cos x) (fun c => (c - u) * sin c) a b H) as (c & Hc & Hc').
    - intros c _. replace ((c - u) * sin c) with (c * sin c + u * (- sin c)) by ring. apply (derivable_pt_lim_plus (fun x => sin x - x * cos x) (fun x => u * cos x)); [apply d_xsin|].
      apply (derivable_pt_lim_scal cos u). apply derivable_pt_lim_cos.
    - exists c; split; [exact Hc'|exact Hc]. }
  split; [apply E'|apply E].
  - destruct (M a) as (c & Hc & Q1). assert (0 < sin c) by (apply sin_gt_0; lra). assert (0 < (c - a) * sin c * (b - a)) by (repeat apply Rmult_lt_0_compat; lra). lra.
  - destruct (M b) as (c & Hc & Q1). assert (0 < sin c) by (apply sin_gt_0; lra). assert (0 < (b - c) * sin c * (b - a)) by (repeat apply Rmult_lt_0_compat; lra). nra.
Qed.
