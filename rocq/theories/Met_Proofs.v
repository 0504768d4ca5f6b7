(** Lemmas about the cell geometry. *)
From Coq Require Import Reals ZArith List Bool Lra Lia.
From Verif Require Import Fv_Model Fv_Spec Fv_Proofs2 Ref_Model Ref_Spec Met_Model Met_Spec.
Import ListNotations.
Local Open Scope R_scope.

(** ** Integrals of products *)
Lemma integral_scale : forall f a b v c, integral f a b v -> integral (fun x => f x * c) a b (v * c).
Proof.
  intros f a b v c (H & F & D & ->). split; [exact H|]. exists (fun x => F x * c). split; [|ring].
  intros x Hx. replace (f x * c) with (f x * c + F x * 0) by ring. apply (derivable_pt_lim_mult F (fun _ => c)); [apply D; exact Hx|apply derivable_pt_lim_const].
Qed.
Lemma integral_ext : forall f g a b v w, (forall x, a <= x <= b -> f x = g x) -> v = w -> integral f a b v -> integral g a b w.
Proof. intros f g a b v w E <- (H & F & D & Q). split; [exact H|]. exists F. split; [|exact Q]. intros x Hx. rewrite <- E by exact Hx. apply D; exact Hx. Qed.
Lemma integral2_prod : forall (f : R -> R -> R) u v a b c d U V, (forall x y, a <= x <= b -> c <= y <= d -> f x y = u x * v y) -> integral u a b U -> integral v c d V -> integral2 f a b c d (U * V).
Proof.
  intros f u v a b c d U V E HU HV. exists (fun x => V * u x). split.
  - intros x Hx. eapply integral_ext; [| |apply integral_scale with (c := u x); exact HV]; [|reflexivity]. intros y Hy; rewrite E by assumption; ring.
  - eapply integral_ext; [| |apply integral_scale with (c := V); exact HU]; [|reflexivity]. intros; cbv beta; ring.
Qed.
Lemma integral3_prod : forall (f : R -> R -> R -> R) u v w a b c d p q U V W,
  (forall x y z, a <= x <= b -> c <= y <= d -> p <= z <= q -> f x y z = u x * v y * w z) -> integral u a b U -> integral v c d V -> integral w p q W -> integral3 f a b c d p q (U * V * W).
Proof.
  intros f u v w a b c d p q U V W E HU HV HW. exists (fun x => (V * W) * u x). split.
  - intros x Hx. replace (V * W * u x) with ((u x * V) * W) by ring.
    apply (integral2_prod _ (fun y => v y * u x) w); [intros y z Hy Hz; rewrite E by assumption; ring| |exact HW].
    eapply integral_ext; [| |apply integral_scale with (c := u x); exact HV]; [reflexivity|ring].
  - eapply integral_ext; [| |apply integral_scale with (c := V * W); exact HU]; [intros; cbv beta; ring|ring].
Qed.

Lemma int_1 : forall a b, a <= b -> integral (fun _ => 1) a b (b - a).
Proof. intros a b H; split; [exact H|]. exists id; split; [|reflexivity]. intros x _; apply derivable_pt_lim_id. Qed.
Lemma int_pow : forall n a b, a <= b -> integral (fun x => x ^ n) a b ((b ^ S n - a ^ S n) / INR (S n)).
Proof.
  intros n a b H; split; [exact H|]. exists (fun x => x ^ S n * / INR (S n)). split; [|unfold Rdiv; ring]. intros x _.
  replace (x ^ n) with ((INR (S n) * x ^ pred (S n)) * / INR (S n) + x ^ S n * 0) by (cbn [pred]; field; apply not_0_INR; discriminate).
  apply (derivable_pt_lim_mult (fun x => x ^ S n) (fun _ => / INR (S n))); [apply derivable_pt_lim_pow|apply derivable_pt_lim_const].
Qed.
Lemma int_x : forall a b, a <= b -> integral (fun x => x) a b (1 / 2 * (b * b - a * a)).
Proof. intros a b H. eapply integral_ext; [| |apply (int_pow 1 a b H)]; [intros; cbn [pow]; ring|cbn [pow INR]; field]. Qed.
Lemma int_xx : forall a b, a <= b -> integral (fun x => x * x) a b (1 / 3 * (b * b * b - a * a * a)).
Proof. intros a b H. eapply integral_ext; [| |apply (int_pow 2 a b H)]; [intros; cbn [pow]; ring|cbn [pow INR]; field]. Qed.
Lemma int_xxx : forall a b, a <= b -> integral (fun x => x * (x * x)) a b (1 / 4 * (b ^ 4 - a ^ 4)).
Proof. intros a b H. eapply integral_ext; [| |apply (int_pow 3 a b H)]; [intros; cbn [pow]; ring|cbn [pow INR]; field]. Qed.
Lemma int_sin : forall a b, a <= b -> integral sin a b (cos a - cos b).
Proof.
  intros a b H; split; [exact H|]. exists (fun x => - cos x). split; [|ring]. intros x _.
  replace (sin x) with (- (- sin x)) by ring. apply (derivable_pt_lim_opp cos). apply derivable_pt_lim_cos.
Qed.
Lemma d_xsin : forall x, derivable_pt_lim (fun x => sin x - x * cos x) x (x * sin x).
Proof.
  intro x. replace (x * sin x) with (cos x - (1 * cos x + x * (- sin x))) by ring.
  apply (derivable_pt_lim_minus sin (fun x => x * cos x)); [apply derivable_pt_lim_sin|].
  apply (derivable_pt_lim_mult id cos); [apply derivable_pt_lim_id|apply derivable_pt_lim_cos].
Qed.
Lemma int_xsin : forall a b, a <= b -> integral (fun x => x * sin x) a b ((sin b - b * cos b) - (sin a - a * cos a)).
Proof. intros a b H; split; [exact H|]. exists (fun x => sin x - x * cos x). split; [|reflexivity]. intros x _; apply d_xsin. Qed.

(** ** Signs *)
Lemma sin_nn : forall t, 0 <= t <= PI -> 0 <= sin t.
Proof. intros t H; apply sin_ge_0; lra. Qed.
Lemma cos_lt : forall a b, 0 <= a -> a < b -> b <= PI -> cos b < cos a.
Proof. intros a b H1 H2 H3; apply cos_decreasing_1; lra. Qed.
Lemma area1_j_val : forall g j, x2f g j < x2f g (j + 1)%Z -> 0 <= x2f g j -> x2f g (j + 1)%Z <= PI -> coord_area1_j g j = cos (x2f g j) - cos (x2f g (j + 1)%Z) /\ 0 < coord_area1_j g j.
Proof. intros g j H1 H2 H3; unfold coord_area1_j. pose proof (cos_lt _ _ H2 H1 H3). rewrite Rabs_right by lra. split; [reflexivity|lra]. Qed.
Lemma area2_j_val : forall g j, 0 <= x2f g j <= PI -> coord_area2_j g j = sin (x2f g j).
Proof. intros g j H; unfold coord_area2_j. apply Rabs_right, Rle_ge, sin_nn, H. Qed.
Lemma sq_lt : forall a b, 0 <= a -> a < b -> 0 < b * b - a * a.
Proof. intros; nra. Qed.
Lemma cb_lt : forall a b, 0 <= a -> a < b -> 0 < b * b * b - a * a * a.
Proof. intros a b H1 H2. assert (b * b * b - a * a * a = (b - a) * (b * b + a * b + a * a)) as -> by ring. apply Rmult_lt_0_compat; nra. Qed.

(** One factor for each direction. *)
Definition vi (s : system) (g : grid) (i : Z) : R := match s with cartesian => dx1f g i | _ => coord_vol_i s g i end.
Definition vj (s : system) (g : grid) (j : Z) : R := match s with spherical_polar => coord_vol_j g j | _ => dx2f g j end.
Lemma volume_sep : forall s g, sep (GetCellVolume s g) (vi s g) (vj s g) (dx3f g).
Proof. intros [| |] g k j i; unfold GetCellVolume, vi, vj; ring. Qed.
Definition a1i (s : system) (g : grid) (i : Z) : R := match s with cartesian => 1 | cylindrical => x1f g i | spherical_polar => coord_area1_i g i end.
Lemma area1_sep : forall s g, sep (GetFace1Area s g) (a1i s g) (vj s g) (dx3f g).
Proof. intros [| |] g k j i; unfold GetFace1Area, a1i, vj, coord_vol_j; ring. Qed.
Definition a2i (s : system) (g : grid) (i : Z) : R := match s with spherical_polar => coord_area2_i g i | _ => dx1f g i end.
Definition a2j (s : system) (g : grid) (j : Z) : R := match s with spherical_polar => coord_area2_j g j | _ => 1 end.
Lemma area2_sep : forall s g, sep (GetFace2Area s g) (a2i s g) (a2j s g) (dx3f g).
Proof. intros [| |] g k j i; unfold GetFace2Area, a2i, a2j; ring. Qed.
Definition a3i (s : system) (g : grid) (i : Z) : R := match s with cartesian => dx1f g i | _ => coord_area3_i g i end.
Lemma area3_sep : forall s g, sep (GetFace3Area s g) (a3i s g) (dx2f g) (fun _ => 1).
Proof. intros [| |] g k j i; unfold GetFace3Area, a3i; ring. Qed.

Section Cell.
Variables (s : system) (g : grid) (k j i : Z).
Hypothesis A : aligned g. Hypothesis P : proper s g k j i.
Let a1 := x1f g i. Let b1_ := x1f g (i + 1)%Z. Let a2_ := x2f g j. Let b2_ := x2f g (j + 1)%Z. Let a3_ := x3f g k. Let b3_ := x3f g (k + 1)%Z.
Lemma P1 : a1 < b1_. Proof using P. exact (proj1 P). Qed.
Lemma P2 : a2_ < b2_. Proof using P. exact (proj1 (proj2 P)). Qed.
Lemma P3 : a3_ < b3_. Proof using P. exact (proj1 (proj2 (proj2 P))). Qed.
Lemma D1 : dx1f g i = b1_ - a1. Proof using A. exact (proj1 (A i)). Qed.
Lemma D2 : dx2f g j = b2_ - a2_. Proof using A. exact (proj1 (proj2 (A j))). Qed.
Lemma D3 : dx3f g k = b3_ - a3_. Proof using A. exact (proj2 (proj2 (A k))). Qed.
Lemma vi_pos : 0 < vi s g i.
Proof using A P.
  pose proof P1. pose proof D1. destruct P as (_ & _ & _ & Hr & _). unfold vi, coord_vol_i, coord_area3_i, coord_area2_i. fold a1 b1_; fold a1 in Hr. destruct s; cbn [radius_ok] in Hr; [lra| |].
  - pose proof (sq_lt a1 b1_ Hr H). lra.
  - pose proof (cb_lt a1 b1_ Hr H). lra.
Qed.
Lemma vj_pos : 0 < vj s g j.
Proof using A P. pose proof P2. pose proof D2. destruct P as (_ & _ & _ & _ & Ha). unfold vj, coord_vol_j. destruct s; cbn [angle_ok] in Ha; [lra|lra|]. apply area1_j_val; tauto. Qed.
Lemma vk_pos : 0 < dx3f g k.
Proof using A P. pose proof P3. rewrite D3. lra. Qed.
Lemma volume_pos : 0 < GetCellVolume s g k j i.
Proof using A P. rewrite (volume_sep s g k j i). pose proof vi_pos; pose proof vj_pos; pose proof vk_pos. repeat apply Rmult_lt_0_compat; assumption. Qed.
Lemma a2i_pos : 0 < a2i s g i.
Proof using A P.
  pose proof P1. pose proof D1. destruct P as (_ & _ & _ & Hr & _). unfold a2i, coord_area2_i. fold a1 b1_; fold a1 in Hr. destruct s; cbn [radius_ok] in Hr; [lra|lra|]. pose proof (sq_lt a1 b1_ Hr H). lra.
Qed.
Lemma a3i_pos : 0 < a3i s g i.
Proof using A P.
  pose proof P1. pose proof D1. destruct P as (_ & _ & _ & Hr & _). unfold a3i, coord_area3_i, coord_area2_i. fold a1 b1_; fold a1 in Hr. destruct s; cbn [radius_ok] in Hr; [lra| |]; pose proof (sq_lt a1 b1_ Hr H); lra.
Qed.
(** Integrals of the factors. *)
Definition ui (x : R) : R := match s with cartesian => 1 | cylindrical => x | spherical_polar => x * x end.
Definition uj (x : R) : R := match s with spherical_polar => sin x | _ => 1 end.
Lemma int_vi : integral ui a1 b1_ (vi s g i).
Proof using A P.
  pose proof (Rlt_le _ _ P1) as H. pose proof D1. unfold ui, vi, coord_vol_i, coord_area3_i, coord_area2_i. fold a1 b1_. destruct s.
  - rewrite H0; apply int_1; exact H. - apply int_x; exact H. - apply int_xx; exact H.
Qed.
Lemma int_vj : integral uj a2_ b2_ (vj s g j).
Proof using A P.
  pose proof (Rlt_le _ _ P2) as H. pose proof D2. pose proof P2. destruct P as (_ & _ & _ & _ & Ha). unfold uj, vj, coord_vol_j. destruct s.
  - rewrite H0; apply int_1; exact H. - rewrite H0; apply int_1; exact H.
  - cbn [angle_ok] in Ha. rewrite (proj1 (area1_j_val g j H1 (proj1 Ha) (proj2 Ha))). apply int_sin; exact H.
Qed.
Lemma int_vk : integral (fun _ => 1) a3_ b3_ (dx3f g k).
Proof using A P. pose proof P3. rewrite D3. apply int_1. lra. Qed.
Lemma int_dj : integral (fun _ => 1) a2_ b2_ (dx2f g j).
Proof using A P. pose proof P2. rewrite D2. apply int_1. lra. Qed.
Lemma int_di : integral (fun _ => 1) a1 b1_ (dx1f g i).
Proof using A P. pose proof P1. rewrite D1. apply int_1. lra. Qed.
Lemma int_a2i : integral (fun x => match s with spherical_polar => x | _ => 1 end) a1 b1_ (a2i s g i).
Proof using A P. pose proof P1. pose proof int_di as Q. unfold a2i. destruct s; [exact Q|exact Q|]. unfold coord_area2_i. fold a1 b1_. apply int_x. lra. Qed.
Lemma int_a3i : integral (fun x => match s with cartesian => 1 | _ => x end) a1 b1_ (a3i s g i).
Proof using A P. pose proof P1. pose proof int_di as Q. unfold a3i, coord_area3_i. destruct s; [exact Q| |]; unfold coord_area2_i; fold a1 b1_; apply int_x; lra. Qed.
Lemma volume_int : integral3 (volume_element s) a1 b1_ a2_ b2_ a3_ b3_ (GetCellVolume s g k j i).
Proof using A P.
  replace (GetCellVolume s g k j i) with (vi s g i * vj s g j * dx3f g k) by (rewrite (volume_sep s g k j i); ring).
  apply (integral3_prod _ ui uj (fun _ => 1)); [|exact int_vi|exact int_vj|exact int_vk]. intros x y z _ _ _; unfold volume_element, h1, h2, h3, ui, uj; destruct s; ring.
Qed.
End Cell.

(** ** Sums *)
Lemma sum_prod3 : forall (w1 w2 w3 : Z -> R) I J K, sum (map (fun k => sum (map (fun j => sum (map (fun i => w3 k * w2 j * w1 i) I)) J)) K) = sum (map w3 K) * (sum (map w2 J) * sum (map w1 I)).
Proof.
  intros.
  assert (E1 : forall k j, sum (map (fun i => w3 k * w2 j * w1 i) I) = (w3 k * sum (map w1 I)) * w2 j) by (intros; rewrite sum_scale; ring).
  assert (E2 : forall k, sum (map (fun j => sum (map (fun i => w3 k * w2 j * w1 i) I)) J) = (sum (map w2 J) * sum (map w1 I)) * w3 k).
  { intro k. rewrite (sum_ext _ _ (fun j => (w3 k * sum (map w1 I)) * w2 j)) by (intros; apply E1). rewrite sum_scale; ring. }
  rewrite (sum_ext _ _ (fun k => (sum (map w2 J) * sum (map w1 I)) * w3 k)) by (intros; apply E2). rewrite sum_scale; ring.
Qed.
(** A factor that is the difference of a primitive at the faces telescopes. *)
Lemma tele : forall (w x : Z -> R) (U : R -> R) a b, (a <= b + 1)%Z -> (forall n, (a <= n <= b)%Z -> w n = U (x (n + 1)%Z) - U (x n)) -> sum (map w (upto a b)) = U (x (b + 1)%Z) - U (x a).
Proof.
  intros w x U a b H E. rewrite <- (telescope' (fun n => U (x n))) by exact H. apply sum_ext. intros n Hn. apply in_upto in Hn. apply E; exact Hn.
Qed.
