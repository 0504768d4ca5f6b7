(** Raising and lowering, determinants and source terms. *)
From Coq Require Import Reals ZArith Lra Lia.
From Verif Require Import Gr_Model Gr_Spec Gr_Proofs Gr_Proofs2 Gr_Proofs3.
Local Open Scope R_scope.

(** ** Raising and lowering *)
Lemma mk_lower v : lowered mk_metric v (mk_Lower v). Proof. destruct v as [[[v0 v1] v2] v3]. unfold lowered, mk_Lower, comp, sum4, mk_metric, ten. intros n Hn. destruct n as [|[|[|[|n]]]]; [| | | |lia]; ring. Qed.
Lemma mk_raise v : lowered mk_inverse v (mk_Raise v). Proof. destruct v as [[[v0 v1] v2] v3]. unfold lowered, mk_Raise, comp, sum4, mk_inverse, ten. intros n Hn. destruct n as [|[|[|[|n]]]]; [| | | |lia]; ring. Qed.
Lemma sw_lower m G j i v : lowered (fst (sw_Cell m G j i)) v (sw_Lower m G j i v).
Proof. destruct v as [[[v0 v1] v2] v3]. unfold lowered, sw_Lower, comp, sum4, sw_Cell, sw_metric, ten. cbn [fst]. intros n Hn. destruct n as [|[|[|[|n]]]]; [| | | |lia]; unfold Rdiv; ring. Qed.
Lemma sw_raise m G j i v : lowered (snd (sw_Cell m G j i)) v (sw_Raise m G j i v).
Proof. destruct v as [[[v0 v1] v2] v3]. unfold lowered, sw_Raise, comp, sum4, sw_Cell, sw_inverse, ten. cbn [snd]. intros n Hn. destruct n as [|[|[|[|n]]]]; [| | | |lia]; unfold Rdiv; ring. Qed.
Lemma ks_lower m a G j i v : lowered (fst (ks_Cell m a G j i)) v (ks_Lower m a G j i v).
Proof. destruct v as [[[v0 v1] v2] v3]. unfold lowered, ks_Lower, comp, sum4, ks_Cell, ks_metric, ten. cbn [fst]. cbv zeta. intros n Hn. destruct n as [|[|[|[|n]]]]; [| | | |lia]; unfold Rdiv; ring. Qed.
Lemma ks_raise m a G j i v : lowered (snd (ks_Cell m a G j i)) v (ks_Raise m a G j i v).
Proof. destruct v as [[[v0 v1] v2] v3]. unfold lowered, ks_Raise, comp, sum4, ks_Cell, ks_inverse, ten. cbn [snd]. cbv zeta. intros n Hn. destruct n as [|[|[|[|n]]]]; [| | | |lia]; unfold Rdiv; ring. Qed.

(** ** Determinants *)
Lemma det_sw m r th : 0 < r -> 2 * m < r -> det4 (Schwarzschild m r th) = - (r ^ 2 * Rabs (sin th)) ^ 2.
Proof.
  intros Hr Hm. pose proof (alpha_arg _ _ Hr Hm) as A. unfold det4, det3, Schwarzschild.
  replace ((r ^ 2 * Rabs (sin th)) ^ 2) with (r ^ 4 * (Rabs (sin th) * Rabs (sin th))) by ring. rewrite abs_sq. set (k := 1 - 2 * m / r) in *. field. lra.
Qed.
Lemma det_ks m a r th : 0 < r -> det4 (Kerr m a r th) = - ((r ^ 2 + a ^ 2 * cos th ^ 2) * Rabs (sin th)) ^ 2.
Proof.
  intros Hr. pose proof (sigma_pos a r th Hr) as A. unfold t_sigma, SQR in A. pose proof (sc th) as C. unfold SQR in C.
  replace (((r ^ 2 + a ^ 2 * cos th ^ 2) * Rabs (sin th)) ^ 2) with ((r ^ 2 + a ^ 2 * cos th ^ 2) ^ 2 * (Rabs (sin th) * Rabs (sin th))) by ring. rewrite abs_sq.
  unfold det4, det3, Kerr, ks_flat, ks_form. 
  assert (Q : cos th ^ 2 = 1 - sin th ^ 2) by nra. rewrite Q. assert (B : r ^ 2 + a ^ 2 * (1 - sin th ^ 2) <> 0) by (rewrite <- Q; nra). field. exact B.
Qed.

(** ** The four-velocity *)
Lemma unit g gi w : gi 0%nat 0%nat < 0 -> inverse_metrics g gi -> symmetric g -> symmetric gi -> w 0%nat = 0 -> 0 <= sum4 (fun m => sum4 (fun n => g m n * w m * w n)) ->
  sum4 (fun m => sum4 (fun n => g m n * velocity g gi w m * velocity g gi w n)) = -1.
Proof.
  intros H0 I S Si W P. set (L := lorentz g w). assert (L2 : L * L = 1 + sum4 (fun m => sum4 (fun n => g m n * w m * w n))) by (apply sqrt_sqrt; lra).
  set (k := sqrt (- gi 0%nat 0%nat)). assert (K2 : k * k = - gi 0%nat 0%nat) by (apply sqrt_sqrt; lra). assert (Pk : 0 < k) by (apply sqrt_lt_R0; lra).
  assert (N : forall m, (m < 4)%nat -> sum4 (fun n => g m n * normal gi n) = - delta_ m 0 / k).
  { intros m Hm. pose proof (I m 0%nat Hm ltac:(lia)) as E. unfold sum4, normal in *. fold k. rewrite (Si 0%nat 1%nat), (Si 0%nat 2%nat), (Si 0%nat 3%nat). rewrite <- E. field. lra. }
  transitivity (sum4 (fun m => (L * normal gi m + 2 * w m) * (L * sum4 (fun n => g m n * normal gi n))) + sum4 (fun m => sum4 (fun n => g m n * w m * w n))).
  { unfold velocity. fold L. unfold sum4. rewrite (S 1%nat 0%nat), (S 2%nat 0%nat), (S 3%nat 0%nat), (S 2%nat 1%nat), (S 3%nat 1%nat), (S 3%nat 2%nat). ring. }
  set (ww := sum4 (fun m => sum4 (fun n => g m n * w m * w n))) in *. unfold sum4 at 1. rewrite !N by lia. unfold delta_. cbn [Nat.eqb]. rewrite W. unfold normal. fold k.
  replace (gi 0%nat 0%nat) with (- (k * k)) by lra. transitivity (ww - L * L); [field; lra|lra].
Qed.
(** The field of the fluid: orthogonal to the velocity, and given by the components B^i of the dual tensor. *)
Lemma fluid_field g u B b : sum4 (fun m => sum4 (fun n => g m n * u m * u n)) = -1 -> u 0%nat <> 0 -> is_fluid_field g u B b ->
  b 0%nat = sum4 (fun m => g 1%nat m * u m) * B 1%nat + sum4 (fun m => g 2%nat m * u m) * B 2%nat + sum4 (fun m => g 3%nat m * u m) * B 3%nat /\
  (forall i, (1 <= i < 4)%nat -> b i = (B i + b 0%nat * u i) / u 0%nat).
Proof.
  intros U N (O & F). assert (Fi : forall i, (1 <= i < 4)%nat -> b i = (B i + b 0%nat * u i) / u 0%nat) by (intros i Hi; rewrite <- (F i Hi); field; exact N).
  split; [|exact Fi].
  assert (E : u 0%nat * sum4 (fun m => sum4 (fun n => g m n * b m * u n)) = b 0%nat * sum4 (fun m => sum4 (fun n => g m n * u m * u n))
     + (sum4 (fun m => g 1%nat m * u m) * B 1%nat + sum4 (fun m => g 2%nat m * u m) * B 2%nat + sum4 (fun m => g 3%nat m * u m) * B 3%nat)).
  { unfold sum4. rewrite (Fi 1%nat), (Fi 2%nat), (Fi 3%nat) by lia. field. exact N. }
  rewrite O, U in E. lra.
Qed.

(** ** Derivatives of the metrics *)
Lemma d_ext f g x l l' : (forall t, f t = g t) -> l = l' -> derivable_pt_lim f x l -> derivable_pt_lim g x l'.
Proof. intros E <- D eps He. destruct (D eps He) as [d Hd]. exists d. intros h Hh Hk. rewrite <- !E. apply Hd; assumption. Qed.
Lemma d_sq x : derivable_pt_lim (fun t => t * t) x (2 * x).
Proof. apply (d_ext (mult_fct id id) _ x (1 * id x + id x * 1)); [intros; reflexivity|unfold id; ring|]. apply derivable_pt_lim_mult; apply derivable_pt_lim_id. Qed.
Lemma d_affine p q f x l : derivable_pt_lim f x l -> derivable_pt_lim (fun t => p + q * f t) x (q * l).
Proof. intro D. apply (d_ext (plus_fct (fct_cte p) (mult_real_fct q f)) _ x (0 + q * l)); [intros; reflexivity|ring|]. apply derivable_pt_lim_plus; [apply derivable_pt_lim_const|apply derivable_pt_lim_scal; exact D]. Qed.
Lemma d_plus f g x l l' : derivable_pt_lim f x l -> derivable_pt_lim g x l' -> derivable_pt_lim (fun t => f t + g t) x (l + l').
Proof. intros A B. apply (d_ext (plus_fct f g) _ x (l + l')); [reflexivity|reflexivity|]. apply derivable_pt_lim_plus; assumption. Qed.
Lemma d_mul f g x l l' : derivable_pt_lim f x l -> derivable_pt_lim g x l' -> derivable_pt_lim (fun t => f t * g t) x (l * g x + f x * l').
Proof. intros A B. apply (d_ext (mult_fct f g) _ x (l * g x + f x * l')); [reflexivity|reflexivity|]. apply derivable_pt_lim_mult; assumption. Qed.
Lemma d_quot f g x l l' : g x <> 0 -> derivable_pt_lim f x l -> derivable_pt_lim g x l' -> derivable_pt_lim (fun t => f t / g t) x ((l * g x - l' * f x) / (g x * g x)).
Proof. intros N A B. apply (d_ext (div_fct f g) _ x ((l * g x - l' * f x) / Rsqr (g x))); [reflexivity|reflexivity|]. apply derivable_pt_lim_div; assumption. Qed.
Lemma d_id x : derivable_pt_lim (fun t => t) x 1. Proof. exact (derivable_pt_lim_id x). Qed.
Lemma d_sin2 x : derivable_pt_lim (fun t => sin t * sin t) x (2 * sin x * cos x).
Proof. apply (d_ext (fun t => sin t * sin t) _ x (cos x * sin x + sin x * cos x)); [reflexivity|ring|]. apply d_mul; apply derivable_pt_lim_sin. Qed.

Definition dKerr_r (m a r th : R) : met := fun i j => (ks_flat a 1 th i j - ks_flat a 0 th i j) * (2 * r) + ks_form a th i * ks_form a th j * (2 * m * (a ^ 2 * cos th ^ 2 - r ^ 2) / (r ^ 2 + a ^ 2 * cos th ^ 2) ^ 2).
Lemma kerr_r m a r th : 0 < r -> derivative_r (Kerr m a) r th (dKerr_r m a r th).
Proof.
  intros Hr x y _ _. pose proof (sigma_pos a r th Hr) as A. unfold t_sigma, SQR in A.
  apply (d_ext (fun t => (ks_flat a 0 th x y + (ks_flat a 1 th x y - ks_flat a 0 th x y) * (t * t)) + (0 + ks_form a th x * ks_form a th y * ((0 + 2 * m * t) / (a ^ 2 * cos th ^ 2 + 1 * (t * t))))) _ _
    ((ks_flat a 1 th x y - ks_flat a 0 th x y) * (2 * r) + ks_form a th x * ks_form a th y * ((2 * m * 1 * (a ^ 2 * cos th ^ 2 + 1 * (r * r)) - 1 * (2 * r) * (0 + 2 * m * r)) / ((a ^ 2 * cos th ^ 2 + 1 * (r * r)) * (a ^ 2 * cos th ^ 2 + 1 * (r * r)))))).
  - intro t. unfold Kerr. replace (a ^ 2 * cos th ^ 2 + 1 * (t * t)) with (t ^ 2 + a ^ 2 * cos th ^ 2) by ring. unfold Rdiv.
    assert (E : ks_flat a 0 th x y + (ks_flat a 1 th x y - ks_flat a 0 th x y) * (t * t) = ks_flat a t th x y) by (unfold ks_flat; destruct x as [|[|[|[|x]]]]; try ring; destruct y as [|[|[|[|y]]]]; ring).
    rewrite E. ring.
  - unfold dKerr_r. field; nra.
  - apply d_plus; apply d_affine; [apply d_sq|]. apply (d_quot (fun t => 0 + 2 * m * t) (fun t => a ^ 2 * cos th ^ 2 + 1 * (t * t))); [nra|apply d_affine; apply d_id|apply d_affine; apply d_sq].
Qed.
Definition flat_s (a r s : R) : met := fun i j =>
  match i, j with 0%nat, 0%nat => -1 | 1%nat, 1%nat => 1 | 1%nat, 3%nat | 3%nat, 1%nat => - a * s | 2%nat, 2%nat => r ^ 2 + a ^ 2 * (1 - s) | 3%nat, 3%nat => (r ^ 2 + a ^ 2) * s | _, _ => 0 end.
Definition form_s (a s : R) (i : nat) : R := match i with 0%nat => 1 | 1%nat => 1 | 3%nat => - a * s | _ => 0 end.
Definition dKerr_th (m a r th : R) : met := fun i j => let s := sin th * sin th in let D := r ^ 2 + a ^ 2 - a ^ 2 * s in
  ((flat_s a r 1 i j - flat_s a r 0 i j) + 2 * m * r * (a ^ 2 / (D * D) * (form_s a s i * form_s a s j)
    + / D * ((form_s a 1 i - form_s a 0 i) * form_s a s j + form_s a s i * (form_s a 1 j - form_s a 0 j)))) * (2 * sin th * cos th).
Lemma kerr_th m a r th : 0 < r -> derivative_th (Kerr m a) r th (dKerr_th m a r th).
Proof.
  intros Hr x y _ _. pose proof (sigma_pos a r th Hr) as A. unfold t_sigma, SQR in A. pose proof (sc th) as C. unfold SQR in C.
  set (E := fun s => (flat_s a r 0 x y + (flat_s a r 1 x y - flat_s a r 0 x y) * s) + (0 + 2 * m * r * (((form_s a 0 x + (form_s a 1 x - form_s a 0 x) * s) * (form_s a 0 y + (form_s a 1 y - form_s a 0 y) * s)) / (r ^ 2 + a ^ 2 + - a ^ 2 * s)))).
  assert (DE : derivable_pt_lim E (sin th * sin th) ((flat_s a r 1 x y - flat_s a r 0 x y) * 1 + 2 * m * r *
     ((((form_s a 1 x - form_s a 0 x) * 1 * (form_s a 0 y + (form_s a 1 y - form_s a 0 y) * (sin th * sin th)) + (form_s a 0 x + (form_s a 1 x - form_s a 0 x) * (sin th * sin th)) * ((form_s a 1 y - form_s a 0 y) * 1)) * (r ^ 2 + a ^ 2 + - a ^ 2 * (sin th * sin th))
       - (- a ^ 2 * 1) * ((form_s a 0 x + (form_s a 1 x - form_s a 0 x) * (sin th * sin th)) * (form_s a 0 y + (form_s a 1 y - form_s a 0 y) * (sin th * sin th)))) / ((r ^ 2 + a ^ 2 + - a ^ 2 * (sin th * sin th)) * (r ^ 2 + a ^ 2 + - a ^ 2 * (sin th * sin th)))))).
  { unfold E. apply d_plus; apply d_affine; [apply d_id|].
    apply (d_quot (fun s => (form_s a 0 x + (form_s a 1 x - form_s a 0 x) * s) * (form_s a 0 y + (form_s a 1 y - form_s a 0 y) * s)) (fun s => r ^ 2 + a ^ 2 + - a ^ 2 * s)).
    - replace (sin th * sin th) with (1 - cos th * cos th) by lra. nra.
    - apply (d_mul (fun s => form_s a 0 x + (form_s a 1 x - form_s a 0 x) * s) (fun s => form_s a 0 y + (form_s a 1 y - form_s a 0 y) * s)); apply d_affine; apply d_id.
    - apply d_affine; apply d_id. }
  pose proof (derivable_pt_lim_comp (fun t => sin t * sin t) E th _ _ (d_sin2 th) DE) as K. eapply d_ext; [|reflexivity|].
  2:{ eapply d_ext; [reflexivity| |exact K]. unfold dKerr_th. cbv zeta.
      assert (Fx : forall i, form_s a 0 i + (form_s a 1 i - form_s a 0 i) * (sin th * sin th) = form_s a (sin th * sin th) i) by (intro i; unfold form_s; destruct i as [|[|[|[|i]]]]; ring). rewrite !Fx.
      field. replace (sin th * sin th) with (1 - cos th * cos th) by lra. nra. }
  intro t. unfold Ranalysis1.comp, E. pose proof (sc t) as Ct. unfold SQR in Ct. unfold Kerr.
  assert (Q : cos t ^ 2 = 1 - sin t ^ 2) by nra. rewrite Q. replace (r ^ 2 + a ^ 2 * (1 - sin t ^ 2)) with (r ^ 2 + a ^ 2 + - a ^ 2 * (sin t * sin t)) by ring.
  assert (Ef : ks_flat a r t x y = flat_s a r (sin t * sin t) x y).
  { unfold ks_flat, flat_s. rewrite Q. destruct x as [|[|[|[|x]]]]; try reflexivity; destruct y as [|[|[|[|y]]]]; try reflexivity; ring. }
  assert (El : forall i, ks_form a t i = form_s a (sin t * sin t) i) by (intro i; unfold ks_form, form_s; destruct i as [|[|[|[|i]]]]; try reflexivity; ring).
  rewrite Ef, !El. unfold Rdiv.
  assert (Fx : forall i, form_s a 0 i + (form_s a 1 i - form_s a 0 i) * (sin t * sin t) = form_s a (sin t * sin t) i) by (intro i; unfold form_s; destruct i as [|[|[|[|i]]]]; ring). rewrite !Fx.
  assert (Ff : flat_s a r 0 x y + (flat_s a r 1 x y - flat_s a r 0 x y) * (sin t * sin t) = flat_s a r (sin t * sin t) x y).
  { unfold flat_s. destruct x as [|[|[|[|x]]]]; try ring; destruct y as [|[|[|[|y]]]]; ring. }
  rewrite Ff. ring.
Qed.
