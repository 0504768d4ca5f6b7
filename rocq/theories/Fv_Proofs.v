(** Proofs for C40. *)
From Coq Require Import Reals ZArith List Bool Lia Lra Permutation.
From Verif Require Import Fv_Model Fv_Spec.
Import ListNotations.
Local Open Scope R_scope.

Lemma within_true : forall a b x, (a <= x <= b)%Z -> within a b x = true.
Proof. intros; unfold within; apply andb_true_intro; split; apply Z.leb_le; lia. Qed.
Lemma within_false : forall a b x, (x < a \/ b < x)%Z -> within a b x = false.
Proof. intros; unfold within; apply andb_false_iff; destruct H; [left|right]; apply Z.leb_gt; lia. Qed.
Lemma within_iff : forall a b x, within a b x = true <-> (a <= x <= b)%Z.
Proof. intros; unfold within; rewrite andb_true_iff, !Z.leb_le; tauto. Qed.
Lemma mul_div_ : forall a w x, a <> 0 -> a * (w / a * x) = w * x.
Proof. intros; field; auto. Qed.

Section S.
Variables (d : dims) (g : geom) (e : vec).
Let e1 k j i := L1 g k j i * x1 e k j i.
Let e2 k j i := L2 g k j i * x2 e k j i.
Let e3 k j i := L3 g k j i * x3 e k j i.
Definition curl1 (k j i : Z) : R := if Z.ltb 1 (nx2 d) then - (e3 k (j + 1)%Z i - e3 k j i) + (if Z.ltb 1 (nx3 d) then e2 (k + 1)%Z j i - e2 k j i else 0) else 0.
Definition curl2 (k j i : Z) : R := (e3 k j (i + 1)%Z - e3 k j i) - (if Z.ltb 1 (nx3 d) then e1 (k + 1)%Z j i - e1 k j i else 0).
Definition curl3 (k j i : Z) : R := - (e2 k j (i + 1)%Z - e2 k j i) + (if Z.ltb 1 (nx2 d) then e1 k (j + 1)%Z i - e1 k j i else 0).
Lemma face1 : good_geom d g -> forall w b k j i, (ks d <= k <= ke d)%Z -> (js d <= j <= je d)%Z -> (is_ d <= i <= ie d + 1)%Z ->
  A1 g k j i * x1 (CT d g e w b) k j i = A1 g k j i * x1 b k j i + w * curl1 k j i.
Proof.
  intros G w b k j i Hk Hj Hi. unfold CT, curl1, e1, e2, e3; cbn [x1 x2 x3]. rewrite !within_true by lia. cbn [andb].
  assert (HA : A1 g k j i <> 0) by (apply (gg1 _ _ G); lia).
  destruct (Z.ltb 1 (nx2 d)); [|ring]. destruct (Z.ltb 1 (nx3 d)); field; auto.
Qed.
Lemma face2 : good_geom d g -> good_emf d g e -> forall w b k j i, (ks d <= k <= ke d)%Z -> (js d <= j <= je d + 1)%Z -> (is_ d <= i <= ie d)%Z ->
  A2 g k j i * x2 (CT d g e w b) k j i = A2 g k j i * x2 b k j i + w * curl2 k j i.
Proof.
  intros G E w b k j i Hk Hj Hi. unfold CT, curl2, e1, e2, e3; cbn [x1 x2 x3]. rewrite (within_true (ks d)), (within_true (is_ d)) by lia. rewrite andb_true_r. cbn [andb].
  destruct (within _ _ j) eqn:W.
  - apply within_iff in W. destruct (gg2 _ _ G k j i ltac:(lia)) as [[P Q]|[[P Q]|HA]].
    + rewrite P in W. lia.
    + rewrite P in W. lia.
    + destruct (Z.ltb 1 (nx3 d)); field; auto.
  - assert (C : (pole_in d = true /\ j = js d) \/ (pole_out d = true /\ j = (je d + 1)%Z)).
    { destruct (pole_in d) eqn:P1, (pole_out d) eqn:P2; destruct (Z.eq_dec j (js d)); destruct (Z.eq_dec j (je d + 1)); auto; exfalso;
      rewrite within_true in W by lia; discriminate W. }
    destruct C as [[P ->]|[P ->]].
    + pose proof (gg_in _ _ G P k i) as [Q1 Q2]. pose proof (gg_in _ _ G P k (i + 1)%Z) as [_ Q3]. rewrite Q1, Q2, Q3. destruct (Z.ltb_spec 1 (nx3 d)) as [H3|H3]; [rewrite (ge_in _ _ _ E P H3 k i) by lia|]; ring.
    + pose proof (gg_out _ _ G P k i) as [Q1 Q2]. pose proof (gg_out _ _ G P k (i + 1)%Z) as [_ Q3]. rewrite Q1, Q2, Q3. destruct (Z.ltb_spec 1 (nx3 d)) as [H3|H3]; [rewrite (ge_out _ _ _ E P H3 k i) by lia|]; ring.
Qed.
Lemma face3 : good_geom d g -> forall w b k j i, (ks d <= k <= ke d + 1)%Z -> (js d <= j <= je d)%Z -> (is_ d <= i <= ie d)%Z ->
  A3 g k j i * x3 (CT d g e w b) k j i = A3 g k j i * x3 b k j i + w * curl3 k j i.
Proof.
  intros G w b k j i Hk Hj Hi. unfold CT, curl3, e1, e2, e3; cbn [x1 x2 x3]. rewrite !within_true by lia. cbn [andb].
  assert (HA : A3 g k j i <> 0) by (apply (gg3 _ _ G); lia).
  destruct (Z.ltb 1 (nx2 d)); field; auto.
Qed.
(** The curl has no net flux. *)
Lemma closed_curl : nonempty d -> good_geom d g -> good_emf d g e -> forall k j i, is_active d k j i ->
  (curl1 k j (i + 1)%Z - curl1 k j i) + (curl2 k (j + 1)%Z i - curl2 k j i) + (curl3 (k + 1)%Z j i - curl3 k j i) = 0.
Proof.
  intros [N ND] G E k j i [Hk [Hj Hi]]. unfold curl1, curl2, curl3, e1, e2, e3.
  destruct (Z.ltb_spec 1 (nx2 d)) as [H2|H2]; destruct (Z.ltb_spec 1 (nx3 d)) as [H3|H3].
  - ring.
  - assert (n3 : nx3 d = 1%Z) by (unfold nx3 in *; lia). assert (k = ks d) by (unfold nx3 in *; lia). subst k.
    destruct (gg_2d _ _ G n3 j i) as [_ a2], (gg_2d _ _ G n3 j (i + 1)%Z) as [_ a3], (gg_2d _ _ G n3 (j + 1)%Z i) as [a4 _], (gg_2d _ _ G n3 j i) as [a5 _].
    rewrite a2, a3, a4, a5, !(ge_2d _ _ _ E n3), !(ge_2d' _ _ _ E n3 H2) by lia. ring.
  - exfalso. assert (nx2 d = 1%Z) by (unfold nx2 in *; lia). specialize (ND H). lia.
  - assert (n2 : nx2 d = 1%Z) by (unfold nx2 in *; lia). assert (j = js d) by (unfold nx2 in *; lia). subst j.
    assert (n3 : nx3 d = 1%Z) by (unfold nx3 in *; lia). assert (k = ks d) by (unfold nx3 in *; lia). subst k.
    destruct (gg_2d _ _ G n3 (js d) i) as [_ a2], (gg_2d _ _ G n3 (js d) (i + 1)%Z) as [_ a3].
    rewrite a2, a3, !(ge_2d _ _ _ E n3) by lia. rewrite !(gg_1d _ _ G n2), !(ge_1d _ _ _ E n2) by lia. ring.
Qed.
Lemma CT_net : nonempty d -> good_geom d g -> good_emf d g e -> forall w b k j i, is_active d k j i -> net_flux g (CT d g e w b) k j i = net_flux g b k j i.
Proof.
  intros N G E w b k j i A. pose proof (closed_curl N G E _ _ _ A) as C. destruct A as [Hk [Hj Hi]]. unfold net_flux.
  rewrite !face1, !face2, !face3 by (auto; lia). nra.
Qed.
(** The register is the change CT makes. *)
Lemma register_faces : forall h r k j i, (1 < nx2 d)%Z ->
  ((ks d <= k <= ke d)%Z -> (js d <= j <= je d)%Z -> (is_ d <= i <= ie d + 1)%Z -> x1 (CT_register d g e h r) k j i = x1 (CT d g e h (mkV (fun _ _ _ => 0) (fun _ _ _ => 0) (fun _ _ _ => 0))) k j i).
Proof.
  intros h r k j i H2 Hk Hj Hi. unfold CT_register, CT; cbn [x1 x2 x3]. rewrite !within_true by lia. cbn [andb].
  rewrite (proj2 (Z.ltb_lt 1 (nx2 d))) by lia. destruct (Z.ltb 1 (nx3 d)); ring.
Qed.
Lemma rface1 : good_geom d g -> forall w b k j i, (ks d <= k <= ke d)%Z -> (js d <= j <= je d)%Z -> (is_ d <= i <= ie d + 1)%Z ->
  A1 g k j i * x1 (CT_register d g e w b) k j i = (if Z.ltb 1 (nx2 d) then 0 else A1 g k j i * x1 b k j i) + w * curl1 k j i.
Proof.
  intros G w b k j i Hk Hj Hi. unfold CT_register, curl1, e1, e2, e3; cbn [x1 x2 x3]. rewrite !within_true by lia. cbn [andb].
  assert (HA : A1 g k j i <> 0) by (apply (gg1 _ _ G); lia).
  destruct (Z.ltb 1 (nx2 d)); [|ring]. destruct (Z.ltb 1 (nx3 d)); field; auto.
Qed.
Lemma rface2 : good_geom d g -> good_emf d g e -> forall w b k j i, (ks d <= k <= ke d)%Z -> (js d <= j <= je d + 1)%Z -> (is_ d <= i <= ie d)%Z ->
  A2 g k j i * x2 (CT_register d g e w b) k j i = w * curl2 k j i.
Proof.
  intros G E w b k j i Hk Hj Hi. unfold CT_register, curl2, e1, e2, e3; cbn [x1 x2 x3]. rewrite (within_true (ks d)), (within_true (is_ d)) by lia. rewrite andb_true_r. cbn [andb].
  destruct (within _ _ j) eqn:W.
  - apply within_iff in W. destruct (gg2 _ _ G k j i ltac:(lia)) as [[P Q]|[[P Q]|HA]].
    + rewrite P in W. lia.
    + rewrite P in W. lia.
    + destruct (Z.ltb 1 (nx3 d)); field; auto.
  - assert (C : (pole_in d = true /\ j = js d) \/ (pole_out d = true /\ j = (je d + 1)%Z)).
    { destruct (pole_in d) eqn:P1, (pole_out d) eqn:P2; destruct (Z.eq_dec j (js d)); destruct (Z.eq_dec j (je d + 1)); auto; exfalso;
      rewrite within_true in W by lia; discriminate W. }
    destruct C as [[P ->]|[P ->]].
    + pose proof (gg_in _ _ G P k i) as [Q1 Q2]. pose proof (gg_in _ _ G P k (i + 1)%Z) as [_ Q3]. rewrite Q1, Q2, Q3. destruct (Z.ltb_spec 1 (nx3 d)) as [H3|H3]; [rewrite (ge_in _ _ _ E P H3 k i) by lia|]; ring.
    + pose proof (gg_out _ _ G P k i) as [Q1 Q2]. pose proof (gg_out _ _ G P k (i + 1)%Z) as [_ Q3]. rewrite Q1, Q2, Q3. destruct (Z.ltb_spec 1 (nx3 d)) as [H3|H3]; [rewrite (ge_out _ _ _ E P H3 k i) by lia|]; ring.
Qed.
Lemma rface3 : good_geom d g -> forall w b k j i, (ks d <= k <= ke d + 1)%Z -> (js d <= j <= je d)%Z -> (is_ d <= i <= ie d)%Z ->
  A3 g k j i * x3 (CT_register d g e w b) k j i = w * curl3 k j i.
Proof.
  intros G w b k j i Hk Hj Hi. unfold CT_register, curl3, e1, e2, e3; cbn [x1 x2 x3]. rewrite !within_true by lia. cbn [andb].
  assert (HA : A3 g k j i <> 0) by (apply (gg3 _ _ G); lia).
  destruct (Z.ltb 1 (nx2 d)); field; auto.
Qed.
(** In one dimension the register keeps what it held of the first component. *)
Lemma register_net : nonempty d -> good_geom d g -> good_emf d g e -> forall w b k j i, is_active d k j i ->
  net_flux g (CT_register d g e w b) k j i = (if Z.ltb 1 (nx2 d) then 0 else A1 g k j (i + 1)%Z * x1 b k j (i + 1)%Z - A1 g k j i * x1 b k j i).
Proof.
  intros N G E w b k j i A. pose proof (closed_curl N G E _ _ _ A) as C. destruct A as [Hk [Hj Hi]]. unfold net_flux.
  rewrite !rface1, !rface2, !rface3 by (auto; lia). destruct (Z.ltb 1 (nx2 d)); nra.
Qed.
End S.

Lemma isR_true : forall x y, isR x y = true -> x = y.
Proof. intros x y H; unfold isR in H; destruct (Req_EM_T x y); auto; discriminate H. Qed.
Lemma isR_false : forall x y, isR x y = false -> x <> y.
Proof. intros x y H; unfold isR in H; destruct (Req_EM_T x y); auto; discriminate H. Qed.
Lemma ave_sum : forall w0 w1 w2 w3 w4 o a b c e, ave w0 w1 w2 w3 w4 o a b c e = w0 * o + w1 * a + w2 * b + w3 * c + w4 * e.
Proof.
  intros. unfold ave.
  destruct (isR w0 1) eqn:E0; [apply isR_true in E0; subst w0|destruct (isR w0 0) eqn:E0'; [apply isR_true in E0'; subst w0|]];
  (destruct (isR w4 0) eqn:E4; cbn [negb]; [apply isR_true in E4; subst w4; destruct (isR w3 0) eqn:E3; cbn [negb]; [apply isR_true in E3; subst w3; destruct (isR w2 0) eqn:E2; cbn [negb]; [apply isR_true in E2; subst w2|]|]|]); try ring.
  - destruct (isR w1 0) eqn:E1; cbn [negb]; [apply isR_true in E1; subst w1|]; ring.
  - destruct (isR w1 1) eqn:E1; cbn [negb]; [apply isR_true in E1; subst w1|]; ring.
  - destruct (isR w1 0) eqn:E1; cbn [negb]; [apply isR_true in E1; subst w1|]; ring.
Qed.
Lemma ave_net : forall d g, good_geom d g -> forall w o a b c e, sound_weights w -> forall k j i, is_active d k j i ->
  net_flux g (WeightedAve d w o a b c e) k j i = w0 w * net_flux g o k j i + w1 w * net_flux g a k j i + w2 w * net_flux g b k j i + w3 w * net_flux g c k j i + w4 w * net_flux g e k j i.
Proof.
  intros d g G w o a b c e SW k j i [Hk [Hj Hi]].
  set (S := fun f : vec -> R => w0 w * f o + w1 w * f a + w2 w * f b + w3 w * f c + w4 w * f e).
  assert (B1 : forall i', (is_ d <= i' <= ie d + 1)%Z -> A1 g k j i' * x1 (WeightedAve d w o a b c e) k j i' = S (fun v => A1 g k j i' * x1 v k j i')).
  { intros i' Hi'. unfold WeightedAve, S; cbn [x1 x2 x3]. rewrite !within_true by lia. cbn [andb]. rewrite ave_sum. ring. }
  assert (B3 : forall k', (ks d <= k' <= ke d + 1)%Z -> A3 g k' j i * x3 (WeightedAve d w o a b c e) k' j i = S (fun v => A3 g k' j i * x3 v k' j i)).
  { intros k' Hk'. unfold WeightedAve, S; cbn [x1 x2 x3]. rewrite !within_true by lia. cbn [andb]. rewrite ave_sum. ring. }
  assert (B2 : forall j', (js d <= j' <= je d + 1)%Z -> A2 g k j' i * x2 (WeightedAve d w o a b c e) k j' i = S (fun v => A2 g k j' i * x2 v k j' i)).
  { intros j' Hj'. unfold WeightedAve, S; cbn [x1 x2 x3]. rewrite (within_true (ks d)), (within_true (is_ d)) by lia. rewrite andb_true_r. cbn [andb].
    destruct (within _ _ j') eqn:W.
    - rewrite ave_sum. destruct (isR (w0 w) 1 && negb (isR (w4 w) 0))%bool eqn:F; [|ring].
      apply andb_true_iff in F as [F1 F2]. apply negb_true_iff in F2. apply isR_true in F1. apply isR_false in F2. destruct SW as [Q|[Q|Q]]; [tauto|tauto|]. rewrite Q. ring.
    - assert (C : (pole_in d = true /\ j' = js d) \/ (pole_out d = true /\ j' = (je d + 1)%Z)).
      { destruct (pole_in d) eqn:P1, (pole_out d) eqn:P2; destruct (Z.eq_dec j' (js d)); destruct (Z.eq_dec j' (je d + 1)); auto; exfalso;
        rewrite within_true in W by lia; discriminate W. }
      destruct C as [[P ->]|[P ->]]; [destruct (gg_in _ _ G P k i) as [Q1 _]|destruct (gg_out _ _ G P k i) as [Q1 _]]; rewrite Q1; ring. }
  unfold net_flux. rewrite !B1, !B2, !B3 by lia. unfold S. ring.
Qed.

(** Any history of operations on the registers.  In one dimension the registers that hold only changes of the field also have uniform first component flux, which is part of having no net flux. *)
Definition clean (d : dims) (g : geom) (b : vec) : Prop := forall k j i, is_active d k j i -> net_flux g b k j i = 0.
(** In one dimension: the flux of the first component alone. *)
Definition clean1 (d : dims) (g : geom) (b : vec) : Prop := (1 < nx2 d)%Z \/ forall k j i, is_active d k j i -> A1 g k j (i + 1)%Z * x1 b k j (i + 1)%Z - A1 g k j i * x1 b k j i = 0.
Lemma ave_clean1 : forall d g w o a b c e, clean1 d g o -> clean1 d g a -> clean1 d g b -> clean1 d g c -> clean1 d g e -> clean1 d g (WeightedAve d w o a b c e).
Proof.
  intros d g w o a b c e [X|X0] [X'|X1] [X''|X2] [X'''|X3] [X''''|X4]; try (left; assumption). right. intros k j i A. pose proof A as [Hk [Hj Hi]].
  unfold WeightedAve; cbn [x1 x2 x3]. rewrite !within_true by lia. cbn [andb]. rewrite !ave_sum. specialize (X0 _ _ _ A); specialize (X1 _ _ _ A); specialize (X2 _ _ _ A); specialize (X3 _ _ _ A); specialize (X4 _ _ _ A). 
  match goal with |- ?t = 0 => replace t with
   (w0 w * (A1 g k j (i + 1)%Z * x1 o k j (i + 1)%Z - A1 g k j i * x1 o k j i) + w1 w * (A1 g k j (i + 1)%Z * x1 a k j (i + 1)%Z - A1 g k j i * x1 a k j i) + w2 w * (A1 g k j (i + 1)%Z * x1 b k j (i + 1)%Z - A1 g k j i * x1 b k j i)
    + w3 w * (A1 g k j (i + 1)%Z * x1 c k j (i + 1)%Z - A1 g k j i * x1 c k j i) + w4 w * (A1 g k j (i + 1)%Z * x1 e k j (i + 1)%Z - A1 g k j i * x1 e k j i)) by ring end.
  rewrite X0, X1, X2, X3, X4. ring.
Qed.
Lemma CT_clean1 : forall d g e w b, clean1 d g b -> clean1 d g (CT d g e w b) /\ clean1 d g (CT_register d g e w b).
Proof.
  intros d g e w b [X|X]; [split; left; auto|]. destruct (Z_lt_dec 1 (nx2 d)); [split; left; auto|].
  split; right; intros k j i A; specialize (X _ _ _ A); destruct A as [Hk [Hj Hi]]; unfold CT, CT_register; cbn [x1 x2 x3]; rewrite !within_true by lia; cbn [andb];
  rewrite (proj2 (Z.ltb_ge 1 (nx2 d))) by lia; exact X.
Qed.
Lemma history : forall d g, nonempty d -> good_geom d g -> forall ops, Forall (allowed d g) ops -> forall regs, (forall r, clean d g (regs r) /\ clean1 d g (regs r)) ->
  forall r, clean d g (fold_left (fun s o => perform d g o s) ops regs r) /\ clean1 d g (fold_left (fun s o => perform d g o s) ops regs r).
Proof.
  intros d g N G ops. induction ops as [|o ops IH]; intros HA regs H r; [apply H|]. cbn [fold_left]. inversion HA; subst. apply IH; [assumption|]. clear IH r.
  intro r. destruct o as [q e w|q e w|q a b c e w|q a]; cbn [perform allowed] in *; unfold put, get; destruct (Nat.eqb r q); try apply H.
  - split; [|apply CT_clean1, H]. intros k j i A. rewrite CT_net by assumption. apply H; assumption.
  - split; [|apply CT_clean1, H]. intros k j i A. rewrite register_net by assumption. destruct (Z.ltb_spec 1 (nx2 d)); [reflexivity|]. destruct (proj2 (H q)) as [X|X]; [lia|]. apply X; assumption.
  - split; [|apply ave_clean1; apply H]. intros k j i A. rewrite ave_net by assumption. rewrite !(fun q => proj1 (H q) _ _ _ A). ring.
Qed.
Lemma copies_good : forall d g e, nonempty d -> nx3 d = 1%Z \/ good_emf d g e -> good_emf d g (corner_copies d e).
Proof.
  intros d g e [[N1 [N2 N3]] ND] H. unfold corner_copies.
  destruct (Z.eqb_spec (nx2 d) 1) as [n2|n2].
  - specialize (ND n2). assert (E1 : je d = js d) by (unfold nx2 in n2; lia). assert (E2 : ke d = ks d) by (unfold nx3 in ND; lia).
    split; cbn [x1 x2 x3]; try (intros; lia).
    + intros _ i Hi. rewrite !E1, Z.eqb_refl, Z.eqb_refl, (proj2 (Z.eqb_neq (js d) (js d + 1))) by lia. rewrite within_true by lia. reflexivity.
    + intros _ j i Hj Hi. assert (j = js d) by lia; subst j. rewrite !E2, !Z.eqb_refl, (proj2 (Z.eqb_neq (ks d) (ks d + 1))) by lia. rewrite within_true by lia. reflexivity.
  - destruct (Z.eqb_spec (nx3 d) 1) as [n3|n3]; [|destruct H; [lia|assumption]].
    assert (E2 : ke d = ks d) by (unfold nx3 in n3; lia).
    split; cbn [x1 x2 x3]; try (intros; lia).
    + intros _ j i Hj Hi. rewrite !E2, !Z.eqb_refl, (proj2 (Z.eqb_neq (ks d) (ks d + 1))) by lia. rewrite !within_true by lia. reflexivity.
    + intros _ _ j i Hj Hi. rewrite !E2, !Z.eqb_refl, (proj2 (Z.eqb_neq (ks d) (ks d + 1))) by lia. rewrite !within_true by lia. reflexivity.
Qed.
