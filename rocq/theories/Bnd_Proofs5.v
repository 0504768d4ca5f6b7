(** Consequences of the fill: active cells, divergence of the ghost field, closed walls. *)
From Coq Require Import List ZArith Reals Bool Lia Lra.
From Verif Require Import Bnd_Model Bnd_Spec Bnd_Proofs Bnd_Proofs2 Bnd_Proofs3 Bnd_Proofs4.
Import ListNotations.
Local Open Scope Z_scope.

Lemma met_in : forall f1 f2 lo hi i, lo <= i <= hi -> met f1 f2 lo hi i = Comm.
Proof.
  intros. unfold met. replace (i <? lo) with false by (symmetry; apply Z.ltb_ge; lia).
  replace (hi <? i) with false by (symmetry; apply Z.ltb_ge; lia). reflexivity.
Qed.
Lemma image_in : forall f1 f2 lo hi i, lo <= i <= hi -> image f1 f2 lo hi i = i.
Proof.
  intros. unfold image. replace (i <? lo) with false by (symmetry; apply Z.ltb_ge; lia).
  replace (hi <? i) with false by (symmetry; apply Z.ltb_ge; lia). reflexivity.
Qed.
Lemma face_image_in : forall f1 f2 lo hi i, lo <= i <= hi + 1 -> face_image f1 f2 lo hi i = i.
Proof.
  intros. unfold face_image. replace (i <? lo) with false by (symmetry; apply Z.ltb_ge; lia).
  replace (hi + 1 <? i) with false by (symmetry; apply Z.ltb_ge; lia). reflexivity.
Qed.

Lemma promised_active : forall g a ax n k j i, active g k j i -> promised g a ax n k j i = a (n, k, j, i).
Proof.
  intros g a ax n k j i (Hi & Hj & Hk). unfold promised.
  destruct (x2_flags g) as (i2, o2), (x3_flags g) as (i3, o3).
  rewrite !met_in, !image_in by assumption. cbn [mirror_sign]. ring.
Qed.

Lemma promised_face_active : forall g a n k j i, active_face g n k j i -> pole_face g n j = false ->
  promised_face g a n k j i = a (n, k, j, i).
Proof.
  intros g a n k j i (Hi & Hj & Hk) P. unfold promised_face. rewrite P.
  destruct (x2_flags g) as (i2, o2), (x3_flags g) as (i3, o3).
  rewrite !met_in by assumption. cbn [mirror_sign].
  destruct (n =? 0); destruct (n =? 1); destruct (n =? 2);
    rewrite ?image_in, ?face_image_in by lia; ring.
Qed.

(** ** Mirror images of cells and faces *)
(** along one axis: the two faces of a ghost cell show the two faces of its image, swapped
    and with opposite sign if the axis mirrors it *)
Lemma pair_normal : forall (A B ar ar' : Z -> R) f1 f2 lo hi i,
  mirrors f1 -> mirrors f2 -> lo <= hi ->
  (f1 = Reflect -> A lo = 0%R) -> (f2 = Reflect -> A (hi + 1) = 0%R) ->
  (forall z, z = i \/ z = i + 1 -> ar z = ar' (face_image f1 f2 lo hi z)) ->
  (forall z, z = i \/ z = i + 1 ->
     B z = (match met f1 f2 lo (hi + 1) z with Reflect => -1 | _ => 1 end * A (face_image f1 f2 lo hi z))%R) ->
  (ar (i + 1)%Z * B (i + 1)%Z - ar i * B i =
   ar' (image f1 f2 lo hi i + 1)%Z * A (image f1 f2 lo hi i + 1)%Z - ar' (image f1 f2 lo hi i) * A (image f1 f2 lo hi i))%R.
Proof.
  intros A B ar ar' f1 f2 lo hi i M1 M2 L W1 W2 HA HB.
  rewrite (HB i), (HB (i + 1)), (HA i), (HA (i + 1)) by auto. clear HA HB.
  unfold met, face_image, image.
  destruct (Z.ltb_spec i lo).
  - assert (Hi : hi <? i = false) by (apply Z.ltb_ge; lia).
    destruct (Z.ltb_spec (i + 1) lo).
    + destruct M1 as [-> | ->].
      * replace (2 * lo - 1 - i + 1) with (2 * lo - i) by lia.
        replace (2 * lo - (i + 1)) with (2 * lo - 1 - i) by lia. ring.
      * ring.
    + replace (hi + 1 <? i + 1) with false by (symmetry; apply Z.ltb_ge; lia).
      assert (E : i = lo - 1) by lia. subst i.
      destruct M1 as [-> | ->].
      * specialize (W1 eq_refl).
        replace (lo - 1 + 1) with lo by lia. replace (2 * lo - (lo - 1)) with (lo + 1) by lia.
        replace (2 * lo - 1 - (lo - 1)) with lo by lia. rewrite W1. ring.
      * ring.
  - replace (i + 1 <? lo) with false by (symmetry; apply Z.ltb_ge; lia).
    destruct (Z.ltb_spec hi i).
    + replace (hi + 1 <? i + 1) with true by (symmetry; apply Z.ltb_lt; lia).
      destruct (Z.ltb_spec (hi + 1) i).
      * destruct M2 as [-> | ->].
        -- replace (2 * hi + 1 - i + 1) with (2 * (hi + 1) - i) by lia.
           replace (2 * (hi + 1) - (i + 1)) with (2 * hi + 1 - i) by lia. ring.
        -- ring.
      * assert (E : i = hi + 1) by lia. subst i.
        destruct M2 as [-> | ->].
        -- specialize (W2 eq_refl).
           replace (2 * hi + 1 - (hi + 1) + 1) with (hi + 1) by lia.
           replace (2 * (hi + 1) - (hi + 1 + 1)) with hi by lia.
           replace (2 * hi + 1 - (hi + 1)) with hi by lia. rewrite W2. ring.
        -- ring.
    + replace (hi + 1 <? i + 1) with false by (symmetry; apply Z.ltb_ge; lia).
      replace (hi + 1 <? i) with false by (symmetry; apply Z.ltb_ge; lia). ring.
Qed.

Lemma mirrors_met : forall f1 f2 lo hi i, mirrors f1 -> mirrors f2 -> mirrors (met f1 f2 lo hi i).
Proof.
  intros. unfold met. destruct (_ <? _); [assumption|]. destruct (_ <? _); [assumption|right; reflexivity].
Qed.

Lemma sign_other : forall m ax f, mirrors f -> ax <> m -> mirror_sign m ax f = 1%R.
Proof.
  intros m ax f [-> | ->] D; cbn [mirror_sign]; [|reflexivity].
  destruct (Z.eqb_spec ax m); [contradiction|reflexivity].
Qed.
Lemma sign_own : forall m f, mirrors f ->
  mirror_sign m m f = match f with Reflect => (-1)%R | _ => 1%R end.
Proof. intros m f [-> | ->]; cbn [mirror_sign]; [rewrite Z.eqb_refl|]; reflexivity. Qed.

Theorem mirrored_divergence : forall g a b ar k j i, wf g ->
  (forall f, mirrors (bcs g f)) -> walls_closed g a -> symmetric_areas g ar ->
  (forall n k j i, in_face_array g n k j i -> b (n, k, j, i) = promised_face g a n k j i) ->
  in_array g k j i ->
  out_flux ar b k j i = let '(k', j', i') := image_cell g k j i in out_flux ar a k' j' i'.
Proof.
  intros g a b ar k j i (G0 & GS & G1 & G2 & G3) M (W1 & W2 & W3 & W4 & W5 & W6) SA HB (Hi & Hj & Hk).
  unfold symmetric_areas in SA. unfold promised_face in HB. unfold image_cell.
  assert (PF : forall n z, pole_face g n z = false).
  { intros n z. unfold pole_face. destruct (x2_flags g) as (i2, o2) eqn:E2.
    unfold x2_flags in E2. destruct (f2 g); injection E2 as <- <-.
    - destruct (M inner_x2) as [-> | ->], (M outer_x2) as [-> | ->]; cbn [orb]; apply andb_false_r.
    - cbn [orb]. apply andb_false_r. }
  assert (X2 : exists i2 o2, x2_flags g = (i2, o2) /\ mirrors i2 /\ mirrors o2 /\
    (i2 = Reflect -> forall k i, a (1, k, b_js g, i) = 0%R) /\
    (o2 = Reflect -> forall k i, a (1, k, b_je g + 1, i) = 0%R)).
  { unfold x2_flags. destruct (f2 g).
    - exists (bcs g inner_x2), (bcs g outer_x2). auto.
    - exists Comm, Comm. repeat split; try (right; reflexivity); discriminate. }
  assert (X3 : exists i3 o3, x3_flags g = (i3, o3) /\ mirrors i3 /\ mirrors o3 /\
    (i3 = Reflect -> forall j i, a (2, b_ks g, j, i) = 0%R) /\
    (o3 = Reflect -> forall j i, a (2, b_ke g + 1, j, i) = 0%R)).
  { unfold x3_flags. destruct (f3 g).
    - exists (bcs g inner_x3), (bcs g outer_x3). auto.
    - exists Comm, Comm. repeat split; try (right; reflexivity); discriminate. }
  destruct X2 as (i2 & o2 & E2 & M2 & M2' & V1 & V2).
  destruct X3 as (i3 & o3 & E3 & M3 & M3' & V3 & V4).
  rewrite E2, E3 in *.
  set (i1 := bcs g inner_x1) in *. set (o1 := bcs g outer_x1) in *.
  assert (M1 : mirrors i1) by apply M. assert (M1' : mirrors o1) by apply M.
  assert (J : b_js g <= b_je g) by (destruct (f2 g); lia).
  assert (K : b_ks g <= b_ke g) by (destruct (f3 g); [destruct G3|]; lia).
  assert (IF : forall n z y x, n = 0 /\ z = k /\ y = j /\ (x = i \/ x = i + 1) \/
     n = 1 /\ z = k /\ (y = j \/ y = j + 1) /\ x = i \/
     n = 2 /\ (z = k \/ z = k + 1) /\ y = j /\ x = i -> in_face_array g n z y x).
  { intros n z y x H. unfold in_face_array.
    destruct H as [(-> & -> & -> & H)|[(-> & -> & H & ->)|(-> & H & -> & ->)]]; cbn [Z.eqb Pos.eqb];
      destruct (f2 g); destruct (f3 g); destruct H as [-> | ->]; lia. }
  unfold out_flux. f_equal; [f_equal|].
  - refine (pair_normal (fun z => a (0, image i3 o3 (b_ks g) (b_ke g) k, image i2 o2 (b_js g) (b_je g) j, z))
      (fun z => b (0, k, j, z)) (fun z => ar 0 k j z)
      (fun z => ar 0 (image i3 o3 (b_ks g) (b_ke g) k) (image i2 o2 (b_js g) (b_je g) j) z)
      i1 o1 (b_is g) (b_ie g) i M1 M1' ltac:(lia) (fun H => W1 H _ _) (fun H => W2 H _ _) _ _).
    + intros z Hz. rewrite SA by (apply IF; tauto). reflexivity.
    + intros z Hz. rewrite HB by (apply IF; tauto). rewrite PF. cbn [Z.eqb Pos.eqb].
      rewrite (sign_other 2), (sign_other 3) by (try apply mirrors_met; (assumption || discriminate)).
      change (field_axis 0) with 1. rewrite sign_own by (apply mirrors_met; assumption). ring.
  - refine (pair_normal (fun z => a (1, image i3 o3 (b_ks g) (b_ke g) k, z, image i1 o1 (b_is g) (b_ie g) i))
      (fun z => b (1, k, z, i)) (fun z => ar 1 k z i)
      (fun z => ar 1 (image i3 o3 (b_ks g) (b_ke g) k) z (image i1 o1 (b_is g) (b_ie g) i))
      i2 o2 (b_js g) (b_je g) j M2 M2' ltac:(lia) (fun H => V1 H _ _) (fun H => V2 H _ _) _ _).
    + intros z Hz. rewrite SA by (apply IF; tauto). reflexivity.
    + intros z Hz. rewrite HB by (apply IF; tauto). rewrite PF. cbn [Z.eqb Pos.eqb].
      rewrite (sign_other 1), (sign_other 3) by (try apply mirrors_met; (assumption || discriminate)).
      change (field_axis 1) with 2. rewrite sign_own by (apply mirrors_met; assumption). ring.
  - refine (pair_normal (fun z => a (2, z, image i2 o2 (b_js g) (b_je g) j, image i1 o1 (b_is g) (b_ie g) i))
      (fun z => b (2, z, j, i)) (fun z => ar 2 z j i)
      (fun z => ar 2 z (image i2 o2 (b_js g) (b_je g) j) (image i1 o1 (b_is g) (b_ie g) i))
      i3 o3 (b_ks g) (b_ke g) k M3 M3' ltac:(lia) (fun H => V3 H _ _) (fun H => V4 H _ _) _ _).
    + intros z Hz. rewrite SA by (apply IF; tauto). reflexivity.
    + intros z Hz. rewrite HB by (apply IF; tauto). rewrite PF. cbn [Z.eqb Pos.eqb].
      rewrite (sign_other 1), (sign_other 2) by (try apply mirrors_met; (assumption || discriminate)).
      change (field_axis 2) with 3. rewrite sign_own by (apply mirrors_met; assumption). ring.
Qed.
