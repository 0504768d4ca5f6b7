(** The two boundaries of one axis, then the three axes in sequence. *)
From Coq Require Import List ZArith Reals Bool Lia.
From Verif Require Import Bnd_Model Bnd_Spec Bnd_Proofs.
Import ListNotations.
Local Open Scope Z_scope.

Lemma inb_no : forall lo hi x, ~ (lo <= x <= hi) -> inb lo hi x = false.
Proof. intros lo hi x H. destruct (inb lo hi x) eqn:E; [|reflexivity].
  apply inb_true in E. contradiction. Qed.

Definition run (v : var) (bc : flag) (fc : face) (il iu jl ju kl ku ngh : Z) (a : cells) : cells :=
  match Dispatch v bc fc il iu jl ju kl ku ngh with Some l => exec l a | None => a end.

(** axis of a component of a cell-centred variable *)
Definition axis_of (v : var) (n : Z) : Z :=
  match v with Hydro => hydro_axis n | _ => 0 end.

Definition is_cc (v : var) : Prop := match v with Field => False | _ => True end.

Lemma refl_sign_mirror : forall v m n, is_cc v -> 0 <= n <= nu_of v ->
  m = 1 \/ m = 2 \/ m = 3 ->
  refl_sign v m n = mirror_sign m (axis_of v n) Reflect.
Proof.
  intros v m n C Hn Hm. destruct v; cbn [is_cc] in C; try contradiction; cbn [nu_of] in Hn.
  - cbn [refl_sign axis_of mirror_sign]. unfold neg_at, hydro_axis.
    assert (D : n = 0 \/ n = 1 \/ n = 2 \/ n = 3 \/ n = 4) by lia.
    destruct D as [->|[->|[->|[->| ->]]]]; destruct Hm as [->|[->| ->]]; reflexivity.
  - cbn [refl_sign axis_of mirror_sign]. unfold plain.
    destruct Hm as [->|[->| ->]]; reflexivity.
Qed.

Lemma pole_sign_mirror : forall v n, is_cc v -> 0 <= n <= nu_of v ->
  sign_of (pole_flip v n) = mirror_sign 2 (axis_of v n) PolarWedge.
Proof.
  intros v n C Hn. destruct v; cbn [is_cc] in C; try contradiction; cbn [nu_of] in Hn.
  - cbn [pole_flip axis_of mirror_sign]. unfold hydro_axis.
    assert (D : n = 0 \/ n = 1 \/ n = 2 \/ n = 3 \/ n = 4) by lia.
    destruct D as [->|[->|[->|[->| ->]]]]; reflexivity.
  - reflexivity.
Qed.

Ltac decide_inb :=
  repeat match goal with
  | |- context [inb ?lo ?hi ?x] =>
      first [ rewrite (inb_yes lo hi x) by lia | rewrite (inb_no lo hi x) by lia ]
  end; cbn [andb].

Ltac decide_ltb :=
  repeat match goal with
  | |- context [?a <? ?b] => destruct (Z.ltb_spec a b); try lia
  end.

Lemma mul1 : forall x : R, (1 * x)%R = x. Proof. intro. ring. Qed.

(** closed form of one boundary function on a cell-centred variable: the part of the
    result at an element of component [n], as a function of the position along the axis *)
Definition lower (f : flag) (lo i : Z) : Z :=
  match f with Comm => i | Outflow => lo | Reflect | PolarWedge => 2 * lo - 1 - i end.
Definition upper (f : flag) (hi i : Z) : Z :=
  match f with Comm => i | Outflow => hi | Reflect | PolarWedge => 2 * hi + 1 - i end.

Lemma run_inner_x1 : forall v f il iu jl ju kl ku ngh a n k j i, is_cc v -> f <> PolarWedge ->
  0 <= n <= nu_of v ->
  run v f inner_x1 il iu jl ju kl ku ngh a (n, k, j, i) =
  if inb kl ku k && inb jl ju j && inb (il - ngh) (il - 1) i
  then (mirror_sign 1 (axis_of v n) f * a (n, k, j, lower f il i))%R else a (n, k, j, i).
Proof.
  intros v f il iu jl ju kl ku ngh a n k j i C F Hn.
  pose proof (refl_sign_mirror v 1 n C Hn (or_introl eq_refl)) as S.
  unfold run. destruct f; try contradiction.
  - cbn [Dispatch]. cbn [exec fold_left mirror_sign lower].
    change (exec [] a (n, k, j, i)) with (a (n, k, j, i)).
    destruct (_ && _); [symmetry; apply mul1|reflexivity].
  - replace (Dispatch v Reflect inner_x1 il iu jl ju kl ku ngh)
      with (Some (ReflectInnerX1 (refl_sign v IVX) (nu_of v) il jl ju kl ku ngh))
      by (destruct v; [reflexivity|reflexivity|contradiction]).
    rewrite exec_ReflectInnerX1, (inb_yes _ _ _ Hn). cbn [andb]. unfold IVX. rewrite S.
    reflexivity.
  - replace (Dispatch v Outflow inner_x1 il iu jl ju kl ku ngh)
      with (Some (OutflowInnerX1 (nu_of v) il jl ju kl ku ngh))
      by (destruct v; [reflexivity|reflexivity|contradiction]).
    rewrite exec_OutflowInnerX1, (inb_yes _ _ _ Hn). reflexivity.
Qed.

Lemma run_outer_x1 : forall v f il iu jl ju kl ku ngh a n k j i, is_cc v -> f <> PolarWedge ->
  0 <= n <= nu_of v ->
  run v f outer_x1 il iu jl ju kl ku ngh a (n, k, j, i) =
  if inb kl ku k && inb jl ju j && inb (iu + 1) (iu + ngh) i
  then (mirror_sign 1 (axis_of v n) f * a (n, k, j, upper f iu i))%R else a (n, k, j, i).
Proof.
  intros v f il iu jl ju kl ku ngh a n k j i C F Hn.
  pose proof (refl_sign_mirror v 1 n C Hn (or_introl eq_refl)) as S.
  unfold run. destruct f; try contradiction.
  - cbn [Dispatch]. cbn [exec fold_left mirror_sign upper].
    change (exec [] a (n, k, j, i)) with (a (n, k, j, i)).
    destruct (_ && _); [symmetry; apply mul1|reflexivity].
  - replace (Dispatch v Reflect outer_x1 il iu jl ju kl ku ngh)
      with (Some (ReflectOuterX1 (refl_sign v IVX) (nu_of v) iu jl ju kl ku ngh))
      by (destruct v; [reflexivity|reflexivity|contradiction]).
    rewrite exec_ReflectOuterX1, (inb_yes _ _ _ Hn). cbn [andb]. unfold IVX. rewrite S.
    reflexivity.
  - replace (Dispatch v Outflow outer_x1 il iu jl ju kl ku ngh)
      with (Some (OutflowOuterX1 (nu_of v) iu jl ju kl ku ngh))
      by (destruct v; [reflexivity|reflexivity|contradiction]).
    rewrite exec_OutflowOuterX1, (inb_yes _ _ _ Hn). reflexivity.
Qed.

Lemma run_inner_x2 : forall v f il iu jl ju kl ku ngh a n k j i, is_cc v ->
  0 <= n <= nu_of v ->
  run v f inner_x2 il iu jl ju kl ku ngh a (n, k, j, i) =
  if inb kl ku k && inb (jl - ngh) (jl - 1) j && inb il iu i
  then (mirror_sign 2 (axis_of v n) f * a (n, k, lower f jl j, i))%R else a (n, k, j, i).
Proof.
  intros v f il iu jl ju kl ku ngh a n k j i C Hn.
  pose proof (refl_sign_mirror v 2 n C Hn (or_intror (or_introl eq_refl))) as S.
  unfold run. destruct f.
  - cbn [Dispatch]. cbn [exec fold_left mirror_sign lower].
    change (exec [] a (n, k, j, i)) with (a (n, k, j, i)).
    destruct (_ && _); [symmetry; apply mul1|reflexivity].
  - replace (Dispatch v Reflect inner_x2 il iu jl ju kl ku ngh)
      with (Some (ReflectInnerX2 (refl_sign v IVY) (nu_of v) il iu jl kl ku ngh))
      by (destruct v; [reflexivity|reflexivity|contradiction]).
    rewrite exec_ReflectInnerX2, (inb_yes _ _ _ Hn). cbn [andb]. unfold IVY. rewrite S.
    reflexivity.
  - replace (Dispatch v Outflow inner_x2 il iu jl ju kl ku ngh)
      with (Some (OutflowInnerX2 (nu_of v) il iu jl kl ku ngh))
      by (destruct v; [reflexivity|reflexivity|contradiction]).
    rewrite exec_OutflowInnerX2, (inb_yes _ _ _ Hn). reflexivity.
  - replace (Dispatch v PolarWedge inner_x2 il iu jl ju kl ku ngh)
      with (Some (PolarWedgeInnerX2 (pole_flip v) (nu_of v) il iu jl kl ku ngh))
      by (destruct v; [reflexivity|reflexivity|contradiction]).
    rewrite exec_PolarWedgeInnerX2, (inb_yes _ _ _ Hn). cbn [andb].
    rewrite (pole_sign_mirror v n C Hn). reflexivity.
Qed.

Lemma run_outer_x2 : forall v f il iu jl ju kl ku ngh a n k j i, is_cc v ->
  0 <= n <= nu_of v ->
  run v f outer_x2 il iu jl ju kl ku ngh a (n, k, j, i) =
  if inb kl ku k && inb (ju + 1) (ju + ngh) j && inb il iu i
  then (mirror_sign 2 (axis_of v n) f * a (n, k, upper f ju j, i))%R else a (n, k, j, i).
Proof.
  intros v f il iu jl ju kl ku ngh a n k j i C Hn.
  pose proof (refl_sign_mirror v 2 n C Hn (or_intror (or_introl eq_refl))) as S.
  unfold run. destruct f.
  - cbn [Dispatch]. cbn [exec fold_left mirror_sign upper].
    change (exec [] a (n, k, j, i)) with (a (n, k, j, i)).
    destruct (_ && _); [symmetry; apply mul1|reflexivity].
  - replace (Dispatch v Reflect outer_x2 il iu jl ju kl ku ngh)
      with (Some (ReflectOuterX2 (refl_sign v IVY) (nu_of v) il iu ju kl ku ngh))
      by (destruct v; [reflexivity|reflexivity|contradiction]).
    rewrite exec_ReflectOuterX2, (inb_yes _ _ _ Hn). cbn [andb]. unfold IVY. rewrite S.
    reflexivity.
  - replace (Dispatch v Outflow outer_x2 il iu jl ju kl ku ngh)
      with (Some (OutflowOuterX2 (nu_of v) il iu ju kl ku ngh))
      by (destruct v; [reflexivity|reflexivity|contradiction]).
    rewrite exec_OutflowOuterX2, (inb_yes _ _ _ Hn). reflexivity.
  - replace (Dispatch v PolarWedge outer_x2 il iu jl ju kl ku ngh)
      with (Some (PolarWedgeOuterX2 (pole_flip v) (nu_of v) il iu ju kl ku ngh))
      by (destruct v; [reflexivity|reflexivity|contradiction]).
    rewrite exec_PolarWedgeOuterX2, (inb_yes _ _ _ Hn). cbn [andb].
    rewrite (pole_sign_mirror v n C Hn). reflexivity.
Qed.

Lemma run_inner_x3 : forall v f il iu jl ju kl ku ngh a n k j i, is_cc v -> f <> PolarWedge ->
  0 <= n <= nu_of v ->
  run v f inner_x3 il iu jl ju kl ku ngh a (n, k, j, i) =
  if inb (kl - ngh) (kl - 1) k && inb jl ju j && inb il iu i
  then (mirror_sign 3 (axis_of v n) f * a (n, lower f kl k, j, i))%R else a (n, k, j, i).
Proof.
  intros v f il iu jl ju kl ku ngh a n k j i C F Hn.
  pose proof (refl_sign_mirror v 3 n C Hn (or_intror (or_intror eq_refl))) as S.
  unfold run. destruct f; try contradiction.
  - cbn [Dispatch]. cbn [exec fold_left mirror_sign lower].
    change (exec [] a (n, k, j, i)) with (a (n, k, j, i)).
    destruct (_ && _); [symmetry; apply mul1|reflexivity].
  - replace (Dispatch v Reflect inner_x3 il iu jl ju kl ku ngh)
      with (Some (ReflectInnerX3 (refl_sign v IVZ) (nu_of v) il iu jl ju kl ngh))
      by (destruct v; [reflexivity|reflexivity|contradiction]).
    rewrite exec_ReflectInnerX3, (inb_yes _ _ _ Hn). cbn [andb]. unfold IVZ. rewrite S.
    reflexivity.
  - replace (Dispatch v Outflow inner_x3 il iu jl ju kl ku ngh)
      with (Some (OutflowInnerX3 (nu_of v) il iu jl ju kl ngh))
      by (destruct v; [reflexivity|reflexivity|contradiction]).
    rewrite exec_OutflowInnerX3, (inb_yes _ _ _ Hn). reflexivity.
Qed.

Lemma run_outer_x3 : forall v f il iu jl ju kl ku ngh a n k j i, is_cc v -> f <> PolarWedge ->
  0 <= n <= nu_of v ->
  run v f outer_x3 il iu jl ju kl ku ngh a (n, k, j, i) =
  if inb (ku + 1) (ku + ngh) k && inb jl ju j && inb il iu i
  then (mirror_sign 3 (axis_of v n) f * a (n, upper f ku k, j, i))%R else a (n, k, j, i).
Proof.
  intros v f il iu jl ju kl ku ngh a n k j i C F Hn.
  pose proof (refl_sign_mirror v 3 n C Hn (or_intror (or_intror eq_refl))) as S.
  unfold run. destruct f; try contradiction.
  - cbn [Dispatch]. cbn [exec fold_left mirror_sign upper].
    change (exec [] a (n, k, j, i)) with (a (n, k, j, i)).
    destruct (_ && _); [symmetry; apply mul1|reflexivity].
  - replace (Dispatch v Reflect outer_x3 il iu jl ju kl ku ngh)
      with (Some (ReflectOuterX3 (refl_sign v IVZ) (nu_of v) il iu jl ju ku ngh))
      by (destruct v; [reflexivity|reflexivity|contradiction]).
    rewrite exec_ReflectOuterX3, (inb_yes _ _ _ Hn). cbn [andb]. unfold IVZ. rewrite S.
    reflexivity.
  - replace (Dispatch v Outflow outer_x3 il iu jl ju kl ku ngh)
      with (Some (OutflowOuterX3 (nu_of v) il iu jl ju ku ngh))
      by (destruct v; [reflexivity|reflexivity|contradiction]).
    rewrite exec_OutflowOuterX3, (inb_yes _ _ _ Hn). reflexivity.
Qed.

(** ** Face-centred field *)
Definition lowerf (d : Z) (f : flag) (lo i : Z) : Z :=
  match f with Comm => i | Outflow => lo | Reflect | PolarWedge => 2 * lo - 1 + d - i end.
Definition upperf (d : Z) (f : flag) (hi i : Z) : Z :=
  match f with Comm => i | Outflow => hi + d | Reflect | PolarWedge => 2 * hi + 1 + d - i end.

Lemma frefl_sign : forall m n, 0 <= n <= 2 -> m = 0 \/ m = 1 \/ m = 2 ->
  (if n =? m then (-1)%R else 1%R) = mirror_sign (m + 1) (field_axis n) Reflect.
Proof.
  intros m n Hn Hm. assert (D : n = 0 \/ n = 1 \/ n = 2) by lia.
  destruct D as [->|[->| ->]]; destruct Hm as [->|[->| ->]]; reflexivity.
Qed.
Lemma fpole_sign : forall n, 0 <= n <= 2 ->
  sign_of (flip_across_pole_field n) = mirror_sign 2 (field_axis n) PolarWedge.
Proof.
  intros n Hn. assert (D : n = 0 \/ n = 1 \/ n = 2) by lia.
  destruct D as [->|[->| ->]]; reflexivity.
Qed.

Lemma frun_inner_x1 : forall f il iu jl ju kl ku ngh a n k j i, f <> PolarWedge ->
  0 <= n <= 2 ->
  run Field f inner_x1 il iu jl ju kl ku ngh a (n, k, j, i) =
  if inb kl (ku + al 2 n) k && inb jl (ju + al 1 n) j && inb (il - ngh) (il - 1) i
  then (mirror_sign 1 (field_axis n) f * a (n, k, j, lowerf (al 0 n) f il i))%R else a (n, k, j, i).
Proof.
  intros f il iu jl ju kl ku ngh a n k j i F Hn.
  pose proof (frefl_sign 0 n Hn ltac:(lia)) as S. cbn [Z.add Pos.add] in S.
  unfold run. destruct f; try contradiction; cbn [Dispatch].
  - change (exec [] a (n, k, j, i)) with (a (n, k, j, i)).
    destruct (_ && _); cbn [mirror_sign lowerf upperf]; [symmetry; apply mul1|reflexivity].
  - rewrite exec_FReflectInnerX1, (inb_yes _ _ _ Hn), S. reflexivity.
  - rewrite exec_FOutflowInnerX1, (inb_yes _ _ _ Hn). reflexivity.
Qed.

Lemma frun_outer_x1 : forall f il iu jl ju kl ku ngh a n k j i, f <> PolarWedge ->
  0 <= n <= 2 ->
  run Field f outer_x1 il iu jl ju kl ku ngh a (n, k, j, i) =
  if inb kl (ku + al 2 n) k && inb jl (ju + al 1 n) j && inb (iu + 1 + al 0 n) (iu + ngh + al 0 n) i
  then (mirror_sign 1 (field_axis n) f * a (n, k, j, upperf (al 0 n) f iu i))%R else a (n, k, j, i).
Proof.
  intros f il iu jl ju kl ku ngh a n k j i F Hn.
  pose proof (frefl_sign 0 n Hn ltac:(lia)) as S. cbn [Z.add Pos.add] in S.
  unfold run. destruct f; try contradiction; cbn [Dispatch].
  - change (exec [] a (n, k, j, i)) with (a (n, k, j, i)).
    destruct (_ && _); cbn [mirror_sign lowerf upperf]; [symmetry; apply mul1|reflexivity].
  - rewrite exec_FReflectOuterX1, (inb_yes _ _ _ Hn), S. reflexivity.
  - rewrite exec_FOutflowOuterX1, (inb_yes _ _ _ Hn). reflexivity.
Qed.

Lemma frun_inner_x2 : forall f il iu jl ju kl ku ngh a n k j i,
  0 <= n <= 2 ->
  run Field f inner_x2 il iu jl ju kl ku ngh a (n, k, j, i) =
  if match f with PolarWedge => (n =? 1) && inb kl ku k && inb il iu i && (j =? jl) | _ => false end
  then 0%R else
  if inb kl (ku + al 2 n) k && inb (jl - ngh) (jl - 1) j && inb il (iu + al 0 n) i
  then (mirror_sign 2 (field_axis n) f * a (n, k, lowerf (al 1 n) f jl j, i))%R else a (n, k, j, i).
Proof.
  intros f il iu jl ju kl ku ngh a n k j i Hn.
  pose proof (frefl_sign 1 n Hn ltac:(lia)) as S. cbn [Z.add Pos.add] in S.
  unfold run. destruct f; cbn [Dispatch].
  - change (exec [] a (n, k, j, i)) with (a (n, k, j, i)).
    destruct (_ && _); cbn [mirror_sign lowerf upperf]; [symmetry; apply mul1|reflexivity].
  - rewrite exec_FReflectInnerX2, (inb_yes _ _ _ Hn), S. reflexivity.
  - rewrite exec_FOutflowInnerX2, (inb_yes _ _ _ Hn). reflexivity.
  - rewrite exec_FPolarWedgeInnerX2, (inb_yes _ _ _ Hn), (fpole_sign n Hn). reflexivity.
Qed.

Lemma frun_outer_x2 : forall f il iu jl ju kl ku ngh a n k j i,
  0 <= n <= 2 ->
  run Field f outer_x2 il iu jl ju kl ku ngh a (n, k, j, i) =
  if match f with PolarWedge => (n =? 1) && inb kl ku k && inb il iu i && (j =? ju + 1) | _ => false end
  then 0%R else
  if inb kl (ku + al 2 n) k && inb (ju + 1 + al 1 n) (ju + ngh + al 1 n) j && inb il (iu + al 0 n) i
  then (mirror_sign 2 (field_axis n) f * a (n, k, upperf (al 1 n) f ju j, i))%R else a (n, k, j, i).
Proof.
  intros f il iu jl ju kl ku ngh a n k j i Hn.
  pose proof (frefl_sign 1 n Hn ltac:(lia)) as S. cbn [Z.add Pos.add] in S.
  unfold run. destruct f; cbn [Dispatch].
  - change (exec [] a (n, k, j, i)) with (a (n, k, j, i)).
    destruct (_ && _); cbn [mirror_sign lowerf upperf]; [symmetry; apply mul1|reflexivity].
  - rewrite exec_FReflectOuterX2, (inb_yes _ _ _ Hn), S. reflexivity.
  - rewrite exec_FOutflowOuterX2, (inb_yes _ _ _ Hn). reflexivity.
  - rewrite exec_FPolarWedgeOuterX2, (inb_yes _ _ _ Hn), (fpole_sign n Hn). reflexivity.
Qed.

Lemma frun_inner_x3 : forall f il iu jl ju kl ku ngh a n k j i, f <> PolarWedge ->
  0 <= n <= 2 ->
  run Field f inner_x3 il iu jl ju kl ku ngh a (n, k, j, i) =
  if inb (kl - ngh) (kl - 1) k && inb jl (ju + al 1 n) j && inb il (iu + al 0 n) i
  then (mirror_sign 3 (field_axis n) f * a (n, lowerf (al 2 n) f kl k, j, i))%R else a (n, k, j, i).
Proof.
  intros f il iu jl ju kl ku ngh a n k j i F Hn.
  pose proof (frefl_sign 2 n Hn ltac:(lia)) as S. cbn [Z.add Pos.add] in S.
  unfold run. destruct f; try contradiction; cbn [Dispatch].
  - change (exec [] a (n, k, j, i)) with (a (n, k, j, i)).
    destruct (_ && _); cbn [mirror_sign lowerf upperf]; [symmetry; apply mul1|reflexivity].
  - rewrite exec_FReflectInnerX3, (inb_yes _ _ _ Hn), S. reflexivity.
  - rewrite exec_FOutflowInnerX3, (inb_yes _ _ _ Hn). reflexivity.
Qed.

Lemma frun_outer_x3 : forall f il iu jl ju kl ku ngh a n k j i, f <> PolarWedge ->
  0 <= n <= 2 ->
  run Field f outer_x3 il iu jl ju kl ku ngh a (n, k, j, i) =
  if inb (ku + 1 + al 2 n) (ku + ngh + al 2 n) k && inb jl (ju + al 1 n) j && inb il (iu + al 0 n) i
  then (mirror_sign 3 (field_axis n) f * a (n, upperf (al 2 n) f ku k, j, i))%R else a (n, k, j, i).
Proof.
  intros f il iu jl ju kl ku ngh a n k j i F Hn.
  pose proof (frefl_sign 2 n Hn ltac:(lia)) as S. cbn [Z.add Pos.add] in S.
  unfold run. destruct f; try contradiction; cbn [Dispatch].
  - change (exec [] a (n, k, j, i)) with (a (n, k, j, i)).
    destruct (_ && _); cbn [mirror_sign lowerf upperf]; [symmetry; apply mul1|reflexivity].
  - rewrite exec_FReflectOuterX3, (inb_yes _ _ _ Hn), S. reflexivity.
  - rewrite exec_FOutflowOuterX3, (inb_yes _ _ _ Hn). reflexivity.
Qed.


(** ** Both boundaries of one axis *)
Definition img (d : Z) (inner outer : flag) (lo hi i : Z) : Z :=
  if i <? lo then lowerf d inner lo i else if hi + d <? i then upperf d outer hi i else i.

Lemma img_cell : forall i1 o1 lo hi i, img 0 i1 o1 lo hi i = image i1 o1 lo hi i.
Proof.
  intros. unfold img, image. rewrite Z.add_0_r.
  destruct (i <? lo); [destruct i1|destruct (hi <? i); [destruct o1|]]; cbn [lowerf upperf]; lia.
Qed.
Lemma img_face : forall i1 o1 lo hi i, img 1 i1 o1 lo hi i = face_image i1 o1 lo hi i.
Proof.
  intros. unfold img, face_image.
  destruct (i <? lo); [destruct i1|destruct (hi + 1 <? i); [destruct o1|]]; cbn [lowerf upperf]; lia.
Qed.
Lemma lowerf_0 : forall f lo i, lowerf 0 f lo i = lower f lo i.
Proof. intros. destruct f; cbn [lowerf lower]; lia. Qed.
Lemma upperf_0 : forall f hi i, upperf 0 f hi i = upper f hi i.
Proof. intros. destruct f; cbn [upperf upper]; lia. Qed.

Lemma sign_comm : forall m ax, mirror_sign m ax Comm = 1%R. Proof. reflexivity. Qed.
(** the line along one axis through an element, before ([A]), after the inner ([B]) and
    after the outer ([C]) boundary function *)
Lemma line : forall (A B C : Z -> R) (sg : flag -> R) (p1 p2 : bool) f1 f2 d lo hi ngh,
  d = 0 \/ d = 1 -> sg Comm = 1%R -> 1 <= ngh <= hi - lo + 1 ->
  (p1 = true -> d = 1 /\ ngh < hi - lo + 1) -> (p2 = true -> d = 1) ->
  (forall i, lo <= i -> i <= hi + d -> ~ (p1 = true /\ i = lo) -> B i = A i) ->
  (forall i, hi + d < i -> B i = A i) ->
  (p1 = true -> B lo = 0%R) ->
  (forall i, lo - ngh <= i < lo -> B i = (sg f1 * A (lowerf d f1 lo i))%R) ->
  (forall i, i <= hi + d -> ~ (p2 = true /\ i = hi + 1) -> C i = B i) ->
  (p2 = true -> C (hi + 1) = 0%R) ->
  (forall i, hi + d < i <= hi + ngh + d -> C i = (sg f2 * B (upperf d f2 hi i))%R) ->
  forall i, lo - ngh <= i <= hi + ngh + d ->
  C i = if (p1 && (i =? lo)) || (p2 && (i =? hi + 1)) then 0%R
        else (sg (met f1 f2 lo (hi + d) i) * A (img d f1 f2 lo hi i))%R.
Proof.
  intros A B C sg p1 p2 f1 f2 d lo hi ngh Hd S0 G P1 P2 B1 B2 B3 B4 C1 C2 C3 i Hi.
  destruct (p1 && (i =? lo)) eqn:E1.
  { cbn [orb]. apply andb_true_iff in E1. destruct E1 as [E1 Ei]. apply Z.eqb_eq in Ei. subst i.
    rewrite C1 by lia. auto. }
  destruct (p2 && (i =? hi + 1)) eqn:E2.
  { cbn [orb]. apply andb_true_iff in E2. destruct E2 as [E2 Ei]. apply Z.eqb_eq in Ei. subst i. auto. }
  cbn [orb].
  assert (N1 : ~ (p1 = true /\ i = lo)).
  { intros (-> & ->). rewrite Z.eqb_refl in E1. discriminate E1. }
  assert (N2 : ~ (p2 = true /\ i = hi + 1)).
  { intros (-> & ->). rewrite Z.eqb_refl in E2. discriminate E2. }
  unfold met, img. destruct (Z.ltb_spec i lo); [|destruct (Z.ltb_spec (hi + d) i)].
  - rewrite C1 by (lia || assumption). apply B4. lia.
  - rewrite C3 by lia. f_equal.
    destruct f2; cbn [upperf].
    + apply B2. lia.
    + apply B1; [lia|lia|]. intros (Ep & E). specialize (P1 Ep). lia.
    + destruct Hd as [-> | ->].
      * apply B1; [lia|lia|]. intros (Ep & E). specialize (P1 Ep). lia.
      * apply B1; [lia|lia|]. intros (Ep & E). specialize (P1 Ep). lia.
    + apply B1; [lia|lia|]. intros (Ep & E). specialize (P1 Ep). lia.
  - rewrite S0, Rmult_1_l. rewrite C1 by (lia || assumption). apply B1; try lia. assumption.
Qed.

Definition is_wedge (f : flag) : bool := match f with PolarWedge => true | _ => false end.

Lemma stage1 : forall v f1 f2 il iu jl ju kl ku ngh a n k j i, is_cc v ->
  f1 <> PolarWedge -> f2 <> PolarWedge ->
  0 <= n <= nu_of v -> 1 <= ngh <= iu - il + 1 ->
  il - ngh <= i <= iu + ngh ->
  run v f2 outer_x1 il iu jl ju kl ku ngh
    (run v f1 inner_x1 il iu jl ju kl ku ngh a) (n, k, j, i) =
  if inb kl ku k && inb jl ju j then
    (mirror_sign 1 (axis_of v n) (met f1 f2 il (iu + 0) i) * a (n, k, j, img 0 f1 f2 il iu i))%R
  else a (n, k, j, i).
Proof.
  intros v f1 f2 il iu jl ju kl ku ngh a n k j i C F1 F2 Hn G Hr.
  destruct (inb kl ku k && inb jl ju j) eqn:E.
  - apply andb_true_iff in E. destruct E as [E1 E2].
    pose proof (line (fun z => a (n, k, j, z))
      (fun z => (run v f1 inner_x1 il iu jl ju kl ku ngh a) (n, k, j, z))
      (fun z => (run v f2 outer_x1 il iu jl ju kl ku ngh (run v f1 inner_x1 il iu jl ju kl ku ngh a)) (n, k, j, z)) (mirror_sign 1 (axis_of v n)) false false f1 f2 0 il iu ngh) as L.
    cbn beta in L.
    cbn [andb orb] in L. apply L; clear L; [left; reflexivity|reflexivity|exact G|discriminate|discriminate|..].
    + intros z H1 H2 NP. rewrite run_inner_x1 by assumption. rewrite (inb_no (il - ngh)) by lia. rewrite ?andb_false_r. reflexivity.
    + intros z H1. rewrite run_inner_x1 by assumption. rewrite (inb_no (il - ngh)) by lia. rewrite ?andb_false_r. reflexivity.
    + discriminate.
    + intros z H1. rewrite run_inner_x1 by assumption. rewrite E1, E2, (inb_yes (il - ngh)) by lia. rewrite lowerf_0. reflexivity.
    + intros z H1 NP. rewrite run_outer_x1 by assumption. rewrite (inb_no (iu + 1)) by lia. rewrite ?andb_false_r. reflexivity.
    + discriminate.
    + intros z H1. rewrite run_outer_x1 by assumption. rewrite E1, E2, (inb_yes (iu + 1)) by lia. rewrite upperf_0. reflexivity.
    + lia.
  - rewrite run_outer_x1 by assumption.
    apply andb_false_iff in E. destruct E as [E|E]; rewrite !E, ?andb_false_r; cbn [andb]; rewrite ?andb_false_r;
      rewrite run_inner_x1 by assumption; rewrite !E, ?andb_false_r; cbn [andb]; rewrite ?andb_false_r; reflexivity.
Qed.

Lemma stage2 : forall v f1 f2 il iu jl ju kl ku ngh a n k j i, is_cc v ->
  0 <= n <= nu_of v -> 1 <= ngh <= ju - jl + 1 ->
  jl - ngh <= j <= ju + ngh ->
  run v f2 outer_x2 il iu jl ju kl ku ngh
    (run v f1 inner_x2 il iu jl ju kl ku ngh a) (n, k, j, i) =
  if inb kl ku k && inb il iu i then
    (mirror_sign 2 (axis_of v n) (met f1 f2 jl (ju + 0) j) * a (n, k, img 0 f1 f2 jl ju j, i))%R
  else a (n, k, j, i).
Proof.
  intros v f1 f2 il iu jl ju kl ku ngh a n k j i C Hn G Hr.
  destruct (inb kl ku k && inb il iu i) eqn:E.
  - apply andb_true_iff in E. destruct E as [E1 E2].
    pose proof (line (fun z => a (n, k, z, i))
      (fun z => (run v f1 inner_x2 il iu jl ju kl ku ngh a) (n, k, z, i))
      (fun z => (run v f2 outer_x2 il iu jl ju kl ku ngh (run v f1 inner_x2 il iu jl ju kl ku ngh a)) (n, k, z, i)) (mirror_sign 2 (axis_of v n)) false false f1 f2 0 jl ju ngh) as L.
    cbn beta in L.
    cbn [andb orb] in L. apply L; clear L; [left; reflexivity|reflexivity|exact G|discriminate|discriminate|..].
    + intros z H1 H2 NP. rewrite run_inner_x2 by assumption. rewrite (inb_no (jl - ngh)) by lia. rewrite ?andb_false_r. reflexivity.
    + intros z H1. rewrite run_inner_x2 by assumption. rewrite (inb_no (jl - ngh)) by lia. rewrite ?andb_false_r. reflexivity.
    + discriminate.
    + intros z H1. rewrite run_inner_x2 by assumption. rewrite E1, E2, (inb_yes (jl - ngh)) by lia. rewrite lowerf_0. reflexivity.
    + intros z H1 NP. rewrite run_outer_x2 by assumption. rewrite (inb_no (ju + 1)) by lia. rewrite ?andb_false_r. reflexivity.
    + discriminate.
    + intros z H1. rewrite run_outer_x2 by assumption. rewrite E1, E2, (inb_yes (ju + 1)) by lia. rewrite upperf_0. reflexivity.
    + lia.
  - rewrite run_outer_x2 by assumption.
    apply andb_false_iff in E. destruct E as [E|E]; rewrite !E, ?andb_false_r; cbn [andb]; rewrite ?andb_false_r;
      rewrite run_inner_x2 by assumption; rewrite !E, ?andb_false_r; cbn [andb]; rewrite ?andb_false_r; reflexivity.
Qed.

Lemma stage3 : forall v f1 f2 il iu jl ju kl ku ngh a n k j i, is_cc v ->
  f1 <> PolarWedge -> f2 <> PolarWedge ->
  0 <= n <= nu_of v -> 1 <= ngh <= ku - kl + 1 ->
  kl - ngh <= k <= ku + ngh ->
  run v f2 outer_x3 il iu jl ju kl ku ngh
    (run v f1 inner_x3 il iu jl ju kl ku ngh a) (n, k, j, i) =
  if inb jl ju j && inb il iu i then
    (mirror_sign 3 (axis_of v n) (met f1 f2 kl (ku + 0) k) * a (n, img 0 f1 f2 kl ku k, j, i))%R
  else a (n, k, j, i).
Proof.
  intros v f1 f2 il iu jl ju kl ku ngh a n k j i C F1 F2 Hn G Hr.
  destruct (inb jl ju j && inb il iu i) eqn:E.
  - apply andb_true_iff in E. destruct E as [E1 E2].
    pose proof (line (fun z => a (n, z, j, i))
      (fun z => (run v f1 inner_x3 il iu jl ju kl ku ngh a) (n, z, j, i))
      (fun z => (run v f2 outer_x3 il iu jl ju kl ku ngh (run v f1 inner_x3 il iu jl ju kl ku ngh a)) (n, z, j, i)) (mirror_sign 3 (axis_of v n)) false false f1 f2 0 kl ku ngh) as L.
    cbn beta in L.
    cbn [andb orb] in L. apply L; clear L; [left; reflexivity|reflexivity|exact G|discriminate|discriminate|..].
    + intros z H1 H2 NP. rewrite run_inner_x3 by assumption. rewrite (inb_no (kl - ngh)) by lia. rewrite ?andb_false_r. reflexivity.
    + intros z H1. rewrite run_inner_x3 by assumption. rewrite (inb_no (kl - ngh)) by lia. rewrite ?andb_false_r. reflexivity.
    + discriminate.
    + intros z H1. rewrite run_inner_x3 by assumption. rewrite E1, E2, (inb_yes (kl - ngh)) by lia. rewrite lowerf_0. reflexivity.
    + intros z H1 NP. rewrite run_outer_x3 by assumption. rewrite (inb_no (ku + 1)) by lia. rewrite ?andb_false_r. reflexivity.
    + discriminate.
    + intros z H1. rewrite run_outer_x3 by assumption. rewrite E1, E2, (inb_yes (ku + 1)) by lia. rewrite upperf_0. reflexivity.
    + lia.
  - rewrite run_outer_x3 by assumption.
    apply andb_false_iff in E. destruct E as [E|E]; rewrite !E, ?andb_false_r; cbn [andb]; rewrite ?andb_false_r;
      rewrite run_inner_x3 by assumption; rewrite !E, ?andb_false_r; cbn [andb]; rewrite ?andb_false_r; reflexivity.
Qed.

Lemma fstage1 : forall f1 f2 il iu jl ju kl ku ngh a n k j i,
  f1 <> PolarWedge -> f2 <> PolarWedge ->
  0 <= n <= 2 -> 1 <= ngh <= iu - il + 1 ->
  il - ngh <= i <= iu + ngh + al 0 n ->
  run Field f2 outer_x1 il iu jl ju kl ku ngh
    (run Field f1 inner_x1 il iu jl ju kl ku ngh a) (n, k, j, i) =
  if inb kl (ku + al 2 n) k && inb jl (ju + al 1 n) j then
    (mirror_sign 1 (field_axis n) (met f1 f2 il (iu + al 0 n) i) * a (n, k, j, img (al 0 n) f1 f2 il iu i))%R
  else a (n, k, j, i).
Proof.
  intros f1 f2 il iu jl ju kl ku ngh a n k j i F1 F2 Hn G Hr.
  destruct (inb kl (ku + al 2 n) k && inb jl (ju + al 1 n) j) eqn:E.
  - apply andb_true_iff in E. destruct E as [E1 E2].
    assert (D : al 0 n = 0 \/ al 0 n = 1) by (unfold al; destruct (_ =? _); lia).
    pose proof (line (fun z => a (n, k, j, z))
      (fun z => (run Field f1 inner_x1 il iu jl ju kl ku ngh a) (n, k, j, z))
      (fun z => (run Field f2 outer_x1 il iu jl ju kl ku ngh (run Field f1 inner_x1 il iu jl ju kl ku ngh a)) (n, k, j, z)) (mirror_sign 1 (field_axis n)) false false f1 f2 (al 0 n) il iu ngh) as L.
    cbn beta in L.
    cbn [andb orb] in L. apply L; clear L; [exact D|reflexivity|exact G|discriminate|discriminate|..].
    + intros z H1 H2 NP. rewrite frun_inner_x1 by assumption. rewrite (inb_no (il - ngh)) by lia. rewrite ?andb_false_r. reflexivity.
    + intros z H1. rewrite frun_inner_x1 by assumption. rewrite (inb_no (il - ngh)) by lia. rewrite ?andb_false_r. reflexivity.
    + discriminate.
    + intros z H1. rewrite frun_inner_x1 by assumption. rewrite E1, E2, (inb_yes (il - ngh)) by lia. reflexivity.
    + intros z H1 NP. rewrite frun_outer_x1 by assumption. rewrite (inb_no (iu + 1 + al 0 n)) by lia. rewrite ?andb_false_r. reflexivity.
    + discriminate.
    + intros z H1. rewrite frun_outer_x1 by assumption. rewrite E1, E2, (inb_yes (iu + 1 + al 0 n)) by lia. reflexivity.
    + lia.
  - rewrite frun_outer_x1 by assumption.
    apply andb_false_iff in E. destruct E as [E|E]; rewrite !E, ?andb_false_r; cbn [andb]; rewrite ?andb_false_r;
      rewrite frun_inner_x1 by assumption; rewrite !E, ?andb_false_r; cbn [andb]; rewrite ?andb_false_r; reflexivity.
Qed.

Lemma fstage2 : forall f1 f2 il iu jl ju kl ku ngh a n k j i,
  0 <= n <= 2 -> 1 <= ngh <= ju - jl + 1 ->
  (f1 = PolarWedge -> ngh < ju - jl + 1) ->
  jl - ngh <= j <= ju + ngh + al 1 n ->
  run Field f2 outer_x2 il iu jl ju kl ku ngh
    (run Field f1 inner_x2 il iu jl ju kl ku ngh a) (n, k, j, i) =
  if inb kl (ku + al 2 n) k && inb il (iu + al 0 n) i then
    if (is_wedge f1 && (n =? 1) && (j =? jl)) || (is_wedge f2 && (n =? 1) && (j =? ju + 1)) then 0%R else
    (mirror_sign 2 (field_axis n) (met f1 f2 jl (ju + al 1 n) j) * a (n, k, img (al 1 n) f1 f2 jl ju j, i))%R
  else a (n, k, j, i).
Proof.
  intros f1 f2 il iu jl ju kl ku ngh a n k j i Hn G W Hr.
  destruct (inb kl (ku + al 2 n) k && inb il (iu + al 0 n) i) eqn:E.
  - apply andb_true_iff in E. destruct E as [E1 E2].
    assert (D : al 1 n = 0 \/ al 1 n = 1) by (unfold al; destruct (_ =? _); lia).
    assert (K1 : n = 1 -> inb kl ku k = true).
    { intros ->. unfold al in E1. cbn [Z.eqb Pos.eqb] in E1. rewrite Z.add_0_r in E1. exact E1. }
    assert (K2 : n = 1 -> inb il iu i = true).
    { intros ->. unfold al in E2. cbn [Z.eqb Pos.eqb] in E2. rewrite Z.add_0_r in E2. exact E2. }
    assert (A1 : n = 1 -> al 1 n = 1) by (intros ->; reflexivity).
    pose proof (line (fun z => a (n, k, z, i))
      (fun z => (run Field f1 inner_x2 il iu jl ju kl ku ngh a) (n, k, z, i))
      (fun z => (run Field f2 outer_x2 il iu jl ju kl ku ngh (run Field f1 inner_x2 il iu jl ju kl ku ngh a)) (n, k, z, i)) (mirror_sign 2 (field_axis n)) (is_wedge f1 && (n =? 1)) (is_wedge f2 && (n =? 1)) f1 f2 (al 1 n) jl ju ngh) as L.
    cbn beta in L.
    apply L; clear L; [exact D|reflexivity|exact G|..].
    + intro Ew. apply andb_true_iff in Ew. destruct Ew as [Ew En]. apply Z.eqb_eq in En.
      split; [auto|]. apply W. destruct f1; try discriminate Ew. reflexivity.
    + intro Ew. apply andb_true_iff in Ew. destruct Ew as [Ew En]. apply Z.eqb_eq in En. auto.
    + intros z H1 H2 NP. rewrite frun_inner_x2 by assumption. rewrite (inb_no (jl - ngh)) by lia.
      rewrite andb_false_r. cbn [andb].
      destruct f1; try reflexivity. destruct (Z.eqb_spec n 1); [|reflexivity].
      destruct (Z.eqb_spec z jl); [|rewrite andb_false_r; reflexivity].
      exfalso. apply NP. split; [reflexivity|assumption].
    + intros z H1. rewrite frun_inner_x2 by assumption. rewrite (inb_no (jl - ngh)) by lia.
      rewrite andb_false_r. cbn [andb].
      destruct f1; try reflexivity.
      destruct (Z.eqb_spec z jl); [lia|rewrite andb_false_r; reflexivity].
    + intro Ew. apply andb_true_iff in Ew. destruct Ew as [Ew En]. pose proof En as En'. apply Z.eqb_eq in En'.
      rewrite frun_inner_x2 by assumption. destruct f1; try discriminate Ew.
      rewrite En, K1, K2, Z.eqb_refl by assumption. reflexivity.
    + intros z H1. rewrite frun_inner_x2 by assumption. rewrite E1, E2, (inb_yes (jl - ngh)) by lia. cbn [andb].
      destruct f1; try reflexivity.
      destruct (Z.eqb_spec z jl); [lia|rewrite andb_false_r; reflexivity].
    + intros z H1 NP. rewrite frun_outer_x2 by assumption. rewrite (inb_no (ju + 1 + al 1 n)) by lia.
      rewrite andb_false_r. cbn [andb].
      destruct f2; try reflexivity. destruct (Z.eqb_spec n 1); [|reflexivity].
      destruct (Z.eqb_spec z (ju + 1)); [|rewrite andb_false_r; reflexivity].
      exfalso. apply NP. split; [reflexivity|assumption].
    + intro Ew. apply andb_true_iff in Ew. destruct Ew as [Ew En]. pose proof En as En'. apply Z.eqb_eq in En'.
      rewrite frun_outer_x2 by assumption. destruct f2; try discriminate Ew.
      rewrite En, K1, K2, Z.eqb_refl by assumption. reflexivity.
    + intros z H1. rewrite frun_outer_x2 by assumption. rewrite E1, E2, (inb_yes (ju + 1 + al 1 n)) by lia. cbn [andb].
      destruct f2; try reflexivity.
      destruct (Z.eqb_spec n 1) as [En|]; [|reflexivity]. specialize (A1 En).
      destruct (Z.eqb_spec z (ju + 1)); [lia|rewrite andb_false_r; reflexivity].
    + lia.
  - rewrite frun_outer_x2 by assumption.
    assert (K : (n =? 1) && inb kl ku k && inb il iu i = false).
    { destruct (Z.eqb_spec n 1) as [->|]; [|reflexivity]. unfold al in E. cbn [Z.eqb Pos.eqb] in E.
      rewrite !Z.add_0_r in E. cbn [andb]. exact E. }
    assert (X1 : forall w, (n =? 1) && inb kl ku k && inb il iu i && w = false) by (intro w; rewrite K; reflexivity).
    assert (X2 : forall w, inb kl (ku + al 2 n) k && w && inb il (iu + al 0 n) i = false).
    { intro w. destruct (inb kl (ku + al 2 n) k); [|reflexivity]. cbn [andb] in E |- *. rewrite E.
      apply andb_false_r. }
    rewrite X1, X2.
    assert (Y : forall f, match f with PolarWedge => false | _ => false end = false)
      by (intros []; reflexivity).
    rewrite Y. rewrite frun_inner_x2 by assumption. rewrite X1, X2, Y. reflexivity.
Qed.

Lemma fstage3 : forall f1 f2 il iu jl ju kl ku ngh a n k j i,
  f1 <> PolarWedge -> f2 <> PolarWedge ->
  0 <= n <= 2 -> 1 <= ngh <= ku - kl + 1 ->
  kl - ngh <= k <= ku + ngh + al 2 n ->
  run Field f2 outer_x3 il iu jl ju kl ku ngh
    (run Field f1 inner_x3 il iu jl ju kl ku ngh a) (n, k, j, i) =
  if inb jl (ju + al 1 n) j && inb il (iu + al 0 n) i then
    (mirror_sign 3 (field_axis n) (met f1 f2 kl (ku + al 2 n) k) * a (n, img (al 2 n) f1 f2 kl ku k, j, i))%R
  else a (n, k, j, i).
Proof.
  intros f1 f2 il iu jl ju kl ku ngh a n k j i F1 F2 Hn G Hr.
  destruct (inb jl (ju + al 1 n) j && inb il (iu + al 0 n) i) eqn:E.
  - apply andb_true_iff in E. destruct E as [E1 E2].
    assert (D : al 2 n = 0 \/ al 2 n = 1) by (unfold al; destruct (_ =? _); lia).
    pose proof (line (fun z => a (n, z, j, i))
      (fun z => (run Field f1 inner_x3 il iu jl ju kl ku ngh a) (n, z, j, i))
      (fun z => (run Field f2 outer_x3 il iu jl ju kl ku ngh (run Field f1 inner_x3 il iu jl ju kl ku ngh a)) (n, z, j, i)) (mirror_sign 3 (field_axis n)) false false f1 f2 (al 2 n) kl ku ngh) as L.
    cbn beta in L.
    cbn [andb orb] in L. apply L; clear L; [exact D|reflexivity|exact G|discriminate|discriminate|..].
    + intros z H1 H2 NP. rewrite frun_inner_x3 by assumption. rewrite (inb_no (kl - ngh)) by lia. rewrite ?andb_false_r. reflexivity.
    + intros z H1. rewrite frun_inner_x3 by assumption. rewrite (inb_no (kl - ngh)) by lia. rewrite ?andb_false_r. reflexivity.
    + discriminate.
    + intros z H1. rewrite frun_inner_x3 by assumption. rewrite E1, E2, (inb_yes (kl - ngh)) by lia. reflexivity.
    + intros z H1 NP. rewrite frun_outer_x3 by assumption. rewrite (inb_no (ku + 1 + al 2 n)) by lia. rewrite ?andb_false_r. reflexivity.
    + discriminate.
    + intros z H1. rewrite frun_outer_x3 by assumption. rewrite E1, E2, (inb_yes (ku + 1 + al 2 n)) by lia. reflexivity.
    + lia.
  - rewrite frun_outer_x3 by assumption.
    apply andb_false_iff in E. destruct E as [E|E]; rewrite !E, ?andb_false_r; cbn [andb]; rewrite ?andb_false_r;
      rewrite frun_inner_x3 by assumption; rewrite !E, ?andb_false_r; cbn [andb]; rewrite ?andb_false_r; reflexivity.
Qed.
