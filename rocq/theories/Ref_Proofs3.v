From Coq Require Import Reals ZArith List Bool Lia Lra Psatz.
From Verif Require Import Fv_Model Fv_Spec Fv_Proofs Fv_Proofs2 Ref_Model Ref_Spec Ref_Proofs Ref_Proofs2.
Import ListNotations.
Local Open Scope R_scope.

(** ** Shared faces *)
Lemma interp4_sum : forall u ga gb da db cs f00 f01 f10 f11, cs <> 0 ->
  f00 * interp4 false false u ga gb da db cs f00 f01 f10 f11 + f01 * interp4 false true u ga gb da db cs f00 f01 f10 f11 + f10 * interp4 true false u ga gb da db cs f00 f01 f10 f11 + f11 * interp4 true true u ga gb da db cs f00 f01 f10 f11
  = u * (f00 + f01 + f10 + f11).
Proof. intros. unfold interp4. field. assumption. Qed.
Lemma up0' : forall d c x, (cis c + up (is_ d) (is_ d + 2 * (x - cis c)))%Z = x. Proof. intros; apply up0. Qed.
Lemma two_term : forall a a' y y' : R, a * y + a' * y' = 0 -> a' * y' = - (a * y). Proof. intros; lra. Qed.

Ltac boxd B := unfold in_box in B; rewrite ?within_true by lia.
Lemma shared1 : forall fl d c xc xf af ac b u v q, layout d c -> in_box d c b q -> ok1 fl d c xc xf af ac q ->
  through af (SharedX1 fl d c xc xf af ac b u v) (faces1 d c q) = at_ u q * sum (map (at_ af) (faces1 d c q)).
Proof.
  intros fl d c xc xf af ac b u v [[ck cj] ci] L B OK. unfold in_box in B. unfold through, faces1, combine3, duo, two. unfold ok1, area_weighted in OK. cbn [fst snd] in OK.
  dims3 L; nxs; rewrite ?(ltb1 _ D2), ?(ltb1 _ D3), ?(ltb0 _ D2), ?(ltb0 _ D3), ?andb_true_r, ?andb_false_r in *.
  - cbn [flat_map map app at_]. rewrite !sum_cons, !sum_nil. unfold SharedX1; cbv zeta. rewrite !is0, !is1, !up0, !up1, (ltb1 _ D3), !within_true by lia. cbn [andb]. rewrite fJ_eq, fK_eq. destruct fl.
    + cbn [at_] in OK. rewrite !Rplus_0_r, <- !Rplus_assoc, interp4_sum by exact OK. reflexivity.
    + destruct OK as [w1 [w2 [w3 [SP [C2 C3]]]]]. pose proof (e2_mean d c xc xf u ck cj ci w2 (C2 D2)) as M2. pose proof (e3_mean d c xc xf u ck cj ci w3 (C3 D3)) as M3. cbv zeta in M2, M3. unfold e2, e3 in M2, M3. rewrite !SP.
      set (f := w2 (js d + 2 * (cj - cjs c))%Z) in *. set (f' := w2 (js d + 2 * (cj - cjs c) + 1)%Z) in *. set (g := w3 (ks d + 2 * (ck - cks c))%Z) in *. set (g' := w3 (ks d + 2 * (ck - cks c) + 1)%Z) in *.
      set (y2 := d2 xc xf u ck cj ci (js d + 2 * (cj - cjs c)) false) in *. set (y2' := d2 xc xf u ck cj ci (js d + 2 * (cj - cjs c)) true) in *. set (y3 := d3 xc xf u ck cj ci (ks d + 2 * (ck - cks c)) false) in *. set (y3' := d3 xc xf u ck cj ci (ks d + 2 * (ck - cks c)) true) in *.
      set (h := w1 (is_ d + 2 * (ci - cis c))%Z) in *. transitivity (u ck cj ci * ((g + g') * (f + f') * h) + h * (g + g') * (f * y2 + f' * y2') + h * (f + f') * (g * y3 + g' * y3')); [ring|]. rewrite M2, M3. ring.
  - destruct B as [B1 [B2 ->]]. cbn [flat_map map app at_]. rewrite !sum_cons, !sum_nil. unfold SharedX1; cbv zeta. rewrite !is0, !up0, !up1, (ltb1 _ D2), (ltb0 _ D3), !is1, !within_true, !Z.eqb_refl by lia. cbn [andb]. rewrite fJ_eq.
    destruct OK as [w1 [w2 [w3 [SP [C2 C3]]]]]. pose proof (e2_mean d c xc xf u (cks c) cj ci w2 (C2 D2)) as M2. cbv zeta in M2. unfold e2 in M2. rewrite !SP.
    set (f := w2 (js d + 2 * (cj - cjs c))%Z) in *. set (f' := w2 (js d + 2 * (cj - cjs c) + 1)%Z) in *. set (y2 := d2 xc xf u (cks c) cj ci (js d + 2 * (cj - cjs c)) false) in *. set (y2' := d2 xc xf u (cks c) cj ci (js d + 2 * (cj - cjs c)) true) in *.
    set (g := w3 (ks d)). set (h := w1 (is_ d + 2 * (ci - cis c))%Z) in *. transitivity (u (cks c) cj ci * (g * (f + f') * h) + h * g * (f * y2 + f' * y2')); [ring|]. rewrite M2. ring.
  - destruct B as [B1 [-> ->]]. cbn [flat_map map app at_]. rewrite !sum_cons, !sum_nil. unfold SharedX1; cbv zeta. rewrite !is0, !up0, (ltb0 _ D2), (ltb0 _ D3), !within_true by lia. rewrite L2, L2', L3, L3'. cbn [andb Z.eqb]. ring.
Qed.
Lemma shared2 : forall tiny fl d c xc xf af ac b u v q, layout d c -> in_box d c b q -> ok2 tiny fl d c xc xf af ac q ->
  through af (SharedX2 tiny fl d c xc xf af ac b u v) (faces2 d c q) = at_ u q * sum (map (at_ af) (faces2 d c q)).
Proof.
  intros tiny fl d c xc xf af ac b u v [[ck cj] ci] L B OK. unfold in_box in B. unfold through, faces2, combine3, duo, two. unfold ok2, area_weighted in OK. cbn [fst snd] in OK.
  dims3 L; nxs; rewrite ?(ltb1 _ D2), ?(ltb1 _ D3), ?(ltb0 _ D2), ?(ltb0 _ D3), ?andb_true_r, ?andb_false_r in *.
  - cbn [flat_map map app at_]. rewrite !sum_cons, !sum_nil. unfold SharedX2; cbv zeta. rewrite !is0, !is1, !up0, !up1, (ltb1 _ D3), !within_true by lia. cbn [andb]. rewrite fI_eq, fK_eq. destruct fl.
    + cbn [at_] in OK. rewrite !Rplus_0_r, <- !Rplus_assoc, interp4_sum by exact OK. reflexivity.
    + destruct OK as [w1 [w2 [w3 [SP [C1 C3]]]]]. pose proof (e1_mean d c xc xf u ck cj ci w1 C1) as M1. pose proof (e3_mean d c xc xf u ck cj ci w3 (C3 D3)) as M3. cbv zeta in M1, M3. unfold e1, e3 in M1, M3. rewrite !SP.
      set (f := w1 (is_ d + 2 * (ci - cis c))%Z) in *. set (f' := w1 (is_ d + 2 * (ci - cis c) + 1)%Z) in *. set (g := w3 (ks d + 2 * (ck - cks c))%Z) in *. set (g' := w3 (ks d + 2 * (ck - cks c) + 1)%Z) in *.
      set (y1 := d1 xc xf u ck cj ci (is_ d + 2 * (ci - cis c)) false) in *. set (y1' := d1 xc xf u ck cj ci (is_ d + 2 * (ci - cis c)) true) in *. set (y3 := d3 xc xf u ck cj ci (ks d + 2 * (ck - cks c)) false) in *. set (y3' := d3 xc xf u ck cj ci (ks d + 2 * (ck - cks c)) true) in *.
      set (h := w2 (js d + 2 * (cj - cjs c))%Z) in *. transitivity (u ck cj ci * ((g + g') * (f + f') * h) + h * (g + g') * (f * y1 + f' * y1') + h * (f + f') * (g * y3 + g' * y3')); [ring|]. rewrite M1, M3. ring.
  - destruct B as [B1 [B2 ->]]. cbn [flat_map map app at_]. rewrite !sum_cons, !sum_nil. unfold SharedX2; cbv zeta. rewrite !is0, !up0, !up1, (ltb1 _ D2), (ltb0 _ D3), !is1, !within_true, !Z.eqb_refl by lia. cbn [andb]. rewrite fI_eq.
    destruct OK as [w1 [w2 [w3 [SP [C1 _]]]]]. pose proof (e1_mean d c xc xf u (cks c) cj ci w1 C1) as M1. cbv zeta in M1. unfold e1 in M1. rewrite !SP.
    set (f := w1 (is_ d + 2 * (ci - cis c))%Z) in *. set (f' := w1 (is_ d + 2 * (ci - cis c) + 1)%Z) in *. set (y1 := d1 xc xf u (cks c) cj ci (is_ d + 2 * (ci - cis c)) false) in *. set (y1' := d1 xc xf u (cks c) cj ci (is_ d + 2 * (ci - cis c)) true) in *.
    set (g := w3 (ks d)). set (h := w2 (js d + 2 * (cj - cjs c))%Z) in *. transitivity (u (cks c) cj ci * (g * (f + f') * h) + h * g * (f * y1 + f' * y1')); [ring|]. rewrite M1. ring.
  - destruct B as [B1 [-> ->]]. cbn [flat_map map app at_]. rewrite !sum_cons, !sum_nil. replace (js d + 2 * (cjs c - cjs c))%Z with 0%Z by lia. rewrite L2', L3, L3'. unfold SharedX2; cbv zeta. rewrite !is0, !is1, !up0, !up1, (ltb0 _ D2), (ltb0 _ D3), !within_true by lia. cbn [andb Z.eqb]. rewrite fI_eq.
    destruct OK as [w1 [w2 [w3 [SP [C1 _]]]]]. pose proof (e1_mean d c xc xf u 0%Z 0%Z ci w1 C1) as M1. cbv zeta in M1. unfold e1 in M1. rewrite !SP.
    set (f := w1 (is_ d + 2 * (ci - cis c))%Z) in *. set (f' := w1 (is_ d + 2 * (ci - cis c) + 1)%Z) in *. set (y1 := d1 xc xf u 0 0 ci (is_ d + 2 * (ci - cis c)) false) in *. set (y1' := d1 xc xf u 0 0 ci (is_ d + 2 * (ci - cis c)) true) in *.
    set (g := w3 0%Z). set (h := w2 0%Z) in *. transitivity (u 0%Z 0%Z ci * (g * (f + f') * h) + h * g * (f * y1 + f' * y1')); [ring|]. rewrite M1. ring.
Qed.
Lemma shared3 : forall fl d c xc xf af ac b u v q, layout d c -> in_box d c b q -> ok3 fl d c xc xf af ac q ->
  through af (SharedX3 fl d c xc xf af ac b u v) (faces3 d c q) = at_ u q * sum (map (at_ af) (faces3 d c q)).
Proof.
  intros fl d c xc xf af ac b u v [[ck cj] ci] L B OK. unfold in_box in B. unfold through, faces3, combine3, duo, two. unfold ok3, area_weighted in OK. cbn [fst snd] in OK.
  dims3 L; nxs; rewrite ?(ltb1 _ D2), ?(ltb1 _ D3), ?(ltb0 _ D2), ?(ltb0 _ D3), ?andb_true_r, ?andb_false_r in *.
  - cbn [flat_map map app at_]. rewrite !sum_cons, !sum_nil. unfold SharedX3; cbv zeta. rewrite !is0, !is1, !up0, !up1, (ltb1 _ D3), !within_true by lia. cbn [andb]. rewrite fI_eq, fJ_eq. destruct fl.
    + cbn [at_] in OK. rewrite !Rplus_0_r, <- !Rplus_assoc, interp4_sum by exact OK. reflexivity.
    + destruct OK as [w1 [w2 [w3 [SP [C1 C2]]]]]. pose proof (e1_mean d c xc xf u ck cj ci w1 C1) as M1. pose proof (e2_mean d c xc xf u ck cj ci w2 (C2 D2)) as M2. cbv zeta in M1, M2. unfold e1, e2 in M1, M2. rewrite !SP.
      set (f := w1 (is_ d + 2 * (ci - cis c))%Z) in *. set (f' := w1 (is_ d + 2 * (ci - cis c) + 1)%Z) in *. set (g := w2 (js d + 2 * (cj - cjs c))%Z) in *. set (g' := w2 (js d + 2 * (cj - cjs c) + 1)%Z) in *.
      set (y1 := d1 xc xf u ck cj ci (is_ d + 2 * (ci - cis c)) false) in *. set (y1' := d1 xc xf u ck cj ci (is_ d + 2 * (ci - cis c)) true) in *. set (y2 := d2 xc xf u ck cj ci (js d + 2 * (cj - cjs c)) false) in *. set (y2' := d2 xc xf u ck cj ci (js d + 2 * (cj - cjs c)) true) in *.
      set (h := w3 (ks d + 2 * (ck - cks c))%Z) in *. transitivity (u ck cj ci * ((g + g') * (f + f') * h) + h * (g + g') * (f * y1 + f' * y1') + h * (f + f') * (g * y2 + g' * y2')); [ring|]. rewrite M1, M2. ring.
  - destruct B as [B1 [B2 ->]]. cbn [flat_map map app at_]. rewrite !sum_cons, !sum_nil. replace (ks d + 2 * (cks c - cks c))%Z with (ks d) by lia. unfold SharedX3; cbv zeta. rewrite !up0, !up1, (ltb1 _ D2), (ltb0 _ D3), !is0, !is1, !within_true by lia. cbn [andb]. rewrite fI_eq, fJ_eq.
    destruct OK as [w1 [w2 [w3 [SP [C1 C2]]]]]. pose proof (e1_mean d c xc xf u (cks c) cj ci w1 C1) as M1. pose proof (e2_mean d c xc xf u (cks c) cj ci w2 (C2 D2)) as M2. cbv zeta in M1, M2. unfold e1, e2 in M1, M2. rewrite !SP.
    set (f := w1 (is_ d + 2 * (ci - cis c))%Z) in *. set (f' := w1 (is_ d + 2 * (ci - cis c) + 1)%Z) in *. set (g := w2 (js d + 2 * (cj - cjs c))%Z) in *. set (g' := w2 (js d + 2 * (cj - cjs c) + 1)%Z) in *.
    set (y1 := d1 xc xf u (cks c) cj ci (is_ d + 2 * (ci - cis c)) false) in *. set (y1' := d1 xc xf u (cks c) cj ci (is_ d + 2 * (ci - cis c)) true) in *. set (y2 := d2 xc xf u (cks c) cj ci (js d + 2 * (cj - cjs c)) false) in *. set (y2' := d2 xc xf u (cks c) cj ci (js d + 2 * (cj - cjs c)) true) in *.
    set (h := w3 (ks d)) in *. transitivity (u (cks c) cj ci * ((g + g') * (f + f') * h) + h * (g + g') * (f * y1 + f' * y1') + h * (f + f') * (g * y2 + g' * y2')); [ring|]. rewrite M1, M2. ring.
  - destruct B as [B1 [-> ->]]. cbn [flat_map map app at_]. rewrite !sum_cons, !sum_nil. replace (ks d + 2 * (cks c - cks c))%Z with 0%Z by lia. rewrite L2, L2', L3'. unfold SharedX3; cbv zeta. rewrite !is0, !is1, !up0, !up1, (ltb0 _ D2), (ltb0 _ D3), !within_true by lia. cbn [andb Z.eqb]. rewrite fI_eq.
    destruct OK as [w1 [w2 [w3 [SP [C1 _]]]]]. pose proof (e1_mean d c xc xf u 0%Z 0%Z ci w1 C1) as M1. cbv zeta in M1. unfold e1 in M1. rewrite !SP.
    set (f := w1 (is_ d + 2 * (ci - cis c))%Z) in *. set (f' := w1 (is_ d + 2 * (ci - cis c) + 1)%Z) in *. set (y1 := d1 xc xf u 0 0 ci (is_ d + 2 * (ci - cis c)) false) in *. set (y1' := d1 xc xf u 0 0 ci (is_ d + 2 * (ci - cis c)) true) in *.
    set (g := w3 0%Z). set (h := w2 0%Z) in *. transitivity (u 0%Z 0%Z ci * (g * (f + f') * h) + h * g * (f * y1 + f' * y1')); [ring|]. rewrite M1. ring.
Qed.

(** ** Internal faces *)
Lemma is2 : forall s cs x, isup s (s + 2 * (x - cs) + 2)%Z = false. Proof. intros. replace (s + 2 * (x - cs) + 2)%Z with (s + 2 * (x + 1 - cs))%Z by ring. apply is0. Qed.
Definition o (x : bool) : Z := if x then 1%Z else 0%Z.
Lemma bit : forall s cs x f, In f (two s cs x) -> f = (s + 2 * (x - cs) + o (isup s f))%Z /\ (cs + up s f)%Z = x.
Proof. intros s cs x f H. apply in_two in H. destruct H as [U [[-> E]|[-> E]]]; rewrite E; unfold o; split; try assumption; lia. Qed.
Lemma bit_is : forall s cs x a, isup s (s + 2 * (x - cs) + o a)%Z = a. Proof. intros s cs x [|]; unfold o; [apply is1|rewrite Z.add_0_r; apply is0]. Qed.
Lemma bit_up : forall s cs x a, (cs + up s (s + 2 * (x - cs) + o a))%Z = x. Proof. intros s cs x [|]; unfold o; [apply up1|rewrite Z.add_0_r; apply up0]. Qed.
Section I3.
Variables (d : dims) (c : coff) (g : geom) (S1 S2 S3 : arr) (bx : box) (b : vec) (ck cj ci : Z).
Let K := (ks d + 2 * (ck - cks c))%Z. Let J := (js d + 2 * (cj - cjs c))%Z. Let I := (is_ d + 2 * (ci - cis c))%Z.
Let r := ProlongateInternal d c g S1 S2 S3 bx b.
Let s1 := S1 K J I. Let s2 := S2 K J I. Let s3 := S3 K J I.
Hypothesis D3 : (1 < nx3 d)%Z.
Hypothesis B : (sk bx <= ck <= ek bx /\ sj bx <= cj <= ej bx /\ si bx <= ci <= ei bx)%Z.
Lemma r1_0 : forall k j, x1 r k j I = x1 b k j I. Proof using. intros. unfold r, I, ProlongateInternal; cbn [x1]. rewrite is0. reflexivity. Qed.
Lemma r1_2 : forall k j, x1 r k j (I + 2)%Z = x1 b k j (I + 2)%Z. Proof using. intros. unfold r, I, ProlongateInternal; cbn [x1]. rewrite is2. reflexivity. Qed.
Lemma r2_0 : forall k i, x2 r k J i = x2 b k J i. Proof using. intros. unfold r, J, ProlongateInternal; cbn [x2]. rewrite is0. reflexivity. Qed.
Lemma r2_2 : forall k i, x2 r k (J + 2)%Z i = x2 b k (J + 2)%Z i. Proof using. intros. unfold r, J, ProlongateInternal; cbn [x2]. rewrite is2. reflexivity. Qed.
Lemma r3_0 : forall j i, x3 r K j i = x3 b K j i. Proof using. intros. unfold r, K, ProlongateInternal; cbn [x3]. rewrite is0. reflexivity. Qed.
Lemma r3_2 : forall j i, x3 r (K + 2)%Z j i = x3 b (K + 2)%Z j i. Proof using. intros. unfold r, K, ProlongateInternal; cbn [x3]. rewrite is2. reflexivity. Qed.
Lemma r1_1 : forall x y, x1 r (K + o x)%Z (J + o y)%Z (I + 1)%Z = inner1 g b K J I s1 s2 s3 x y.
Proof using B D3.
  intros. unfold r, K, J, I, ProlongateInternal; cbn [x1]; cbv zeta. rewrite is1, (ltb1 _ D3), !bit_up, !bit_is, up1. rewrite !within_true by lia. cbn [andb]. rewrite fI_eq, fJ_eq, fK_eq. reflexivity.
Qed.
Lemma r2_1 : forall x z, x2 r (K + o x)%Z (J + 1)%Z (I + o z)%Z = inner2 g b K J I s1 s2 s3 x z.
Proof using B D3.
  intros. unfold r, K, J, I, ProlongateInternal; cbn [x2]; cbv zeta. rewrite is1, (ltb1 _ D3), !bit_up, !bit_is, up1. rewrite !within_true by lia. cbn [andb]. rewrite fI_eq, fJ_eq, fK_eq. reflexivity.
Qed.
Lemma r3_1 : forall y z, x3 r (K + 1)%Z (J + o y)%Z (I + o z)%Z = inner3 g b K J I s1 s2 s3 y z.
Proof using B D3.
  intros. unfold r, K, J, I, ProlongateInternal; cbn [x3]; cbv zeta. rewrite is1, (ltb1 _ D3), !bit_up, !bit_is, up1. rewrite !within_true by lia. cbn [andb]. rewrite fI_eq, fJ_eq, fK_eq. reflexivity.
Qed.
End I3.
(** The twenty-four fluxes as plain numbers. *)
Lemma mul_div' : forall a e, a <> 0 -> a * (e / a) = e. Proof. intros; field; assumption. Qed.
Lemma split_sum : forall a b x, 0 < a -> 0 < b -> a * (x * (1 / 8 / (a + b))) + b * (x * (1 / 8 / (a + b))) = x / 8. Proof. intros; field; lra. Qed.
Lemma internal3 : forall d c g S1 S2 S3 bx b ck cj ci, (1 < nx3 d)%Z -> (1 < nx2 d)%Z -> in_box d c bx (ck, cj, ci) -> inner_areas d c g (ck, cj, ci) -> widths S1 S2 S3 ->
  forall k j i, In (k, j, i) (cells d c (ck, cj, ci)) -> net_flux g (ProlongateInternal d c g S1 S2 S3 bx b) k j i = out_of d c g b (ck, cj, ci) / 8.
Proof.
  intros d c g S1 S2 S3 bx b ck cj ci D3 D2 B IA W k j i H. unfold in_box in B. rewrite (ltb1 _ D2), (ltb1 _ D3) in B.
  assert (B' : (sk bx <= ck <= ek bx /\ sj bx <= cj <= ej bx /\ si bx <= ci <= ei bx)%Z) by tauto.
  unfold inner_areas in IA. cbn [fst snd] in IA. unfold cells, duo in IA, H. rewrite (ltb1 _ D2), (ltb1 _ D3) in IA, H.
  unfold out_of. rewrite (ltb1 _ D2), (ltb1 _ D3). unfold through, faces1, faces2, faces3, combine3, duo. rewrite (ltb1 _ D2), (ltb1 _ D3). unfold two.
  replace (ks d + 2 * (ck + 1 - cks c))%Z with (ks d + 2 * (ck - cks c) + 2)%Z by ring. replace (js d + 2 * (cj + 1 - cjs c))%Z with (js d + 2 * (cj - cjs c) + 2)%Z by ring. replace (is_ d + 2 * (ci + 1 - cis c))%Z with (is_ d + 2 * (ci - cis c) + 2)%Z by ring.
  assert (N1 : forall x y, A1 g (ks d + 2 * (ck - cks c) + o x)%Z (js d + 2 * (cj - cjs c) + o y)%Z (is_ d + 2 * (ci - cis c) + 1)%Z <> 0).
  { intros x y. apply (IA _ _ (is_ d + 2 * (ci - cis c))%Z). apply in_combine. unfold two, o. destruct x, y; rewrite ?Z.add_0_r; cbn [In]; auto. }
  assert (N2 : forall x z, A2 g (ks d + 2 * (ck - cks c) + o x)%Z (js d + 2 * (cj - cjs c) + 1)%Z (is_ d + 2 * (ci - cis c) + o z)%Z <> 0).
  { intros x z. apply (IA _ (js d + 2 * (cj - cjs c))%Z _); [|exact D2]. apply in_combine. unfold two, o. destruct x, z; rewrite ?Z.add_0_r; cbn [In]; auto. }
  assert (N3 : forall y z, A3 g (ks d + 2 * (ck - cks c) + 1)%Z (js d + 2 * (cj - cjs c) + o y)%Z (is_ d + 2 * (ci - cis c) + o z)%Z <> 0).
  { intros y z. apply (IA (ks d + 2 * (ck - cks c))%Z _ _); [|exact D3]. apply in_combine. unfold two, o. destruct y, z; rewrite ?Z.add_0_r; cbn [In]; auto. }
  clear IA. apply in_combine in H. destruct H as [HK [HJ HI]].
  pose proof (r1_0 d c g S1 S2 S3 bx b ci) as r10. pose proof (r1_2 d c g S1 S2 S3 bx b ci) as r12. pose proof (r2_0 d c g S1 S2 S3 bx b cj) as r20. pose proof (r2_2 d c g S1 S2 S3 bx b cj) as r22. pose proof (r3_0 d c g S1 S2 S3 bx b ck) as r30. pose proof (r3_2 d c g S1 S2 S3 bx b ck) as r32.
  pose proof (r1_1 d c g S1 S2 S3 bx b ck cj ci D3 B') as r11. pose proof (r2_1 d c g S1 S2 S3 bx b ck cj ci D3 B') as r21. pose proof (r3_1 d c g S1 S2 S3 bx b ck cj ci D3 B') as r31. cbv zeta in *.
  destruct (W (ks d + 2 * (ck - cks c))%Z (js d + 2 * (cj - cjs c))%Z (is_ d + 2 * (ci - cis c))%Z) as [W1 [W2 W3]].
  set (r := ProlongateInternal d c g S1 S2 S3 bx b) in *. clearbody r.
  destruct (bit _ _ _ _ HK) as [EK _]. destruct (bit _ _ _ _ HJ) as [EJ _]. destruct (bit _ _ _ _ HI) as [EI _].
  set (K := (ks d + 2 * (ck - cks c))%Z) in *. set (J := (js d + 2 * (cj - cjs c))%Z) in *. set (I := (is_ d + 2 * (ci - cis c))%Z) in *.
  set (s1 := S1 K J I) in *. set (s2 := S2 K J I) in *. set (s3 := S3 K J I) in *. clearbody s1 s2 s3. generalize dependent (isup (ks d) k). generalize dependent (isup (js d) j). generalize dependent (isup (is_ d) i). intros z -> y -> x ->. clear HK HJ HI. clearbody K J I.
  assert (T1 : forall x y, A1 g (K + o x)%Z (J + o y)%Z (I + 1)%Z * x1 r (K + o x)%Z (J + o y)%Z (I + 1)%Z = 1 / 2 * (flux1 g b (K + o x)%Z (J + o y)%Z I + flux1 g b (K + o x)%Z (J + o y)%Z (I + 2)%Z) + Uxx g b K J I + sg x * (s3 * Vxyz g b K J I s1 s3) + sg y * (s2 * Wxyz g b K J I s1 s2)).
  { intros x' y'. rewrite r11. unfold inner1. cbv zeta. apply mul_div'. apply N1. }
  assert (T2 : forall x z, A2 g (K + o x)%Z (J + 1)%Z (I + o z)%Z * x2 r (K + o x)%Z (J + 1)%Z (I + o z)%Z = 1 / 2 * (flux2 g b (K + o x)%Z J (I + o z)%Z + flux2 g b (K + o x)%Z (J + 2)%Z (I + o z)%Z) + Vyy g b K J I + sg x * (s3 * Uxyz g b K J I s2 s3) + sg z * (s1 * Wxyz g b K J I s1 s2)).
  { intros x' z'. rewrite r21. unfold inner2. cbv zeta. apply mul_div'. apply N2. }
  assert (T3 : forall y z, A3 g (K + 1)%Z (J + o y)%Z (I + o z)%Z * x3 r (K + 1)%Z (J + o y)%Z (I + o z)%Z = 1 / 2 * (flux3 g b (K + 2)%Z (J + o y)%Z (I + o z)%Z + flux3 g b K (J + o y)%Z (I + o z)%Z) + Wzz g b K J I + sg y * (s2 * Uxyz g b K J I s2 s3) + sg z * (s1 * Vxyz g b K J I s1 s3)).
  { intros y' z'. rewrite r31. unfold inner3. cbv zeta. apply mul_div'. apply N3. }
  assert (EU : s2 * Uxyz g b K J I s2 s3 + s3 * Uxyz g b K J I s2 s3 = Uxyz0 g b K J I / 8) by (apply split_sum; assumption).
  assert (EV : s1 * Vxyz g b K J I s1 s3 + s3 * Vxyz g b K J I s1 s3 = Vxyz0 g b K J I / 8) by (apply split_sum; assumption).
  assert (EW : s1 * Wxyz g b K J I s1 s2 + s2 * Wxyz g b K J I s1 s2 = Wxyz0 g b K J I / 8) by (apply split_sum; assumption).
  clear r11 r21 r31 N1 N2 N3 W1 W2 W3 W B B'.
  assert (P1 : forall k j, A1 g k j I * x1 r k j I = flux1 g b k j I) by (intros; rewrite r10; unfold flux1; ring). assert (P1' : forall k j, A1 g k j (I + 2)%Z * x1 r k j (I + 2)%Z = flux1 g b k j (I + 2)%Z) by (intros; rewrite r12; unfold flux1; ring).
  assert (P2 : forall k i, A2 g k J i * x2 r k J i = flux2 g b k J i) by (intros; rewrite r20; unfold flux2; ring). assert (P2' : forall k i, A2 g k (J + 2)%Z i * x2 r k (J + 2)%Z i = flux2 g b k (J + 2)%Z i) by (intros; rewrite r22; unfold flux2; ring).
  assert (P3 : forall j i, A3 g K j i * x3 r K j i = flux3 g b K j i) by (intros; rewrite r30; unfold flux3; ring). assert (P3' : forall j i, A3 g (K + 2)%Z j i * x3 r (K + 2)%Z j i = flux3 g b (K + 2)%Z j i) by (intros; rewrite r32; unfold flux3; ring).
  clear r10 r12 r20 r22 r30 r32.
  assert (F1 : forall k j i, A1 g k j i * x1 b k j i = flux1 g b k j i) by (intros; unfold flux1; ring). assert (F2 : forall k j i, A2 g k j i * x2 b k j i = flux2 g b k j i) by (intros; unfold flux2; ring). assert (F3 : forall k j i, A3 g k j i * x3 b k j i = flux3 g b k j i) by (intros; unfold flux3; ring).
  cbn [flat_map map app at_]. rewrite !sum_cons, !sum_nil. rewrite !F1, !F2, !F3. clear F1 F2 F3.
  assert (G1 : A1 g (K + o x)%Z (J + o y)%Z (I + o z + 1)%Z * x1 r (K + o x)%Z (J + o y)%Z (I + o z + 1)%Z - A1 g (K + o x)%Z (J + o y)%Z (I + o z)%Z * x1 r (K + o x)%Z (J + o y)%Z (I + o z)%Z
     = 1 / 2 * (flux1 g b (K + o x)%Z (J + o y)%Z (I + 2)%Z - flux1 g b (K + o x)%Z (J + o y)%Z I) - sg z * (Uxx g b K J I + sg x * (s3 * Vxyz g b K J I s1 s3) + sg y * (s2 * Wxyz g b K J I s1 s2))).
  { destruct z; cbn [o]; [replace (I + 1 + 1)%Z with (I + 2)%Z by ring|rewrite Z.add_0_r]; rewrite ?P1, ?P1', T1; unfold sg; lra. }
  assert (G2 : A2 g (K + o x)%Z (J + o y + 1)%Z (I + o z)%Z * x2 r (K + o x)%Z (J + o y + 1)%Z (I + o z)%Z - A2 g (K + o x)%Z (J + o y)%Z (I + o z)%Z * x2 r (K + o x)%Z (J + o y)%Z (I + o z)%Z
     = 1 / 2 * (flux2 g b (K + o x)%Z (J + 2)%Z (I + o z)%Z - flux2 g b (K + o x)%Z J (I + o z)%Z) - sg y * (Vyy g b K J I + sg x * (s3 * Uxyz g b K J I s2 s3) + sg z * (s1 * Wxyz g b K J I s1 s2))).
  { destruct y; cbn [o]; [replace (J + 1 + 1)%Z with (J + 2)%Z by ring|rewrite Z.add_0_r]; rewrite ?P2, ?P2', T2; unfold sg; lra. }
  assert (G3 : A3 g (K + o x + 1)%Z (J + o y)%Z (I + o z)%Z * x3 r (K + o x + 1)%Z (J + o y)%Z (I + o z)%Z - A3 g (K + o x)%Z (J + o y)%Z (I + o z)%Z * x3 r (K + o x)%Z (J + o y)%Z (I + o z)%Z
     = 1 / 2 * (flux3 g b (K + 2)%Z (J + o y)%Z (I + o z)%Z - flux3 g b K (J + o y)%Z (I + o z)%Z) - sg x * (Wzz g b K J I + sg y * (s2 * Uxyz g b K J I s2 s3) + sg z * (s1 * Vxyz g b K J I s1 s3))).
  { destruct x; cbn [o]; [replace (K + 1 + 1)%Z with (K + 2)%Z by ring|rewrite Z.add_0_r]; rewrite ?P3, ?P3', T3; unfold sg; lra. }
  unfold net_flux. rewrite G1, G2, G3. clear G1 G2 G3 T1 T2 T3 P1 P1' P2 P2' P3 P3'.
  unfold Uxx, Vyy, Wzz, Uxyz0, Vxyz0, Wxyz0, sum4 in *. cbv beta zeta iota in *. change (2 * 0)%Z with 0%Z in *. change (2 * 1)%Z with 2%Z in *. rewrite !Z.add_0_r in *.
  generalize dependent (s2 * Uxyz g b K J I s2 s3). generalize (s3 * Uxyz g b K J I s2 s3). generalize dependent (s1 * Vxyz g b K J I s1 s3). generalize (s3 * Vxyz g b K J I s1 s3). generalize dependent (s1 * Wxyz g b K J I s1 s2). generalize (s2 * Wxyz g b K J I s1 s2).
  intros w2 w1 EW v3 v1 EV u3 u2 EU. unfold sg in *. destruct x, y, z; cbn [o]; rewrite ?Z.add_0_r; lra.
Qed.
