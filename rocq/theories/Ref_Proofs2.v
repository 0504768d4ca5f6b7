From Coq Require Import Reals ZArith List Bool Lia Lra Psatz.
From Verif Require Import Fv_Model Fv_Spec Fv_Proofs Fv_Proofs2 Ref_Model Ref_Spec Ref_Proofs.
Import ListNotations.
Local Open Scope R_scope.

(** ** Cell-centred prolongation *)
Definition e1 (d : dims) (c : coff) (xc xf : pos) (u : arr) (q : pt) (a : bool) : R := let '(k, j, i) := q in d1 xc xf u k j i (is_ d + 2 * (i - cis c))%Z a.
Definition e2 (d : dims) (c : coff) (xc xf : pos) (u : arr) (q : pt) (a : bool) : R := let '(k, j, i) := q in d2 xc xf u k j i (js d + 2 * (j - cjs c))%Z a.
Definition e3 (d : dims) (c : coff) (xc xf : pos) (u : arr) (q : pt) (a : bool) : R := let '(k, j, i) := q in d3 xc xf u k j i (ks d + 2 * (k - cks c))%Z a.
Lemma prolong_val : forall d c xc xf b u v q k j i, layout d c -> in_box d c b q -> In (k, j, i) (cells d c q) ->
  ProlongateCC d c xc xf b u v k j i = at_ u q + (e1 d c xc xf u q (isup (is_ d) i) + (if Z.ltb 1 (nx2 d) then e2 d c xc xf u q (isup (js d) j) else 0) + (if Z.ltb 1 (nx3 d) then e3 d c xc xf u q (isup (ks d) k) else 0)).
Proof.
  intros d c xc xf b u v [[ck cj] ci] k j i L B H. unfold cells in H. apply in_combine in H. destruct H as [HK [HJ HI]]. apply in_two in HI. destruct HI as [UI _].
  unfold in_box in B. unfold ProlongateCC; cbv zeta. rewrite UI. cbn [at_ e1 e2 e3]. unfold duo in HK, HJ. dims3 L; nxs.
  - rewrite (ltb1 _ D2) in B, HJ. rewrite (ltb1 _ D3) in B, HK. apply in_two in HK. apply in_two in HJ. destruct HK as [-> _]. destruct HJ as [-> _]. rewrite !within_true by lia. cbn [andb]. rewrite fI_eq, fJ_eq, fK_eq. reflexivity.
  - rewrite (ltb1 _ D2) in B, HJ. rewrite (ltb0 _ D3) in B, HK. apply in_two in HJ. destruct HJ as [-> _]. destruct HK as [<-|[]]. destruct B as [B1 [B2 ->]]. rewrite !within_true by lia. rewrite Z.eqb_refl. cbn [andb].
    rewrite fI_eq, fJ_eq. ring.
  - rewrite (ltb0 _ D2) in B, HJ. rewrite (ltb0 _ D3) in B, HK. destruct HK as [<-|[]]. destruct HJ as [<-|[]]. destruct B as [B1 [-> ->]]. rewrite !within_true by lia. rewrite !Z.eqb_refl. cbn [andb]. rewrite fI_eq. ring.
Qed.
Lemma e1_linear : forall d c xc xf u k j i b fi, p1 xc (i - 1)%Z < p1 xc i < p1 xc (i + 1)%Z -> u k j i - u k j (i - 1)%Z = b * (p1 xc i - p1 xc (i - 1)%Z) -> u k j (i + 1)%Z - u k j i = b * (p1 xc (i + 1)%Z - p1 xc i) ->
  In fi (two (is_ d) (cis c) i) -> e1 d c xc xf u (k, j, i) (isup (is_ d) fi) = b * (p1 xf fi - p1 xc i).
Proof. intros. cbn [e1]. unfold d1. rewrite (shift_linear _ _ _ _ b) by assumption. apply in_two in H2. destruct H2 as [_ [[-> ->]|[-> ->]]]; reflexivity. Qed.
Lemma e2_linear : forall d c xc xf u k j i b fj, p2 xc (j - 1)%Z < p2 xc j < p2 xc (j + 1)%Z -> u k j i - u k (j - 1)%Z i = b * (p2 xc j - p2 xc (j - 1)%Z) -> u k (j + 1)%Z i - u k j i = b * (p2 xc (j + 1)%Z - p2 xc j) ->
  In fj (two (js d) (cjs c) j) -> e2 d c xc xf u (k, j, i) (isup (js d) fj) = b * (p2 xf fj - p2 xc j).
Proof. intros. cbn [e2]. unfold d2. rewrite (shift_linear _ _ _ _ b) by assumption. apply in_two in H2. destruct H2 as [_ [[-> ->]|[-> ->]]]; reflexivity. Qed.
Lemma e3_linear : forall d c xc xf u k j i b fk, p3 xc (k - 1)%Z < p3 xc k < p3 xc (k + 1)%Z -> u k j i - u (k - 1)%Z j i = b * (p3 xc k - p3 xc (k - 1)%Z) -> u (k + 1)%Z j i - u k j i = b * (p3 xc (k + 1)%Z - p3 xc k) ->
  In fk (two (ks d) (cks c) k) -> e3 d c xc xf u (k, j, i) (isup (ks d) fk) = b * (p3 xf fk - p3 xc k).
Proof. intros. cbn [e3]. unfold d3. rewrite (shift_linear _ _ _ _ b) by assumption. apply in_two in H2. destruct H2 as [_ [[-> ->]|[-> ->]]]; reflexivity. Qed.
Lemma prolong_linear : forall d c xc xf b u v a b1 b2 b3, layout d c -> (forall k j i, u k j i = a + b1 * p1 xc i + (if Z.ltb 1 (nx2 d) then b2 * p2 xc j else 0) + (if Z.ltb 1 (nx3 d) then b3 * p3 xc k else 0)) ->
  forall q, in_box d c b q -> spaced xc q -> forall k j i, In (k, j, i) (cells d c q) ->
  ProlongateCC d c xc xf b u v k j i = a + b1 * p1 xf i + (if Z.ltb 1 (nx2 d) then b2 * p2 xf j else 0) + (if Z.ltb 1 (nx3 d) then b3 * p3 xf k else 0).
Proof.
  intros d c xc xf b u v a b1 b2 b3 L U [[ck cj] ci] B [S1 [S2 S3]] k j i H. rewrite (prolong_val _ _ _ _ _ _ _ _ _ _ _ L B H). cbn [at_].
  unfold cells in H. apply in_combine in H. destruct H as [HK [HJ HI]]. unfold duo in *.
  rewrite (e1_linear _ _ _ _ _ _ _ _ b1) by (try assumption; rewrite !U; ring). rewrite U.
  dims3 L; rewrite ?(ltb1 _ D2), ?(ltb1 _ D3), ?(ltb0 _ D2), ?(ltb0 _ D3) in *.
  - rewrite (e2_linear _ _ _ _ _ _ _ _ b2), (e3_linear _ _ _ _ _ _ _ _ b3) by (try assumption; rewrite !U; ring). ring.
  - rewrite (e2_linear _ _ _ _ _ _ _ _ b2) by (try assumption; rewrite !U; ring). ring.
  - ring.
Qed.
(** Bounds. *)
Lemma tow : forall s cs x f, In f (two s cs x) -> towards f x s cs = if isup s f then (x + 1)%Z else (x - 1)%Z.
Proof. intros s cs x f H. apply in_two in H. unfold towards. destruct H as [_ [[-> ->]|[-> ->]]]; [rewrite Z.eqb_refl; reflexivity|]. destruct (Z.eqb_spec (s + 2 * (x - cs) + 1) (s + 2 * (x - cs))); [lia|reflexivity]. Qed.
Lemma e1_bound : forall d c xc xf u k j i fi, p1 xc (i - 1)%Z < p1 xc i < p1 xc (i + 1)%Z -> third (p1 xc) (p1 xf) (is_ d) (cis c) i -> In fi (two (is_ d) (cis c) i) ->
  let s := e1 d c xc xf u (k, j, i) (isup (is_ d) fi) in let n := u k j (towards fi i (is_ d) (cis c)) - u k j i in (0 <= 3 * s <= n \/ n <= 3 * s <= 0).
Proof.
  intros d c xc xf u k j i fi S [[T1 T2] [T3 T4]] H. cbv zeta. rewrite (tow _ _ _ _ H). cbn [e1]. unfold d1.
  pose proof (shift_bound (isup (is_ d) fi) (u k j (i - 1)%Z) (u k j i) (u k j (i + 1)%Z) _ _ _ _ _ S T1 T2 T3 T4) as X. cbv zeta in X. destruct (isup (is_ d) fi); exact X.
Qed.
Lemma e2_bound : forall d c xc xf u k j i fj, p2 xc (j - 1)%Z < p2 xc j < p2 xc (j + 1)%Z -> third (p2 xc) (p2 xf) (js d) (cjs c) j -> In fj (two (js d) (cjs c) j) ->
  let s := e2 d c xc xf u (k, j, i) (isup (js d) fj) in let n := u k (towards fj j (js d) (cjs c)) i - u k j i in (0 <= 3 * s <= n \/ n <= 3 * s <= 0).
Proof.
  intros d c xc xf u k j i fj S [[T1 T2] [T3 T4]] H. cbv zeta. rewrite (tow _ _ _ _ H). cbn [e2]. unfold d2.
  pose proof (shift_bound (isup (js d) fj) (u k (j - 1)%Z i) (u k j i) (u k (j + 1)%Z i) _ _ _ _ _ S T1 T2 T3 T4) as X. cbv zeta in X. destruct (isup (js d) fj); exact X.
Qed.
Lemma e3_bound : forall d c xc xf u k j i fk, p3 xc (k - 1)%Z < p3 xc k < p3 xc (k + 1)%Z -> third (p3 xc) (p3 xf) (ks d) (cks c) k -> In fk (two (ks d) (cks c) k) ->
  let s := e3 d c xc xf u (k, j, i) (isup (ks d) fk) in let n := u (towards fk k (ks d) (cks c)) j i - u k j i in (0 <= 3 * s <= n \/ n <= 3 * s <= 0).
Proof.
  intros d c xc xf u k j i fk S [[T1 T2] [T3 T4]] H. cbv zeta. rewrite (tow _ _ _ _ H). cbn [e3]. unfold d3.
  pose proof (shift_bound (isup (ks d) fk) (u (k - 1)%Z j i) (u k j i) (u (k + 1)%Z j i) _ _ _ _ _ S T1 T2 T3 T4) as X. cbv zeta in X. destruct (isup (ks d) fk); exact X.
Qed.
Lemma prolong_bound : forall d c xc xf b u v q p, layout d c -> in_box d c b q -> spaced xc q -> nested d c xc xf q -> In p (cells d c q) ->
  forall lo hi, (forall r, In r (nearby d c q p) -> lo <= at_ u r <= hi) -> lo <= at_ (ProlongateCC d c xc xf b u v) p <= hi.
Proof.
  intros d c xc xf b u v [[ck cj] ci] [[k j] i] L B [S1 [S2 S3]] [T1 [T2 T3]] H lo hi R. cbn [at_]. rewrite (prolong_val _ _ _ _ _ _ _ _ _ _ _ L B H). cbn [at_].
  unfold cells in H. apply in_combine in H. destruct H as [HK [HJ HI]]. unfold duo in *. unfold nearby in R.
  pose proof (e1_bound d c xc xf u ck cj ci i S1 T1 HI) as X1. cbv zeta in X1.
  pose proof (R (ck, cj, ci) ltac:(left; reflexivity)) as R0. pose proof (R _ (or_intror (or_introl eq_refl))) as R1. cbn [at_] in R0, R1.
  dims3 L; rewrite ?(ltb1 _ D2), ?(ltb1 _ D3), ?(ltb0 _ D2), ?(ltb0 _ D3) in *; cbn [app] in R.
  - pose proof (R _ (or_intror (or_intror (or_introl eq_refl)))) as R2. pose proof (R _ (or_intror (or_intror (or_intror (or_introl eq_refl))))) as R3. cbn [at_] in R2, R3.
    pose proof (e2_bound d c xc xf u ck cj ci j S2 T2 HJ) as X2. pose proof (e3_bound d c xc xf u ck cj ci k S3 T3 HK) as X3. cbv zeta in X2, X3. clear R. lra.
  - pose proof (R _ (or_intror (or_intror (or_introl eq_refl)))) as R2. cbn [at_] in R2. pose proof (e2_bound d c xc xf u ck cj ci j S2 T2 HJ) as X2. cbv zeta in X2. clear R. lra.
  - clear R. lra.
Qed.
(** The mean of the prolonged values. *)
Lemma e1_mean : forall d c xc xf u k j i w, centroid w (p1 xc) (p1 xf) (is_ d) (cis c) i -> let m := (is_ d + 2 * (i - cis c))%Z in w m * e1 d c xc xf u (k, j, i) false + w (m + 1)%Z * e1 d c xc xf u (k, j, i) true = 0.
Proof. intros. apply shift_centroid. exact H. Qed.
Lemma e2_mean : forall d c xc xf u k j i w, centroid w (p2 xc) (p2 xf) (js d) (cjs c) j -> let m := (js d + 2 * (j - cjs c))%Z in w m * e2 d c xc xf u (k, j, i) false + w (m + 1)%Z * e2 d c xc xf u (k, j, i) true = 0.
Proof. intros. apply shift_centroid. exact H. Qed.
Lemma e3_mean : forall d c xc xf u k j i w, centroid w (p3 xc) (p3 xf) (ks d) (cks c) k -> let m := (ks d + 2 * (k - cks c))%Z in w m * e3 d c xc xf u (k, j, i) false + w (m + 1)%Z * e3 d c xc xf u (k, j, i) true = 0.
Proof. intros. apply shift_centroid. exact H. Qed.
Lemma prolong_mean : forall d c xc xf b u v vol w1 w2 w3 q, layout d c -> in_box d c b q -> sep vol w1 w2 w3 ->
  centroid w1 (p1 xc) (p1 xf) (is_ d) (cis c) (snd q) -> ((1 < nx2 d)%Z -> centroid w2 (p2 xc) (p2 xf) (js d) (cjs c) (snd (fst q))) -> ((1 < nx3 d)%Z -> centroid w3 (p3 xc) (p3 xf) (ks d) (cks c) (fst (fst q))) ->
  through vol (ProlongateCC d c xc xf b u v) (cells d c q) = at_ u q * sum (map (at_ vol) (cells d c q)).
Proof.
  intros d c xc xf b u v vol w1 w2 w3 [[ck cj] ci] L B SP C1 C2 C3. cbn [fst snd] in C1, C2, C3. unfold through.
  rewrite (sum_ext _ (fun p => at_ vol p * at_ (ProlongateCC d c xc xf b u v) p)
    (fun p => at_ vol p * (at_ u (ck, cj, ci) + (e1 d c xc xf u (ck, cj, ci) (isup (is_ d) (snd p)) + (if Z.ltb 1 (nx2 d) then e2 d c xc xf u (ck, cj, ci) (isup (js d) (snd (fst p))) else 0) + (if Z.ltb 1 (nx3 d) then e3 d c xc xf u (ck, cj, ci) (isup (ks d) (fst (fst p))) else 0)))));
    [|intros p Hp; destruct p as [[k j] i]; cbn [at_ fst snd]; rewrite (prolong_val _ _ _ _ _ _ _ _ _ _ _ L B Hp); reflexivity].
  pose proof (e1_mean d c xc xf u ck cj ci w1 C1) as M1. cbv zeta in M1. unfold cells, combine3, duo, two. cbn [at_].
  dims3 L; nxs.
  - pose proof (e2_mean d c xc xf u ck cj ci w2 (C2 D2)) as M2. pose proof (e3_mean d c xc xf u ck cj ci w3 (C3 D3)) as M3. cbv zeta in M2, M3.
    cbn [flat_map map app fst snd]. rewrite !sum_cons, !sum_nil. rewrite !is0, !is1. cbn [at_] in *. rewrite !SP.
    set (a := w1 (is_ d + 2 * (ci - cis c))%Z) in *. set (a' := w1 (is_ d + 2 * (ci - cis c) + 1)%Z) in *. set (f := w2 (js d + 2 * (cj - cjs c))%Z) in *. set (f' := w2 (js d + 2 * (cj - cjs c) + 1)%Z) in *.
    set (g := w3 (ks d + 2 * (ck - cks c))%Z) in *. set (g' := w3 (ks d + 2 * (ck - cks c) + 1)%Z) in *.
    generalize dependent (e1 d c xc xf u (ck, cj, ci) false). intros y1. generalize (e1 d c xc xf u (ck, cj, ci) true). intros y1' M1. generalize dependent (e2 d c xc xf u (ck, cj, ci) false). intros y2. generalize (e2 d c xc xf u (ck, cj, ci) true). intros y2' M2.
    generalize dependent (e3 d c xc xf u (ck, cj, ci) false). intros y3. generalize (e3 d c xc xf u (ck, cj, ci) true). intros y3' M3.
    transitivity (u ck cj ci * ((g + g') * (f + f') * (a + a')) + (g + g') * (f + f') * (a * y1 + a' * y1') + (g + g') * (a + a') * (f * y2 + f' * y2') + (f + f') * (a + a') * (g * y3 + g' * y3')); [ring|].
    rewrite M1, M2, M3. ring.
  - pose proof (e2_mean d c xc xf u ck cj ci w2 (C2 D2)) as M2. cbv zeta in M2.
    cbn [flat_map map app fst snd]. rewrite !sum_cons, !sum_nil. rewrite !is0, !is1. cbn [at_] in *. rewrite !SP.
    set (a := w1 (is_ d + 2 * (ci - cis c))%Z) in *. set (a' := w1 (is_ d + 2 * (ci - cis c) + 1)%Z) in *. set (f := w2 (js d + 2 * (cj - cjs c))%Z) in *. set (f' := w2 (js d + 2 * (cj - cjs c) + 1)%Z) in *. set (g := w3 (ks d)) in *.
    generalize dependent (e1 d c xc xf u (ck, cj, ci) false). intros y1. generalize (e1 d c xc xf u (ck, cj, ci) true). intros y1' M1. generalize dependent (e2 d c xc xf u (ck, cj, ci) false). intros y2. generalize (e2 d c xc xf u (ck, cj, ci) true). intros y2' M2.
    transitivity (u ck cj ci * (g * (f + f') * (a + a')) + g * (f + f') * (a * y1 + a' * y1') + g * (a + a') * (f * y2 + f' * y2')); [ring|]. rewrite M1, M2. ring.
  - cbn [flat_map map app fst snd]. rewrite !sum_cons, !sum_nil. rewrite !is0, !is1. cbn [at_] in *. rewrite !SP.
    set (a := w1 (is_ d + 2 * (ci - cis c))%Z) in *. set (a' := w1 (is_ d + 2 * (ci - cis c) + 1)%Z) in *. set (f := w2 (js d)) in *. set (g := w3 (ks d)) in *.
    generalize dependent (e1 d c xc xf u (ck, cj, ci) false). intros y1. generalize (e1 d c xc xf u (ck, cj, ci) true). intros y1' M1.
    transitivity (u ck cj ci * (g * f * (a + a')) + g * f * (a * y1 + a' * y1')); [ring|]. rewrite M1. ring.
Qed.
(** Entries outside are left alone. *)
Lemma prolong_out : forall d c xc xf b u v k j i, layout d c -> (forall q, in_box d c b q -> ~ In (k, j, i) (cells d c q)) -> ProlongateCC d c xc xf b u v k j i = v k j i.
Proof.
  intros d c xc xf b u v k j i L H. unfold ProlongateCC; cbv zeta.
  assert (IN : forall s cs x, In x (two s cs (cs + up s x)%Z)). { intros s cs x. unfold two, up. pose proof (Z.div_mod (x - s) 2 ltac:(lia)) as E. pose proof (Z.mod_pos_bound (x - s) 2 ltac:(lia)). destruct (Z.eq_dec ((x - s) mod 2) 0); [left|right; left]; lia. }
  specialize (H ((cks c + up (ks d) k)%Z, (cjs c + up (js d) j)%Z, (cis c + up (is_ d) i)%Z)) as H3.
  specialize (H (cks c, (cjs c + up (js d) j)%Z, (cis c + up (is_ d) i)%Z)) as H2. specialize (H (cks c, cjs c, (cis c + up (is_ d) i)%Z)) as H1. unfold in_box, cells, duo in *.
  dims3 L; nxs; rewrite ?(ltb1 _ D2), ?(ltb1 _ D3), ?(ltb0 _ D2), ?(ltb0 _ D3) in *; match goal with |- (if ?t then _ else _) = _ => destruct t eqn:E; [exfalso|reflexivity] end;
  apply andb_true_iff in E; destruct E as [E EI]; apply andb_true_iff in E; destruct E as [EK EJ]; rewrite ?within_iff, ?Z.eqb_eq in *.
  - apply H3; [tauto|]. apply in_combine. auto.
  - apply H2; [tauto|]. apply in_combine. subst k. cbn [In]. auto.
  - apply H1; [tauto|]. apply in_combine. subst k j. cbn [In]. auto.
Qed.
