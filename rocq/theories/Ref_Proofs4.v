From Coq Require Import Reals ZArith List Bool Lia Lra Psatz.
From Verif Require Import Fv_Model Fv_Spec Fv_Proofs Fv_Proofs2 Ref_Model Ref_Spec Ref_Proofs Ref_Proofs2 Ref_Proofs3.
Import ListNotations.
Local Open Scope R_scope.

Lemma internal2 : forall d c g S1 S2 S3 bx b ck cj ci, layout d c -> nx3 d = 1%Z -> (1 < nx2 d)%Z -> in_box d c bx (ck, cj, ci) -> inner_areas d c g (ck, cj, ci) ->
  forall k j i, In (k, j, i) (cells d c (ck, cj, ci)) -> flat d g b (k, j, i) -> net_flux g (ProlongateInternal d c g S1 S2 S3 bx b) k j i = out_of d c g b (ck, cj, ci) / 4.
Proof.
  intros d c g S1 S2 S3 bx b ck cj ci L D3 D2 B IA k j i H FL. unfold in_box in B. rewrite (ltb1 _ D2), (ltb0 _ D3) in B.
  unfold inner_areas in IA. cbn [fst snd] in IA. unfold cells, duo in IA, H. rewrite (ltb1 _ D2), (ltb0 _ D3) in IA, H.
  unfold out_of. rewrite (ltb1 _ D2), (ltb0 _ D3). unfold through, faces1, faces2, combine3, duo. rewrite (ltb1 _ D2), (ltb0 _ D3). unfold two.
  replace (js d + 2 * (cj + 1 - cjs c))%Z with (js d + 2 * (cj - cjs c) + 2)%Z by ring. replace (is_ d + 2 * (ci + 1 - cis c))%Z with (is_ d + 2 * (ci - cis c) + 2)%Z by ring.
  assert (N1 : forall y, A1 g (ks d) (js d + 2 * (cj - cjs c) + o y)%Z (is_ d + 2 * (ci - cis c) + 1)%Z <> 0).
  { intros y. apply (IA _ _ (is_ d + 2 * (ci - cis c))%Z). apply in_combine. unfold two, o. destruct y; rewrite ?Z.add_0_r; cbn [In]; auto. }
  assert (N2 : forall z, A2 g (ks d) (js d + 2 * (cj - cjs c) + 1)%Z (is_ d + 2 * (ci - cis c) + o z)%Z <> 0).
  { intros z. apply (IA _ (js d + 2 * (cj - cjs c))%Z _); [|exact D2]. apply in_combine. unfold two, o. destruct z; rewrite ?Z.add_0_r; cbn [In]; auto. }
  clear IA. apply in_combine in H. destruct H as [[<-|[]] [HJ HI]].
  pose proof (r1_0 d c g S1 S2 S3 bx b ci) as r10. pose proof (r1_2 d c g S1 S2 S3 bx b ci) as r12. pose proof (r2_0 d c g S1 S2 S3 bx b cj) as r20. pose proof (r2_2 d c g S1 S2 S3 bx b cj) as r22.
  assert (r11 : forall y, x1 (ProlongateInternal d c g S1 S2 S3 bx b) (ks d) (js d + 2 * (cj - cjs c) + o y)%Z (is_ d + 2 * (ci - cis c) + 1)%Z = plane1 g b (ks d) (js d + 2 * (cj - cjs c))%Z (is_ d + 2 * (ci - cis c))%Z y).
  { intros. unfold ProlongateInternal; cbn [x1]; cbv zeta. rewrite is1, (ltb0 _ D3), (ltb1 _ D2), !bit_up, !bit_is, up1. rewrite !within_true, Z.eqb_refl by lia. cbn [andb]. rewrite fI_eq, fJ_eq. reflexivity. }
  assert (r21 : forall z, x2 (ProlongateInternal d c g S1 S2 S3 bx b) (ks d) (js d + 2 * (cj - cjs c) + 1)%Z (is_ d + 2 * (ci - cis c) + o z)%Z = plane2 g b (ks d) (js d + 2 * (cj - cjs c))%Z (is_ d + 2 * (ci - cis c))%Z z).
  { intros. unfold ProlongateInternal; cbn [x2]; cbv zeta. rewrite is1, (ltb0 _ D3), (ltb1 _ D2), !bit_up, !bit_is, up1. rewrite !within_true, Z.eqb_refl by lia. cbn [andb]. rewrite fI_eq, fJ_eq. reflexivity. }
  assert (r3 : forall k j i, x3 (ProlongateInternal d c g S1 S2 S3 bx b) k j i = x3 b k j i) by (intros; unfold ProlongateInternal; cbn [x3]; cbv zeta; rewrite (ltb0 _ D3); destruct (isup (ks d) k); reflexivity).
  cbv zeta in *. destruct FL as [_ FL]. specialize (FL D3).
  set (r := ProlongateInternal d c g S1 S2 S3 bx b) in *. clearbody r.
  destruct (bit _ _ _ _ HJ) as [EJ _]. destruct (bit _ _ _ _ HI) as [EI _]. set (J := (js d + 2 * (cj - cjs c))%Z) in *. set (I := (is_ d + 2 * (ci - cis c))%Z) in *.
  generalize dependent (isup (js d) j). generalize dependent (isup (is_ d) i). intros z -> y ->. clear HJ HI. clearbody J I. set (K := ks d) in *. clearbody K.
  unfold net_flux. rewrite !r3, FL. clear FL r3.
  assert (T1 : forall y, A1 g K (J + o y)%Z (I + 1)%Z * x1 r K (J + o y)%Z (I + 1)%Z = 1 / 2 * (flux1 g b K (J + o y)%Z I + flux1 g b K (J + o y)%Z (I + 2)%Z) + tmp1 g b K J I).
  { intros y'. rewrite r11. unfold plane1; cbv zeta. apply mul_div'. apply N1. }
  assert (T2 : forall z, A2 g K (J + 1)%Z (I + o z)%Z * x2 r K (J + 1)%Z (I + o z)%Z = 1 / 2 * (flux2 g b K J (I + o z)%Z + flux2 g b K (J + 2)%Z (I + o z)%Z) + tmp2 g b K J I).
  { intros y'. rewrite r21. unfold plane2; cbv zeta. apply mul_div'. apply N2. }
  assert (P1 : forall k j, A1 g k j I * x1 r k j I = flux1 g b k j I) by (intros; rewrite r10; unfold flux1; ring). assert (P1' : forall k j, A1 g k j (I + 2)%Z * x1 r k j (I + 2)%Z = flux1 g b k j (I + 2)%Z) by (intros; rewrite r12; unfold flux1; ring).
  assert (P2 : forall k i, A2 g k J i * x2 r k J i = flux2 g b k J i) by (intros; rewrite r20; unfold flux2; ring). assert (P2' : forall k i, A2 g k (J + 2)%Z i * x2 r k (J + 2)%Z i = flux2 g b k (J + 2)%Z i) by (intros; rewrite r22; unfold flux2; ring).
  assert (F1 : forall k j i, A1 g k j i * x1 b k j i = flux1 g b k j i) by (intros; unfold flux1; ring). assert (F2 : forall k j i, A2 g k j i * x2 b k j i = flux2 g b k j i) by (intros; unfold flux2; ring).
  cbn [flat_map map app at_]. rewrite !sum_cons, !sum_nil. rewrite !F1, !F2. clear F1 F2 r10 r12 r20 r22 r11 r21.
  assert (G1 : A1 g K (J + o y)%Z (I + o z + 1)%Z * x1 r K (J + o y)%Z (I + o z + 1)%Z - A1 g K (J + o y)%Z (I + o z)%Z * x1 r K (J + o y)%Z (I + o z)%Z = 1 / 2 * (flux1 g b K (J + o y)%Z (I + 2)%Z - flux1 g b K (J + o y)%Z I) - sg z * tmp1 g b K J I).
  { destruct z; cbn [o]; [replace (I + 1 + 1)%Z with (I + 2)%Z by ring|rewrite Z.add_0_r]; rewrite ?P1, ?P1', T1; unfold sg; lra. }
  assert (G2 : A2 g K (J + o y + 1)%Z (I + o z)%Z * x2 r K (J + o y + 1)%Z (I + o z)%Z - A2 g K (J + o y)%Z (I + o z)%Z * x2 r K (J + o y)%Z (I + o z)%Z = 1 / 2 * (flux2 g b K (J + 2)%Z (I + o z)%Z - flux2 g b K J (I + o z)%Z) - sg y * tmp2 g b K J I).
  { destruct y; cbn [o]; [replace (J + 1 + 1)%Z with (J + 2)%Z by ring|rewrite Z.add_0_r]; rewrite ?P2, ?P2', T2; unfold sg; lra. }
  rewrite G1, G2. unfold tmp1, tmp2, sg. destruct y, z; cbn [o]; rewrite ?Z.add_0_r; lra.
Qed.
(** In one dimension the lower cell keeps the flux of the lower face, the upper one gets the difference. *)
Lemma internal1 : forall d c g S1 S2 S3 bx b ck cj ci, layout d c -> nx3 d = 1%Z -> nx2 d = 1%Z -> in_box d c bx (ck, cj, ci) -> inner_areas d c g (ck, cj, ci) ->
  forall k j i, In (k, j, i) (cells d c (ck, cj, ci)) -> flat d g b (k, j, i) -> net_flux g (ProlongateInternal d c g S1 S2 S3 bx b) k j i = if isup (is_ d) i then out_of d c g b (ck, cj, ci) else 0.
Proof.
  intros d c g S1 S2 S3 bx b ck cj ci L D3 D2 B IA k j i H FL. destruct L as [_ [_ [L2 L3]]]. destruct (L2 D2) as [_ [L2a L2b]]. destruct (L3 D3) as [L3a L3b].
  unfold in_box in B. rewrite (ltb0 _ D2), (ltb0 _ D3) in B. destruct B as [B _].
  unfold inner_areas in IA. cbn [fst snd] in IA. unfold cells, duo in IA, H. rewrite (ltb0 _ D2), (ltb0 _ D3) in IA, H.
  unfold out_of. rewrite (ltb0 _ D2), (ltb0 _ D3). unfold through, faces1, combine3, duo. rewrite (ltb0 _ D2), (ltb0 _ D3).
  replace (is_ d + 2 * (ci + 1 - cis c))%Z with (is_ d + 2 * (ci - cis c) + 2)%Z by ring.
  assert (N1 : A1 g (ks d) (js d) (is_ d + 2 * (ci - cis c) + 1)%Z <> 0). { apply (IA _ _ (is_ d + 2 * (ci - cis c))%Z). apply in_combine. unfold two. cbn [In]; auto. }
  clear IA. apply in_combine in H. destruct H as [[<-|[]] [[<-|[]] HI]].
  pose proof (r1_0 d c g S1 S2 S3 bx b ci (ks d) (js d)) as r10. pose proof (r1_2 d c g S1 S2 S3 bx b ci (ks d) (js d)) as r12.
  assert (r11 : x1 (ProlongateInternal d c g S1 S2 S3 bx b) (ks d) (js d) (is_ d + 2 * (ci - cis c) + 1)%Z = A1 g (ks d) (js d) (is_ d + 2 * (ci - cis c))%Z * x1 b (ks d) (js d) (is_ d + 2 * (ci - cis c))%Z / A1 g (ks d) (js d) (is_ d + 2 * (ci - cis c) + 1)%Z).
  { unfold ProlongateInternal; cbn [x1]; cbv zeta. rewrite is1, (ltb0 _ D3), (ltb0 _ D2), up1. rewrite !within_true by lia. rewrite L2a, L3a. cbn [andb Z.eqb]. rewrite fI_eq. reflexivity. }
  assert (r3 : forall k j i, x3 (ProlongateInternal d c g S1 S2 S3 bx b) k j i = x3 b k j i) by (intros; unfold ProlongateInternal; cbn [x3]; cbv zeta; rewrite (ltb0 _ D3); destruct (isup (ks d) k); reflexivity).
  assert (r2 : forall k j i, x2 (ProlongateInternal d c g S1 S2 S3 bx b) k j i = x2 b k j i) by (intros; unfold ProlongateInternal; cbn [x2]; cbv zeta; rewrite (ltb0 _ D3), (ltb0 _ D2); destruct (isup (js d) j); reflexivity).
  cbv zeta in *. destruct FL as [FL2 FL3]. specialize (FL3 D3). specialize (FL2 D2).
  unfold net_flux. rewrite !r3, !r2, FL2, FL3. set (r := ProlongateInternal d c g S1 S2 S3 bx b) in *. clearbody r. apply in_two in HI. destruct HI as [_ [[-> ->]|[-> ->]]].
  - rewrite r11, r10. field. exact N1.
  - replace (is_ d + 2 * (ci - cis c) + 1 + 1)%Z with (is_ d + 2 * (ci - cis c) + 2)%Z by ring. rewrite r11, r12. cbn [flat_map map app at_]. rewrite !sum_cons, !sum_nil. field. exact N1.
Qed.
Lemma internal : forall d c g S1 S2 S3 bx b q p, layout d c -> in_box d c bx q -> inner_areas d c g q -> widths S1 S2 S3 -> In p (cells d c q) -> flat d g b p -> out_of d c g b q = 0 ->
  net_flux g (ProlongateInternal d c g S1 S2 S3 bx b) (fst (fst p)) (snd (fst p)) (snd p) = 0.
Proof.
  intros d c g S1 S2 S3 bx b [[ck cj] ci] [[k j] i] L B IA W H FL Z0. cbn [fst snd]. destruct (nx_cases _ _ L) as [[D3 D2]|[[D3 D2]|[D3 D2]]].
  - rewrite (internal3 d c g S1 S2 S3 bx b ck cj ci D3 D2 B IA W k j i H), Z0. lra.
  - rewrite (internal2 d c g S1 S2 S3 bx b ck cj ci L D3 D2 B IA k j i H FL), Z0. lra.
  - rewrite (internal1 d c g S1 S2 S3 bx b ck cj ci L D3 D2 B IA k j i H FL), Z0. destruct (isup (is_ d) i); reflexivity.
Qed.

(** ** All steps *)
Lemma through_ext : forall a u v l, (forall p, In p l -> at_ u p = at_ v p) -> through a u l = through a v l.
Proof. intros a u v l H. unfold through. apply sum_ext. intros p Hp. rewrite (H p Hp). reflexivity. Qed.
Lemma within_no : forall a b x, ~ (a <= x <= b)%Z -> within a b x = false.
Proof. intros a b x H. destruct (within a b x) eqn:E; [apply within_iff in E; contradiction|reflexivity]. Qed.
Lemma out1 : forall fl d c xc xf af ac b u v f, ~ (si b <= snd f <= ei b)%Z -> forall p, In p (faces1 d c f) -> at_ (SharedX1 fl d c xc xf af ac b u v) p = at_ v p.
Proof.
  intros fl d c xc xf af ac b u v [[ck cj] ci] N [[k j] i] H. cbn [fst snd] in N. unfold faces1 in H. apply in_combine in H. destruct H as [_ [_ [<-|[]]]]. cbn [at_]. unfold SharedX1; cbv zeta. rewrite is0, up0. rewrite (within_no _ _ _ N), !andb_false_r.
  destruct (Z.ltb 1 (nx3 d)), (Z.ltb 1 (nx2 d)); reflexivity.
Qed.
Lemma out2 : forall tiny fl d c xc xf af ac b u v f, (1 < nx2 d)%Z -> ~ (sj b <= snd (fst f) <= ej b)%Z -> forall p, In p (faces2 d c f) -> at_ (SharedX2 tiny fl d c xc xf af ac b u v) p = at_ v p.
Proof.
  intros tiny fl d c xc xf af ac b u v [[ck cj] ci] D2 N [[k j] i] H. cbn [fst snd] in N. unfold faces2 in H. apply in_combine in H. destruct H as [_ [[<-|[]] _]]. cbn [at_]. unfold SharedX2; cbv zeta. rewrite is0, up0. rewrite (within_no _ _ _ N), (ltb1 _ D2), !andb_false_r.
  destruct (Z.ltb 1 (nx3 d)); reflexivity.
Qed.
Lemma out3 : forall fl d c xc xf af ac b u v f, (1 < nx3 d)%Z -> ~ (sk b <= fst (fst f) <= ek b)%Z -> forall p, In p (faces3 d c f) -> at_ (SharedX3 fl d c xc xf af ac b u v) p = at_ v p.
Proof.
  intros fl d c xc xf af ac b u v [[ck cj] ci] D3 N [[k j] i] H. cbn [fst snd] in N. unfold faces3 in H. apply in_combine in H. destruct H as [[<-|[]] _]. cbn [at_]. unfold SharedX3; cbv zeta. rewrite is0, up0. rewrite (within_no _ _ _ N), (ltb1 _ D3). reflexivity.
Qed.
Lemma all_steps : forall tiny fl d c g gc P1 F1 P2 F2 P3 F3 S1 S2 S3 bx il iu jl ju kl ku u v ck cj ci,
  layout d c -> in_box d c bx (ck, cj, ci) -> inner_areas d c g (ck, cj, ci) -> widths S1 S2 S3 -> flat_areas d g ->
  (forall i, (i = ci \/ i = ci + 1)%Z -> carried1 fl d c g gc P1 F1 il iu u v (ck, cj, i)) ->
  ((1 < nx2 d)%Z -> forall j, (j = cj \/ j = cj + 1)%Z -> carried2 tiny fl d c g gc P2 F2 jl ju u v (ck, j, ci)) ->
  ((1 < nx3 d)%Z -> forall k, (k = ck \/ k = ck + 1)%Z -> carried3 fl d c g gc P3 F3 kl ku u v (k, cj, ci)) ->
  coarse_out d gc u (ck, cj, ci) = 0 ->
  forall p, In p (cells d c (ck, cj, ci)) -> net_flux g (ProlongateField tiny fl d c g gc P1 F1 P2 F2 P3 F3 S1 S2 S3 bx il iu jl ju kl ku u v) (fst (fst p)) (snd (fst p)) (snd p) = 0.
Proof.
  intros tiny fl d c g gc P1 F1 P2 F2 P3 F3 S1 S2 S3 bx il iu jl ju kl ku u v ck cj ci L B IA W FA C1 C2 C3 CO p H. unfold ProlongateField.
  apply internal with (q := (ck, cj, ci)); try assumption.
  - (* flat *)
    destruct p as [[k j] i]. unfold flat. unfold cells in H. apply in_combine in H. destruct H as [HK [HJ HI]]. apply in_two in HI. destruct HI as [UI _]. destruct FA as [FA2 FA3]. unfold in_box in B. split; intros D; unfold duo in HK, HJ; rewrite (ltb0 _ D) in *.
    + destruct (proj1 (proj2 (proj2 L)) D) as [D3 [L2 L2']]. destruct (proj2 (proj2 (proj2 L)) D3) as [L3 L3']. rewrite (ltb0 _ D3) in *. destruct HK as [<-|[]]. destruct HJ as [<-|[]]. rewrite (FA2 D). f_equal. cbn [x2]. unfold SharedX2; cbv zeta. rewrite UI, (ltb0 _ D), (ltb0 _ D3), L2, L3, !within_true by (cbn [si ei]; lia). reflexivity.
    + destruct (proj2 (proj2 (proj2 L)) D) as [L3 L3']. destruct HK as [<-|[]]. rewrite (FA3 D). f_equal. cbn [x3]. unfold SharedX3; cbv zeta. rewrite UI, (ltb0 _ D). cbn [si ei sj ej]. rewrite (within_true (si bx) (ei bx) ci), (within_true (ks d) (ks d + 1) (ks d)), (within_true (ks d) (ks d + 1) (ks d + 1)) by lia. destruct (Z.ltb 1 (nx2 d)) eqn:D2.
      * apply in_two in HJ. destruct HJ as [-> _]. rewrite within_true by lia. reflexivity.
      * rewrite L3. assert (D2' : nx2 d = 1%Z) by (unfold nx2 in *; destruct L as [L1 _]; apply Z.ltb_ge in D2; lia). destruct (proj1 (proj2 (proj2 L)) D2') as [_ [L2 _]]. destruct HJ as [<-|[]]. rewrite L2. reflexivity.
  - (* total *)
    assert (Q1 : forall i, (i = ci \/ i = ci + 1)%Z -> through (A1 g) (SharedX1 fl d c P1 F1 (A1 g) (A1 gc) (mkBox il iu (sj bx) (ej bx) (sk bx) (ek bx)) (x1 u) (x1 v)) (faces1 d c (ck, cj, i)) = A1 gc ck cj i * x1 u ck cj i).
    { intros i E. specialize (C1 i E). destruct C1 as [[R [O S]]|[N X]].
      - rewrite shared1; [unfold same_area in S; rewrite S; cbn [at_]; ring|assumption| |exact O]. unfold in_box in *. cbn [si ei sj ej sk ek snd] in *. tauto.
      - rewrite (through_ext _ _ (x1 v)); [exact X|]. apply out1. cbn [si ei]. exact N. }
    assert (Q2 : (1 < nx2 d)%Z -> forall j, (j = cj \/ j = cj + 1)%Z -> through (A2 g) (SharedX2 tiny fl d c P2 F2 (A2 g) (A2 gc) (mkBox (si bx) (ei bx) jl ju (sk bx) (ek bx)) (x2 u) (x2 v)) (faces2 d c (ck, j, ci)) = A2 gc ck j ci * x2 u ck j ci).
    { intros D2 j E. specialize (C2 D2 j E). destruct C2 as [[R [O S]]|[N X]].
      - rewrite shared2; [unfold same_area in S; rewrite S; cbn [at_]; ring|assumption| |exact O]. unfold in_box in *. cbn [si ei sj ej sk ek snd fst] in *. rewrite (ltb1 _ D2) in *. tauto.
      - rewrite (through_ext _ _ (x2 v)); [exact X|]. apply out2; [exact D2|]. cbn [sj ej]. exact N. }
    assert (Q3 : (1 < nx3 d)%Z -> forall k, (k = ck \/ k = ck + 1)%Z -> through (A3 g) (SharedX3 fl d c P3 F3 (A3 g) (A3 gc) (mkBox (si bx) (ei bx) (sj bx) (ej bx) kl ku) (x3 u) (x3 v)) (faces3 d c (k, cj, ci)) = A3 gc k cj ci * x3 u k cj ci).
    { intros D3 k E. specialize (C3 D3 k E). destruct C3 as [[R [O S]]|[N X]].
      - rewrite shared3; [unfold same_area in S; rewrite S; cbn [at_]; ring|assumption| |exact O]. unfold in_box in *. cbn [si ei sj ej sk ek snd fst] in *. rewrite (ltb1 _ D3) in *. tauto.
      - rewrite (through_ext _ _ (x3 v)); [exact X|]. apply out3; [exact D3|]. cbn [sk ek]. exact N. }
    unfold out_of; cbn [x1 x2 x3]. unfold coarse_out in CO. rewrite !Q1 by auto. destruct (Z.ltb 1 (nx2 d)) eqn:D2; destruct (Z.ltb 1 (nx3 d)) eqn:D3; rewrite ?Z.ltb_lt in *; rewrite ?Q2, ?Q3 by auto; exact CO.
Qed.

(** ** Uniform grids *)
Lemma even_spaced : forall x f s cs, even_grid x f s cs -> forall a, x (a - 1)%Z < x a < x (a + 1)%Z.
Proof. intros x f s cs [x0 [h [H [X _]]]] a. rewrite !X, minus_IZR, plus_IZR. lra. Qed.
Lemma even_third : forall x f s cs, even_grid x f s cs -> forall a, third x f s cs a.
Proof. intros x f s cs [x0 [h [H [X F]]]] a. unfold third; cbv zeta. destruct (F a) as [-> ->]. rewrite !X, minus_IZR, plus_IZR. lra. Qed.
Lemma even_centroid : forall x f s cs, even_grid x f s cs -> forall w a, w (s + 2 * (a - cs))%Z = w (s + 2 * (a - cs) + 1)%Z -> centroid w x f s cs a.
Proof. intros x f s cs [x0 [h [H [X F]]]] w a E. unfold centroid; cbv zeta. destruct (F a) as [-> ->]. rewrite E. lra. Qed.
Lemma even_centroid1 : forall x f s cs, even_grid x f s cs -> forall a, centroid (fun _ => 1) x f s cs a.
Proof. intros. apply even_centroid; auto. Qed.
(** Restriction undoes prolongation. *)
Lemma inverse : forall d c xc xf b u v vol w1 w2 w3 u' q, layout d c -> in_box d c b q -> sep vol w1 w2 w3 -> positive vol (cells d c q) ->
  centroid w1 (p1 xc) (p1 xf) (is_ d) (cis c) (snd q) -> ((1 < nx2 d)%Z -> centroid w2 (p2 xc) (p2 xf) (js d) (cjs c) (snd (fst q))) -> ((1 < nx3 d)%Z -> centroid w3 (p3 xc) (p3 xf) (ks d) (cks c) (fst (fst q))) ->
  at_ (RestrictCC d c vol (ProlongateCC d c xc xf b u v) b u') q = at_ u q.
Proof.
  intros d c xc xf b u v vol w1 w2 w3 u' q L B SP P C1 C2 C3. destruct (restrict_cc d c vol (ProlongateCC d c xc xf b u v) b u' q L B P) as [E _]. fold (through vol (ProlongateCC d c xc xf b u v) (cells d c q)) in E.
  rewrite (prolong_mean d c xc xf b u v vol w1 w2 w3 q L B SP C1 C2 C3) in E. apply Rmult_eq_reg_r in E; [exact E|].
  assert (0 < sum (map (at_ vol) (cells d c q))); [|lra]. apply sum_pos. - intros x Hx. apply in_map_iff in Hx. destruct Hx as [p [<- Hp]]. apply P; exact Hp. - destruct q as [[k j] i]. unfold cells, combine3, duo, two. destruct (Z.ltb 1 (nx3 d)), (Z.ltb 1 (nx2 d)); discriminate.
Qed.
