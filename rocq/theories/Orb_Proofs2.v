(** The remap as a displacement of the reconstructed profile. *)
From Coq Require Import Reals ZArith List Bool Lia Lra Psatz.
From Verif Require Import Time_Model Time_Proofs2 Fv_Model Fv_Spec Fv_Proofs2 Rec_Model Rec_Spec Orb_Model Orb_Spec Orb_Proofs.
Import ListNotations.
Local Open Scope R_scope.

(** ** Locality *)
(** q around i looks like q' around i', from a to b cells away. *)
Definition alike (q q' : line) (i i' a b : Z) : Prop := forall d, (a <= d <= b)%Z -> q (i + d)%Z = q' (i' + d)%Z.
Lemma alike_at : forall q q' i i' a b z z', alike q q' i i' a b -> (z - i = z' - i')%Z -> (a <= z - i <= b)%Z -> q z = q' z'.
Proof. intros q q' i i' a b z z' H E R. replace z with (i + (z - i))%Z by lia. rewrite H by assumption. f_equal. lia. Qed.
Lemma alike_shift : forall q q' i i' a b k a' b', alike q q' i i' a b -> (a <= k + a')%Z -> (k + b' <= b)%Z -> alike q q' (i + k) (i' + k) a' b'.
Proof. intros q q' i i' a b k a' b' H A B d D. eapply alike_at; [exact H|lia|lia]. Qed.
Ltac same H := eapply alike_at; [exact H|lia|lia].
Lemma second_local : forall q q' i i', alike q q' i i' (-1) 1 -> second q i = second q' i'.
Proof.
  intros q q' i i' H. unfold second.
  replace (q (i - 1)%Z) with (q' (i' - 1)%Z) by (symmetry; same H). replace (q (i + 1)%Z) with (q' (i' + 1)%Z) by (symmetry; same H). replace (q i) with (q' i') by (symmetry; same H). reflexivity.
Qed.
Lemma slope_local : forall q q' i i', alike q q' i i' (-1) 1 -> slope_dd uniform_c q i = slope_dd uniform_c q' i'.
Proof.
  intros q q' i i' H. unfold slope_dd.
  replace (q (i - 1)%Z) with (q' (i' - 1)%Z) by (symmetry; same H). replace (q (i + 1)%Z) with (q' (i' + 1)%Z) by (symmetry; same H). replace (q i) with (q' i') by (symmetry; same H). reflexivity.
Qed.
Lemma face_local : forall q q' i i', alike q q' i i' (-2) 1 -> ppm_face false uniform_c q i = ppm_face false uniform_c q' i'.
Proof.
  intros q q' i i' H. unfold ppm_face.
  rewrite (slope_local q q' (i - 1) (i' - 1)) by (apply (alike_shift _ _ _ _ _ _ (-1) _ _ H); lia).
  rewrite (slope_local q q' i i') by (intros d D; apply H; lia).
  replace (q (i - 1)%Z) with (q' (i' - 1)%Z) by (symmetry; same H). replace (q i) with (q' i') by (symmetry; same H). reflexivity.
Qed.
Lemma limit_face_local : forall q q' i i' d, alike q q' i i' (-2) 1 -> limit_face q i d = limit_face q' i' d.
Proof.
  intros q q' i i' d H. unfold limit_face.
  rewrite (second_local q q' (i - 1) (i' - 1)) by (apply (alike_shift _ _ _ _ _ _ (-1) _ _ H); lia).
  rewrite (second_local q q' i i') by (intros d' D; apply H; lia).
  replace (q (i - 1)%Z) with (q' (i' - 1)%Z) by (symmetry; same H). replace (q i) with (q' i') by (symmetry; same H). reflexivity.
Qed.
Lemma limit_cs_local : forall q q' i i' a b, alike q q' i i' (-2) 2 -> limit_cs q i a b = limit_cs q' i' a b.
Proof.
  intros q q' i i' a b H. unfold limit_cs.
  rewrite (second_local q q' (i - 1) (i' - 1)) by (apply (alike_shift _ _ _ _ _ _ (-1) _ _ H); lia).
  rewrite (second_local q q' (i + 1) (i' + 1)) by (apply (alike_shift _ _ _ _ _ _ 1 _ _ H); lia).
  rewrite (second_local q q' i i') by (intros d' D; apply H; lia).
  replace (q (i - 1)%Z) with (q' (i' - 1)%Z) by (symmetry; same H). replace (q (i - 2)%Z) with (q' (i' - 2)%Z) by (symmetry; same H).
  replace (q (i + 1)%Z) with (q' (i' + 1)%Z) by (symmetry; same H). replace (q (i + 2)%Z) with (q' (i' + 2)%Z) by (symmetry; same H).
  replace (q i) with (q' i') by (symmetry; same H). reflexivity.
Qed.
Lemma ppm_local : forall (q q' : line) i i', alike q q' i i' (-2) 2 ->
  PiecewiseParabolic true true false uniform_c q i = PiecewiseParabolic true true false uniform_c q' i'.
Proof.
  intros q q' i i' H. unfold PiecewiseParabolic. cbn [andb negb].
  assert (H0 : alike q q' i i' (-2) 1) by (intros d D; apply H; lia).
  assert (H1 : alike q q' (i + 1) (i' + 1) (-2) 1) by (apply (alike_shift _ _ _ _ _ _ 1 _ _ H); lia).
  rewrite (face_local q q' i i' H0), (face_local q q' (i + 1) (i' + 1) H1), (limit_face_local q q' i i' _ H0), (limit_face_local q q' (i + 1) (i' + 1) _ H1).
  apply limit_cs_local; assumption.
Qed.
Lemma flux_local : forall ppm (q q' : line) i i' eps s, (forall d, (- xgh ppm <= d <= xgh ppm)%Z -> q (i + d)%Z = q' (i' + d)%Z) ->
  RemapFlux ppm q eps s i = RemapFlux ppm q' eps s i'.
Proof.
  intros ppm q q' i i' eps s H.
  assert (H0 : q i = q' i') by (pose proof (H 0%Z) as H0; rewrite !Z.add_0_r in H0; apply H0; unfold xgh; destruct ppm; lia).
  unfold RemapFlux. destruct ppm.
  - unfold RemapFluxPpm. rewrite (ppm_local q q' i i' H), H0. reflexivity.
  - unfold RemapFluxPlm.
    assert (H1 : q (i + 1)%Z = q' (i' + 1)%Z) by (apply H; cbn; lia).
    assert (H2 : q (i - 1)%Z = q' (i' - 1)%Z) by (apply (H (-1)%Z); cbn; lia).
    rewrite H0, H1, H2. reflexivity.
Qed.
Lemma flux_zero : forall ppm q s i, RemapFlux ppm q 0 s i = 0.
Proof. intros. unfold RemapFlux, RemapFluxPlm, RemapFluxPpm. destruct ppm; [destruct (PiecewiseParabolic _ _ _ _ _ _)|]; ring. Qed.

(** ** The flux is the amount in the strip that passes the face *)
Lemma profile_one : forall ppm g x, reconstructed ppm g x 1 = g x.
Proof. intros. unfold reconstructed, parabola, linear. destruct ppm; [destruct (PiecewiseParabolic _ _ _ _ _ _)|]; field. Qed.
Lemma profile_zero : forall ppm g x, reconstructed ppm g x 0 = 0.
Proof. intros. unfold reconstructed, parabola, linear. destruct ppm; [destruct (PiecewiseParabolic _ _ _ _ _ _)|]; field. Qed.
Lemma flux_right : forall ppm g eps y, RemapFlux ppm g eps 1 y = reconstructed ppm g y 1 - reconstructed ppm g y (1 - eps).
Proof.
  intros. unfold RemapFlux, reconstructed. destruct ppm.
  - unfold RemapFluxPpm, parabola. destruct (PiecewiseParabolic _ _ _ _ _ _) as [qp qm]. field.
  - unfold RemapFluxPlm, linear, plm_slope. cbv beta iota zeta. destruct (leR _ 0); [field|]; match goal with |- context [?a / (?b + ?c)] => set (x := a / (b + c)); clearbody x end; field.
Qed.
Lemma flux_left : forall ppm g eps y, RemapFlux ppm g eps 0 y = - reconstructed ppm g y (- eps).
Proof.
  intros. unfold RemapFlux, reconstructed. destruct ppm.
  - unfold RemapFluxPpm, parabola. destruct (PiecewiseParabolic _ _ _ _ _ _) as [qp qm]. field.
  - unfold RemapFluxPlm, linear, plm_slope. cbv beta iota zeta. destruct (leR _ 0); [field|]; match goal with |- context [?a / (?b + ?c)] => set (x := a / (b + c)); clearbody x end; field.
Qed.

(** ** Offsets *)
Lemma int_part_unique : forall y z, IZR z <= y < IZR z + 1 -> Int_part y = z.
Proof. exact Int_part_eq. Qed.
Lemma fmod_frac : forall olen dx, 0 < dx -> fmod olen dx / dx = olen / dx - IZR (trunc (olen / dx)).
Proof. intros. unfold fmod. field. lra. Qed.
(** The three kinds of displacement. *)
Lemma edge_cases : forall olen dx, 0 < dx -> exists n : Z, (0 <= n)%Z /\
  ((0 < olen /\ fst (edge olen dx) = (n + 1)%Z /\ snd (edge olen dx) = olen / dx - IZR n /\ 0 <= olen / dx - IZR n < 1) \/
   (olen <= 0 /\ fst (edge olen dx) = (- n)%Z /\ snd (edge olen dx) = olen / dx + IZR n /\ -1 < olen / dx + IZR n <= 0)).
Proof.
  intros olen dx Hd. unfold edge. cbn [fst snd]. rewrite fmod_frac by assumption. unfold ltR. destruct (Rlt_dec 0 olen).
  - assert (0 < olen / dx) by (apply Rdiv_lt_0_compat; assumption).
    destruct (trunc_nonneg (olen / dx)) as [A B]; [lra|]. exists (trunc (olen / dx)). split; [assumption|]. left. repeat apply conj; try reflexivity; lra.
  - assert (olen / dx <= 0) by (assert (0 < / dx) by (apply Rinv_0_lt_compat; assumption); unfold Rdiv; nra).
    destruct (trunc_nonneg (- (olen / dx))) as [A B]; [lra|].
    assert (T : trunc (olen / dx) = (- trunc (- (olen / dx)))%Z) by (apply trunc_neg; [assumption|lra]).
    exists (trunc (- (olen / dx))). split; [assumption|]. right. rewrite T, opp_IZR, Z.add_0_r. repeat apply conj; try reflexivity; try lra.
Qed.

Lemma displaced_at : forall P s x m r, 0 <= r < 1 -> IZR x - s = IZR m + r -> displaced P s x = (P m 1 - P m r) + P (m + 1)%Z r.
Proof.
  intros P s x m r Hr E. unfold displaced. rewrite (int_part_unique _ m) by lra.
  replace (IZR x - s - IZR m) with r by lra. reflexivity.
Qed.

(** ** One row of one block *)
Section Row.
Variables (ppm : bool) (onx js : Z) (olen dx : R) (b : line) (g : Z -> R) (c : Z).
Hypothesis Honx : (0 < onx)%Z.
Hypothesis Hdx : 0 < dx.
Hypothesis Hlim : Rabs olen <= dx * IZR (onx - xgh ppm).
Let o := fst (edge olen dx).
Let eps := snd (edge olen dx).
Lemma lim_frac : Rabs (olen / dx) <= IZR (onx - xgh ppm).
Proof using Hdx Hlim.
  unfold Rdiv. rewrite Rabs_mult, (Rabs_right (/ dx)) by (apply Rle_ge, Rlt_le, Rinv_0_lt_compat; assumption).
  apply Rmult_le_reg_r with dx; [assumption|]. rewrite Rmult_assoc, Rinv_l by lra. lra.
Qed.
Lemma range : (- (onx - xgh ppm) <= o <= onx - xgh ppm + 1)%Z /\ (eps <> 0 -> (- (onx - xgh ppm) < o <= onx - xgh ppm)%Z).
Proof using Hdx Hlim.
  pose proof lim_frac as L. unfold o, eps. destruct (edge_cases olen dx Hdx) as [n [Hn [(A & B & C & D)|(A & B & C & D)]]]; rewrite B, C.
  - assert (0 < olen / dx) by (apply Rdiv_lt_0_compat; assumption).
    rewrite Rabs_right in L by lra.
    assert (n <= onx - xgh ppm)%Z by (apply le_IZR; lra). split; [lia|]. intro X.
    assert (n < onx - xgh ppm)%Z by (apply lt_IZR; lra). lia.
  - assert (olen / dx <= 0) by (assert (0 < / dx) by (apply Rinv_0_lt_compat; assumption); unfold Rdiv; nra).
    rewrite Rabs_left1 in L by lra.
    assert (n <= onx - xgh ppm)%Z by (apply le_IZR; lra). split; [lia|]. intro X.
    assert (n < onx - xgh ppm)%Z by (apply lt_IZR; lra). lia.
Qed.
(** The buffer holds the ring in the window that was filled. *)
Definition window_ok (full : bool) : Prop := forall x, (js - onx <= x <= je onx js + onx)%Z -> (js - xgh ppm - o <= x <= je onx js + 1 + xgh ppm - o)%Z \/ (full = true /\ js <= x <= je onx js)%Z ->
  b (pos onx o x) = g (c + (x - js))%Z.
Lemma pos0 : forall j, (j + shift0 onx o)%Z = pos onx o (j - o).
Proof. intro j. unfold shift0, osgn, pos. destruct (Z.ltb 0 o); lia. Qed.
Lemma flux_global : forall full j, window_ok full -> (js <= j <= je onx js + 1)%Z ->
  RemapFlux ppm b eps (IZR (osgn o)) (j + shift0 onx o) = RemapFlux ppm g eps (IZR (osgn o)) (c + (j - js) - o)%Z.
Proof using Hdx Hlim Honx.
  intros full j W Hj. destruct (Req_EM_T eps 0) as [Z0|NZ]. { rewrite Z0, !flux_zero. reflexivity. }
  destruct range as [_ R]. specialize (R NZ).
  apply flux_local. intros d Hd. rewrite pos0.
  replace (pos onx o (j - o) + d)%Z with (pos onx o (j - o + d)) by (unfold pos; lia).
  assert (0 < xgh ppm)%Z by (unfold xgh; destruct ppm; lia).
  rewrite W by (first [unfold je in *; lia | left; unfold je in *; lia]). f_equal. lia.
Qed.
Lemma calculate_displaced : forall full j, window_ok full -> (js <= j <= je onx js)%Z ->
  CalculateCC ppm onx o eps b j = displaced (reconstructed ppm g) (olen / dx) (c + (j - js))%Z.
Proof using Hdx Hlim Honx.
  intros full j W Hj. unfold CalculateCC. rewrite !(flux_global full) by (first [assumption | lia]).
  assert (0 < xgh ppm)%Z by (unfold xgh; destruct ppm; lia).
  pose proof range as [R0 _].
  replace (j + (shift0 onx o + osgn o))%Z with (pos onx o (j - o + osgn o)) by (unfold shift0, osgn, pos; destruct (Z.ltb 0 o); lia).
  assert (V : b (pos onx o (j - o + osgn o)) = g (c + (j - js) - o + osgn o)%Z).
  { rewrite W; [f_equal; lia| |].
    - unfold osgn, je in *. destruct (Z.ltb_spec 0 o); lia.
    - left. unfold osgn, je in *. destruct (Z.ltb_spec 0 o); lia. }
  rewrite V. clear V W.
  set (x := (c + (j - js))%Z). replace (c + (j + 1 - js) - o)%Z with (x - o + 1)%Z by (unfold x; lia). clearbody x.
  pose proof R0 as R1. clear R0 R1.
  unfold o, eps. destruct (edge_cases olen dx Hdx) as [n [Hn [(A & B & C & D)|(A & B & C & D)]]]; rewrite B, C.
  - unfold osgn. replace (0 <? n + 1)%Z with true by (symmetry; apply Z.ltb_lt; lia).
    replace (x - (n + 1) + 1)%Z with (x - n)%Z by lia. rewrite !flux_right, !profile_one.
    destruct (Req_EM_T (olen / dx - IZR n) 0) as [E|E].
    + rewrite (displaced_at _ _ x (x - n) 0) by (rewrite ?minus_IZR; lra).
      rewrite E, !profile_zero, Rminus_0_r, !profile_one. ring.
    + rewrite (displaced_at _ _ x (x - n - 1) (1 - (olen / dx - IZR n))) by (rewrite ?minus_IZR; lra).
      replace (x - n - 1 + 1)%Z with (x - n)%Z by lia. replace (x - (n + 1))%Z with (x - n - 1)%Z by lia. rewrite profile_one. ring.
  - unfold osgn. replace (0 <? - n)%Z with false by (symmetry; apply Z.ltb_ge; lia).
    replace (x - - n + 0)%Z with (x + n)%Z by lia. replace (x - - n + 1)%Z with (x + n + 1)%Z by lia. replace (x - - n)%Z with (x + n)%Z by lia.
    rewrite !flux_left.
    rewrite (displaced_at _ _ x (x + n) (- (olen / dx + IZR n))) by (rewrite ?plus_IZR; lra). rewrite profile_one. ring.
Qed.

(** ** Field rows *)
Lemma fold_plus : forall (f : Z -> R) l a, fold_left (fun x z => x + f z) l a = a + sum (map f l).
Proof. induction l; intros; cbn [fold_left map]; [rewrite sum_nil; ring|]. rewrite IHl, sum_cons. ring. Qed.
Lemma fold_minus : forall (f : Z -> R) l a, fold_left (fun x z => x - f z) l a = a - sum (map f l).
Proof. induction l; intros; cbn [fold_left map]; [rewrite sum_nil; ring|]. rewrite IHl, sum_cons. ring. Qed.
Lemma sum_rev : forall (f : Z -> R) l, sum (map f (rev l)) = sum (map f l).
Proof. intros. rewrite map_rev. apply sum_perm. apply Permutation.Permutation_sym, Permutation.Permutation_rev. Qed.
Definition passed (x : Z) : R :=
  RemapFlux ppm g eps (IZR (osgn o)) (x - o)%Z + sum (map (fun jj => g (x - o + jj)%Z) (upto 1 (o - 1))) - sum (map (fun jj => g (x - o + jj - 1)%Z) (upto (o + 1) 0)).
Lemma field_global : forall j, window_ok true -> (js <= j <= je onx js + 1)%Z -> CalculateFC ppm onx o eps b j = passed (c + (j - js)).
Proof using Hdx Hlim Honx.
  intros j W Hj. unfold CalculateFC, passed. rewrite (fold_minus (fun jj => b (j + (shift0 onx o + jj - 1))%Z)), sum_rev.
  rewrite (fold_plus (fun jj => b (j + (shift0 onx o + jj))%Z)).
  rewrite (flux_global true) by assumption.
  assert (0 < xgh ppm)%Z by (unfold xgh; destruct ppm; lia).
  pose proof range as [R0 _].
  f_equal; [f_equal|]; apply sum_ext; intros jj Hjj; rewrite in_upto in Hjj.
  - replace (j + (shift0 onx o + jj))%Z with (pos onx o (j - o + jj)) by (unfold shift0, osgn, pos; destruct (Z.ltb 0 o); lia).
    rewrite W; [f_equal; lia| |]; unfold je in *; lia.
  - replace (j + (shift0 onx o + jj - 1))%Z with (pos onx o (j - o + jj - 1)) by (unfold shift0, osgn, pos; destruct (Z.ltb 0 o); lia).
    rewrite W; [f_equal; lia| |]; unfold je in *; lia.
Qed.
Lemma passed_displaced : forall x, g x - (passed (x + 1) - passed x) = displaced (reconstructed ppm g) (olen / dx) x.
Proof using Hdx.
  intro x. unfold passed.
  assert (T1 : sum (map (fun jj => g (x + 1 - o + jj)%Z) (upto 1 (o - 1))) - sum (map (fun jj => g (x - o + jj)%Z) (upto 1 (o - 1))) = if Z.ltb 0 o then g x - g (x - o + 1)%Z else 0).
  { rewrite <- sum_minus. destruct (Z.ltb_spec 0 o).
    - rewrite (sum_ext _ _ (fun jj => (fun z => g (x - o + z)%Z) (jj + 1)%Z - (fun z => g (x - o + z)%Z) jj)) by (intros; cbv beta; f_equal; f_equal; lia).
      rewrite (telescope' (fun z => g (x - o + z)%Z)) by lia. f_equal; f_equal; lia.
    - replace (upto 1 (o - 1)) with (@nil Z) by (unfold upto; replace (Z.to_nat (o - 1 - 1 + 1)) with 0%nat by lia; reflexivity). reflexivity. }
  assert (T2 : sum (map (fun jj => g (x + 1 - o + jj - 1)%Z) (upto (o + 1) 0)) - sum (map (fun jj => g (x - o + jj - 1)%Z) (upto (o + 1) 0)) = if Z.ltb 0 o then 0 else g (x - o)%Z - g x).
  { rewrite <- sum_minus. destruct (Z.ltb_spec 0 o).
    - replace (upto (o + 1) 0) with (@nil Z) by (unfold upto; replace (Z.to_nat (0 - (o + 1) + 1)) with 0%nat by lia; reflexivity). reflexivity.
    - rewrite (sum_ext _ _ (fun jj => (fun z => g (x - o + z - 1)%Z) (jj + 1)%Z - (fun z => g (x - o + z - 1)%Z) jj)) by (intros; cbv beta; f_equal; f_equal; lia).
      rewrite (telescope' (fun z => g (x - o + z - 1)%Z)) by lia. f_equal; f_equal; lia. }
  match goal with |- _ - (?f1 + ?a - ?b' - (?f2 + ?a2 - ?b2)) = _ =>
    replace (g x - (f1 + a - b' - (f2 + a2 - b2))) with (g x - (a - a2) + (b' - b2) - (f1 - f2)) by ring end.
  rewrite T1, T2. clear T1 T2.
  replace (x + 1 - o)%Z with (x - o + 1)%Z by lia.
  unfold o, eps. destruct (edge_cases olen dx Hdx) as [n [Hn [(A & B & C & D)|(A & B & C & D)]]]; rewrite B, C.
  - unfold osgn. replace (0 <? n + 1)%Z with true by (symmetry; apply Z.ltb_lt; lia).
    replace (x - (n + 1) + 1)%Z with (x - n)%Z by lia. rewrite !flux_right, !profile_one.
    destruct (Req_EM_T (olen / dx - IZR n) 0) as [E|E].
    + rewrite (displaced_at _ _ x (x - n) 0) by (rewrite ?minus_IZR; lra).
      rewrite E, !profile_zero, Rminus_0_r, !profile_one. ring.
    + rewrite (displaced_at _ _ x (x - n - 1) (1 - (olen / dx - IZR n))) by (rewrite ?minus_IZR; lra).
      replace (x - n - 1 + 1)%Z with (x - n)%Z by lia. replace (x - (n + 1))%Z with (x - n - 1)%Z by lia. rewrite profile_one. ring.
  - unfold osgn. replace (0 <? - n)%Z with false by (symmetry; apply Z.ltb_ge; lia).
    replace (x - - n + 1)%Z with (x + n + 1)%Z by lia. replace (x - - n)%Z with (x + n)%Z by lia.
    rewrite !flux_left.
    rewrite (displaced_at _ _ x (x + n) (- (olen / dx + IZR n))) by (rewrite ?plus_IZR; lra). rewrite profile_one. ring.
Qed.
End Row.
