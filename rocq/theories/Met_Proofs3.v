(** Blocks and refinement. *)
From Coq Require Import Reals ZArith List Bool Lra Lia.
From Verif Require Import Fv_Model Fv_Spec Fv_Proofs2 Ref_Model Ref_Spec Met_Model Met_Spec Met_Proofs Met_Proofs2.
Import ListNotations.
Local Open Scope R_scope.

(** Primitives of the factors. *)
Definition U1 (s : system) (x : R) : R := match s with cartesian => x | cylindrical => 1 / 2 * (x * x) | spherical_polar => 1 / 3 * (x * x * x) end.
Definition U2 (s : system) (x : R) : R := match s with spherical_polar => - cos x | _ => x end.
Definition X1 (s : system) (x : R) : R := match s with cartesian => 1 / 2 * (x * x) | cylindrical => 1 / 3 * (x * x * x) | spherical_polar => 1 / 4 * x ^ 4 end.
Definition X2 (s : system) (x : R) : R := match s with spherical_polar => sin x - x * cos x | _ => 1 / 2 * (x * x) end.
Definition XX (x : R) : R := 1 / 2 * (x * x).
Definition XXX (x : R) : R := 1 / 3 * (x * x * x).
Definition S2 (s : system) (x : R) : R := match s with spherical_polar => XX x | _ => x end.
Definition S3 (s : system) (x : R) : R := match s with cartesian => x | _ => XX x end.
Definition Y2 (s : system) (x : R) : R := match s with spherical_polar => XXX x | _ => XX x end.
Definition Y3 (s : system) (x : R) : R := match s with cartesian => XX x | _ => XXX x end.

Lemma vi_U : forall s g i, aligned g -> vi s g i = U1 s (x1f g (i + 1)%Z) - U1 s (x1f g i).
Proof. intros s g i A; unfold vi, U1, coord_vol_i, coord_area3_i, coord_area2_i. destruct s; [apply A|ring|ring]. Qed.
Definition span2 (s : system) (g : grid) (j : Z) : Prop := x2f g j < x2f g (j + 1)%Z /\ angle_ok s (x2f g j) (x2f g (j + 1)%Z).
Lemma vj_U : forall s g j, aligned g -> span2 s g j -> vj s g j = U2 s (x2f g (j + 1)%Z) - U2 s (x2f g j).
Proof.
  intros s g j A (H & Ha); unfold vj, U2, coord_vol_j. destruct s; [apply A|apply A|]. cbn [angle_ok] in Ha. rewrite (proj1 (area1_j_val g j H (proj1 Ha) (proj2 Ha))); ring.
Qed.
Lemma vk_U : forall g k, aligned g -> dx3f g k = x3f g (k + 1)%Z - x3f g k.
Proof. intros g k A; apply A. Qed.
Lemma dj_U : forall g j, aligned g -> dx2f g j = x2f g (j + 1)%Z - x2f g j.
Proof. intros g j A; apply A. Qed.
Lemma a2i_U : forall s g i, aligned g -> a2i s g i = S2 s (x1f g (i + 1)%Z) - S2 s (x1f g i).
Proof. intros s g i A; unfold a2i, S2, XX, coord_area2_i. destruct s; [apply A|apply A|ring]. Qed.
Lemma a3i_U : forall s g i, aligned g -> a3i s g i = S3 s (x1f g (i + 1)%Z) - S3 s (x1f g i).
Proof. intros s g i A; unfold a3i, S3, XX, coord_area3_i, coord_area2_i. destruct s; [apply A|ring|ring]. Qed.
Definition span1 (s : system) (g : grid) (i : Z) : Prop := x1f g i < x1f g (i + 1)%Z /\ radius_ok s (x1f g i).
Lemma span1_proper : forall s g k j i, proper s g k j i -> span1 s g i.
Proof. intros s g k j i P; split; apply P. Qed.
Lemma span2_proper : forall s g k j i, proper s g k j i -> span2 s g j.
Proof. intros s g k j i P; split; apply P. Qed.
Lemma x1v_X : forall s g i, aligned g -> span1 s g i -> vi s g i * x1v s g i = X1 s (x1f g (i + 1)%Z) - X1 s (x1f g i).
Proof.
  intros s g i A (H & Hr); unfold vi, X1, x1v, coord_vol_i, coord_area3_i, coord_area2_i. pose proof (proj1 (A i)) as Hd. set (a := x1f g i) in *; set (b := x1f g (i + 1)%Z) in *.
  destruct s; cbn [radius_ok] in Hr; [rewrite Hd; field| |].
  - pose proof (sq_lt a b Hr H). cbn [pow]. field. intro X0; lra.
  - pose proof (cb_lt a b Hr H). cbn [pow]. field. intro X0; lra.
Qed.
Lemma x2v_X : forall s g n j, aligned g -> span2 s g j -> (s = spherical_polar -> n <> 1%Z) -> vj s g j * x2v s g n j = X2 s (x2f g (j + 1)%Z) - X2 s (x2f g j).
Proof.
  intros s g n j A (H & Hr) Hn; unfold vj, X2, x2v, coord_vol_j. pose proof (proj1 (proj2 (A j))) as Hd.
  destruct s; cbn [angle_ok] in Hr; [rewrite Hd; field|rewrite Hd; field|]. destruct (Z.eqb_spec n 1) as [E|E]; [exfalso; exact (Hn eq_refl E)|].
  destruct (area1_j_val g j H (proj1 Hr) (proj2 Hr)) as (Q & Q'). rewrite Q in Q'. rewrite Q. field. intro X0; lra.
Qed.
Lemma x2s1_X : forall s g n j, aligned g -> span2 s g j -> (s = spherical_polar -> n <> 1%Z) -> vj s g j * x2s1 s g n j = X2 s (x2f g (j + 1)%Z) - X2 s (x2f g j).
Proof.
  intros s g n j A H Hn. rewrite <- (x2v_X s g n j A H Hn). f_equal. unfold x2s1, x2v. destruct s; try reflexivity. destruct (Z.eqb n 1); [reflexivity|]. f_equal; ring.
Qed.
Lemma x3v_X : forall s g k, aligned g -> dx3f g k * x3v s g k = XX (x3f g (k + 1)%Z) - XX (x3f g k).
Proof. intros s g k A; unfold x3v, XX. rewrite (vk_U g k A); field. Qed.
Lemma x2s3_X : forall s g n j, aligned g -> dx2f g j * x2s3 s g n j = XX (x2f g (j + 1)%Z) - XX (x2f g j).
Proof. intros s g n j A; unfold x2s3, XX. rewrite (dj_U g j A); field. Qed.
Lemma x1s2_X : forall s g i, aligned g -> span1 s g i -> a2i s g i * x1s2 s g i = Y2 s (x1f g (i + 1)%Z) - Y2 s (x1f g i).
Proof.
  intros s g i A (H & Hr); unfold a2i, Y2, x1s2, XX, XXX, coord_area2_i. pose proof (proj1 (A i)) as Hd. set (a := x1f g i) in *; set (b := x1f g (i + 1)%Z) in *.
  destruct s; cbn [radius_ok] in Hr; [rewrite Hd; field|rewrite Hd; field|]. pose proof (sq_lt a b Hr H). cbn [pow]. field. intro X0; lra.
Qed.
Lemma x1s3_X : forall s g i, aligned g -> span1 s g i -> a3i s g i * x1s3 s g i = Y3 s (x1f g (i + 1)%Z) - Y3 s (x1f g i).
Proof.
  intros s g i A (H & Hr); unfold a3i, Y3, x1s3, XX, XXX, coord_area3_i, coord_area2_i. pose proof (proj1 (A i)) as Hd. set (a := x1f g i) in *; set (b := x1f g (i + 1)%Z) in *.
  destruct s; cbn [radius_ok] in Hr; [rewrite Hd; field| |]; pose proof (sq_lt a b Hr H); cbn [pow]; field; intro X0; lra.
Qed.

(** ** The whole block *)
Definition envelope (d : dims) (g : grid) : grid :=
  let f (x : Z -> R) (a b : Z) : Z -> R := fun n => if Z.eqb n 0 then x a else if Z.eqb n 1 then x (b + 1)%Z else x b + IZR n in
  let D (h : Z -> R) : Z -> R := fun n => h (n + 1)%Z - h n in
  let y1 := f (x1f g) (is_ d) (ie d) in let y2 := f (x2f g) (js d) (je d) in let y3 := f (x3f g) (ks d) (ke d) in
  mkGrid y1 y2 y3 (D y1) (D y2) (D y3).
Lemma envelope_aligned : forall d g, aligned (envelope d g).
Proof. intros d g n; repeat split. Qed.
Lemma chain_lt : forall (x : Z -> R) a b, (a <= b)%Z -> (forall n, (a <= n <= b)%Z -> x n < x (n + 1)%Z) -> forall c, (a <= c <= b)%Z -> x a < x (c + 1)%Z /\ x a <= x c /\ x (c + 1)%Z <= x (b + 1)%Z.
Proof.
  intros x a b H E c Hc. assert (G : forall n p, (a <= p)%Z -> (p + Z.of_nat n <= b + 1)%Z -> x p <= x (p + Z.of_nat n)%Z).
  { induction n; intros p H1 H2; [rewrite Z.add_0_r; lra|]. specialize (IHn p H1 ltac:(lia)). pose proof (E (p + Z.of_nat n)%Z ltac:(lia)). replace (p + Z.of_nat (S n))%Z with (p + Z.of_nat n + 1)%Z by lia. lra. }
  pose proof (G (Z.to_nat (c - a)) a ltac:(lia) ltac:(lia)) as G1. replace (a + Z.of_nat (Z.to_nat (c - a)))%Z with c in G1 by lia.
  pose proof (G (Z.to_nat (b - c)) (c + 1)%Z ltac:(lia) ltac:(lia)) as G2. replace (c + 1 + Z.of_nat (Z.to_nat (b - c)))%Z with (b + 1)%Z in G2 by lia.
  pose proof (E c Hc). lra.
Qed.
Lemma envelope_proper : forall s d g, nonempty d -> proper_block s d g -> proper s (envelope d g) 0 0 0.
Proof.
  intros s d g ((N1 & N2 & N3) & _) (A & P & _). unfold envelope; unfold proper; cbn [x1f x2f x3f]. cbn [Z.eqb Z.add Pos.eqb].
  assert (C1 := chain_lt (x1f g) (is_ d) (ie d) N1 (fun n Hn => proj1 (P (ks d) (js d) n ltac:(unfold is_active; lia))) (ie d) ltac:(lia)).
  assert (C2 := chain_lt (x2f g) (js d) (je d) N2 (fun n Hn => proj1 (proj2 (P (ks d) n (is_ d) ltac:(unfold is_active; lia)))) (je d) ltac:(lia)).
  assert (C3 := chain_lt (x3f g) (ks d) (ke d) N3 (fun n Hn => proj1 (proj2 (proj2 (P n (js d) (is_ d) ltac:(unfold is_active; lia))))) (ke d) ltac:(lia)).
  destruct (P (ks d) (js d) (is_ d) ltac:(unfold is_active; lia)) as (_ & _ & _ & Q1 & Q2). destruct (P (ks d) (je d) (is_ d) ltac:(unfold is_active; lia)) as (_ & _ & _ & _ & Q3).
  repeat split; try tauto. destruct s; cbn [angle_ok] in *; tauto.
Qed.
Lemma block_sum : forall s d g, nonempty d -> proper_block s d g -> sum3 d (GetCellVolume s g) = GetCellVolume s (envelope d g) 0 0 0.
Proof.
  intros s d g N B. pose proof (envelope_proper s d g N B) as PE. pose proof (envelope_aligned d g) as AE. destruct B as (A & P & _). destruct N as ((N1 & N2 & N3) & _).
  unfold sum3.
  rewrite (sum_ext _ _ (fun k => sum (map (fun j => sum (map (fun i => dx3f g k * vj s g j * vi s g i) (upto (is_ d) (ie d)))) (upto (js d) (je d))))).
  2: { intros k _. apply sum_ext; intros j _. apply sum_ext; intros i _. apply (volume_sep s g k j i). }
  rewrite sum_prod3. rewrite (volume_sep s (envelope d g) 0%Z 0%Z 0%Z).
  rewrite (tele (vi s g) (x1f g) (U1 s)) by first [lia|intros; apply vi_U; exact A].
  rewrite (tele (vj s g) (x2f g) (U2 s)) by first [lia|intros; apply vj_U; [exact A|eapply span2_proper; apply (P (ks d) n (is_ d)); unfold is_active; lia]].
  rewrite (tele (dx3f g) (x3f g) (fun x => x)) by first [lia|intros; apply vk_U; exact A].
  rewrite vi_U by exact AE. rewrite vj_U by first [exact AE|eapply span2_proper; exact PE]. rewrite vk_U by exact AE. unfold envelope; cbn [x1f x2f x3f Z.eqb Z.add Pos.eqb]. ring.
Qed.
Lemma block_volume : forall s d g, nonempty d -> proper_block s d g ->
  integral3 (volume_element s) (x1f g (is_ d)) (x1f g (ie d + 1)%Z) (x2f g (js d)) (x2f g (je d + 1)%Z) (x3f g (ks d)) (x3f g (ke d + 1)%Z) (sum3 d (GetCellVolume s g)).
Proof.
  intros s d g N B. rewrite block_sum by assumption. apply (volume_int s (envelope d g) 0%Z 0%Z 0%Z (envelope_aligned d g) (envelope_proper s d g N B)).
Qed.

(** ** Refinement *)
Lemma sum_combine : forall (v : arr) w1 w2 w3 K J I, sep v w1 w2 w3 -> sum (map (at_ v) (combine3 K J I)) = sum (map w3 K) * (sum (map w2 J) * sum (map w1 I)).
Proof.
  intros v w1 w2 w3 K J I H. rewrite <- sum_prod3. unfold combine3. induction K as [|k K IH]; [reflexivity|]. cbn [flat_map map]. rewrite map_app, sum_app, IH, sum_cons. f_equal.
  clear IH. induction J as [|j J IH]; [reflexivity|]. cbn [flat_map map]. rewrite map_app, sum_app, IH, sum_cons. f_equal.
  rewrite map_map. apply sum_ext; intros i _. apply H.
Qed.
Lemma duo_sum : forall n s cs (f x : Z -> R) a (wf : Z -> R) (wc : R) (U : R -> R), finer n s cs f x a ->
  (forall m, In m (duo n s cs a) -> wf m = U (f (m + 1)%Z) - U (f m)) -> wc = U (x (a + 1)%Z) - U (x a) -> sum (map wf (duo n s cs a)) = wc.
Proof.
  intros n s cs f x a wf wc U H E ->. unfold finer, duo, two in *. destruct (Z.ltb 1 n).
  - cbn [map]. rewrite !sum_cons, sum_nil. rewrite !E by (cbn; tauto). destruct H as (<- & <-).
    replace (s + 2 * (a - cs) + 1 + 1)%Z with (s + 2 * (a - cs) + 2)%Z by lia. ring.
  - cbn [map]. rewrite sum_cons, sum_nil. rewrite E by (cbn; tauto). destruct H as (<- & <-). ring.
Qed.
Lemma two_sum : forall s cs (f x : Z -> R) a (wf : Z -> R) (wc : R) (U : R -> R), (f (s + 2 * (a - cs))%Z = x a /\ f (s + 2 * (a - cs) + 2)%Z = x (a + 1)%Z) ->
  (forall m, In m (two s cs a) -> wf m = U (f (m + 1)%Z) - U (f m)) -> wc = U (x (a + 1)%Z) - U (x a) -> sum (map wf (two s cs a)) = wc.
Proof.
  intros s cs f x a wf wc U H E Q. apply (duo_sum 2 s cs f x a wf wc U); [unfold finer; exact H|exact E|exact Q].
Qed.
Lemma one_sum : forall (w : Z -> R) n, sum (map w [n]) = w n.
Proof. intros; cbn [map]; rewrite sum_cons, sum_nil; ring. Qed.

Definition spans2 (s : system) (d : dims) (c : coff) (gf gc : grid) (j : Z) : Prop := span2 s gc j /\ forall m, In m (duo (nx2 d) (js d) (cjs c) j) -> span2 s gf m.
Section Refine.
Variables (s : system) (d : dims) (c : coff) (gf gc : grid) (k j i : Z).
Hypothesis Af : aligned gf. Hypothesis Ac : aligned gc. Hypothesis Rf : refines d c gf gc (k, j, i).
Lemma sum_vi : sum (map (vi s gf) (two (is_ d) (cis c) i)) = vi s gc i.
Proof using Af Ac Rf. eapply (two_sum _ _ (x1f gf) (x1f gc) i _ _ (U1 s)); [exact (proj1 Rf)|intros; apply vi_U; exact Af|apply vi_U; exact Ac]. Qed.
Lemma sum_vj : spans2 s d c gf gc j -> sum (map (vj s gf) (duo (nx2 d) (js d) (cjs c) j)) = vj s gc j.
Proof using Af Ac Rf. intros (Pc & Pf). eapply (duo_sum _ _ _ (x2f gf) (x2f gc) j _ _ (U2 s)); [exact (proj1 (proj2 Rf))|intros; apply vj_U; [exact Af|apply Pf; assumption]|apply vj_U; assumption]. Qed.
Lemma sum_vk : sum (map (dx3f gf) (duo (nx3 d) (ks d) (cks c) k)) = dx3f gc k.
Proof using Af Ac Rf. eapply (duo_sum _ _ _ (x3f gf) (x3f gc) k _ _ (fun x => x)); [exact (proj2 (proj2 Rf))|intros; apply vk_U; exact Af|apply vk_U; exact Ac]. Qed.
Lemma sum_dj : sum (map (dx2f gf) (duo (nx2 d) (js d) (cjs c) j)) = dx2f gc j.
Proof using Af Ac Rf. eapply (duo_sum _ _ _ (x2f gf) (x2f gc) j _ _ (fun x => x)); [exact (proj1 (proj2 Rf))|intros; apply dj_U; exact Af|apply dj_U; exact Ac]. Qed.
Lemma sum_di : sum (map (dx1f gf) (two (is_ d) (cis c) i)) = dx1f gc i.
Proof using Af Ac Rf. eapply (two_sum _ _ (x1f gf) (x1f gc) i _ _ (fun x => x)); [exact (proj1 Rf)|intros; apply Af|apply Ac]. Qed.
Lemma sum_a2i : sum (map (a2i s gf) (two (is_ d) (cis c) i)) = a2i s gc i.
Proof using Af Ac Rf. eapply (two_sum _ _ (x1f gf) (x1f gc) i _ _ (S2 s)); [exact (proj1 Rf)|intros; apply a2i_U; exact Af|apply a2i_U; exact Ac]. Qed.
Lemma sum_a3i : sum (map (a3i s gf) (two (is_ d) (cis c) i)) = a3i s gc i.
Proof using Af Ac Rf. eapply (two_sum _ _ (x1f gf) (x1f gc) i _ _ (S3 s)); [exact (proj1 Rf)|intros; apply a3i_U; exact Af|apply a3i_U; exact Ac]. Qed.
Lemma cells_sum : spans2 s d c gf gc j -> sum (map (at_ (GetCellVolume s gf)) (cells d c (k, j, i))) = GetCellVolume s gc k j i.
Proof using Af Ac Rf. intro S. unfold cells. rewrite (sum_combine _ _ _ _ _ _ _ (volume_sep s gf)), sum_vi, (sum_vj S), sum_vk, (volume_sep s gc k j i); ring. Qed.
Lemma faces1_sum : spans2 s d c gf gc j -> same_area (GetFace1Area s gf) (GetFace1Area s gc) (faces1 d c (k, j, i)) (k, j, i).
Proof using Af Ac Rf.
  intro S. unfold same_area, faces1. rewrite (sum_combine _ _ _ _ _ _ _ (area1_sep s gf)), (sum_vj S), sum_vk, one_sum. cbn [at_]. rewrite (area1_sep s gc k j i).
  assert (E : x1f gf (is_ d + 2 * (i - cis c))%Z = x1f gc i) by (exact (proj1 (proj1 Rf))). unfold a1i, coord_area1_i. rewrite E. ring.
Qed.
Lemma faces2_sum : (1 < nx2 d)%Z -> same_area (GetFace2Area s gf) (GetFace2Area s gc) (faces2 d c (k, j, i)) (k, j, i).
Proof using Af Ac Rf.
  intro N. unfold same_area, faces2. rewrite (sum_combine _ _ _ _ _ _ _ (area2_sep s gf)), sum_a2i, sum_vk, one_sum. cbn [at_]. rewrite (area2_sep s gc k j i).
  assert (E : x2f gf (js d + 2 * (j - cjs c))%Z = x2f gc j). { destruct Rf as (_ & H & _). unfold finer in H. destruct (Z.ltb_spec 1 (nx2 d)); [exact (proj1 H)|lia]. }
  unfold a2j, coord_area2_j. rewrite E. ring.
Qed.
Lemma faces3_sum : same_area (GetFace3Area s gf) (GetFace3Area s gc) (faces3 d c (k, j, i)) (k, j, i).
Proof using Af Ac Rf. unfold same_area, faces3. rewrite (sum_combine _ _ _ _ _ _ _ (area3_sep s gf)), sum_a3i, sum_dj, one_sum. cbn [at_]. rewrite (area3_sep s gc k j i). ring. Qed.

(** Centres. *)
Definition spans1 : Prop := span1 s gc i /\ forall m, In m (two (is_ d) (cis c) i) -> span1 s gf m.
Lemma centroid_of : forall n s0 cs (f x : Z -> R) a (wf xf : Z -> R) wc (xc : Z -> R) (U W : R -> R), (1 < n)%Z -> finer n s0 cs f x a ->
  (forall m, In m (duo n s0 cs a) -> wf m = U (f (m + 1)%Z) - U (f m)) -> wc = U (x (a + 1)%Z) - U (x a) ->
  (forall m, In m (duo n s0 cs a) -> wf m * xf m = W (f (m + 1)%Z) - W (f m)) -> wc * xc a = W (x (a + 1)%Z) - W (x a) ->
  centroid wf xc xf s0 cs a.
Proof using Type.
  intros n s0 cs f x a wf xf wc xc U W Hn Hf E1 E2 E3 E4. unfold centroid; cbv zeta.
  pose proof (duo_sum n s0 cs f x a wf wc U Hf E1 E2) as Q1. pose proof (duo_sum n s0 cs f x a (fun m => wf m * xf m) (wc * xc a) W Hf E3 E4) as Q2.
  unfold duo, two in Q1, Q2. destruct (Z.ltb_spec 1 n); [|lia]. cbn [map] in Q1, Q2. rewrite !sum_cons, sum_nil in Q1, Q2. rewrite <- Q1 in Q2. rewrite !Rplus_0_r in Q2. symmetry. exact Q2.
Qed.
Lemma refine1 : finer 2 (is_ d) (cis c) (x1f gf) (x1f gc) i.
Proof using Rf. unfold finer. exact (proj1 Rf). Qed.
Lemma cen_x1v : spans1 -> centroid (vi s gf) (x1v s gc) (x1v s gf) (is_ d) (cis c) i.
Proof using Af Ac Rf.
  intros (Pc & Pf). eapply (centroid_of 2 _ _ (x1f gf) (x1f gc) i _ _ (vi s gc i) _ (U1 s) (X1 s)); [lia|exact refine1|intros; apply vi_U; exact Af|apply vi_U; exact Ac| |apply x1v_X; assumption].
  intros m Hm; apply x1v_X; [exact Af|apply Pf; exact Hm].
Qed.
Lemma cen_x1s2 : spans1 -> centroid (a2i s gf) (x1s2 s gc) (x1s2 s gf) (is_ d) (cis c) i.
Proof using Af Ac Rf.
  intros (Pc & Pf). eapply (centroid_of 2 _ _ (x1f gf) (x1f gc) i _ _ (a2i s gc i) _ (S2 s) (Y2 s)); [lia|exact refine1|intros; apply a2i_U; exact Af|apply a2i_U; exact Ac| |apply x1s2_X; assumption].
  intros m Hm; apply x1s2_X; [exact Af|apply Pf; exact Hm].
Qed.
Lemma cen_x1s3 : spans1 -> centroid (a3i s gf) (x1s3 s gc) (x1s3 s gf) (is_ d) (cis c) i.
Proof using Af Ac Rf.
  intros (Pc & Pf). eapply (centroid_of 2 _ _ (x1f gf) (x1f gc) i _ _ (a3i s gc i) _ (S3 s) (Y3 s)); [lia|exact refine1|intros; apply a3i_U; exact Af|apply a3i_U; exact Ac| |apply x1s3_X; assumption].
  intros m Hm; apply x1s3_X; [exact Af|apply Pf; exact Hm].
Qed.
Lemma cen_x2v : (1 < nx2 d)%Z -> spans2 s d c gf gc j -> centroid (vj s gf) (x2v s gc (nx2 d)) (x2v s gf (nx2 d)) (js d) (cjs c) j.
Proof using Af Ac Rf.
  intros N (Pc & Pf). eapply (centroid_of (nx2 d) _ _ (x2f gf) (x2f gc) j _ _ (vj s gc j) _ (U2 s) (X2 s)); [exact N|exact (proj1 (proj2 Rf))| |apply vj_U; assumption| |apply x2v_X; try assumption; lia].
  - intros m Hm; apply vj_U; [exact Af|apply Pf; exact Hm].
  - intros m Hm; apply x2v_X; [exact Af|apply Pf; exact Hm|lia].
Qed.
Lemma cen_x2s1 : (1 < nx2 d)%Z -> spans2 s d c gf gc j -> centroid (vj s gf) (x2s1 s gc (nx2 d)) (x2s1 s gf (nx2 d)) (js d) (cjs c) j.
Proof using Af Ac Rf.
  intros N (Pc & Pf). eapply (centroid_of (nx2 d) _ _ (x2f gf) (x2f gc) j _ _ (vj s gc j) _ (U2 s) (X2 s)); [exact N|exact (proj1 (proj2 Rf))| |apply vj_U; assumption| |apply x2s1_X; try assumption; lia].
  - intros m Hm; apply vj_U; [exact Af|apply Pf; exact Hm].
  - intros m Hm; apply x2s1_X; [exact Af|apply Pf; exact Hm|lia].
Qed.
Lemma cen_x2s3 : (1 < nx2 d)%Z -> centroid (dx2f gf) (x2s3 s gc (nx2 d)) (x2s3 s gf (nx2 d)) (js d) (cjs c) j.
Proof using Af Ac Rf.
  intros N. eapply (centroid_of (nx2 d) _ _ (x2f gf) (x2f gc) j _ _ (dx2f gc j) _ (fun x => x) XX); [exact N|exact (proj1 (proj2 Rf))|intros; apply dj_U; exact Af|apply dj_U; exact Ac|intros; apply x2s3_X; exact Af|apply x2s3_X; exact Ac].
Qed.
Lemma cen_x3v : (1 < nx3 d)%Z -> centroid (dx3f gf) (x3v s gc) (x3v s gf) (ks d) (cks c) k.
Proof using Af Ac Rf.
  intros N. eapply (centroid_of (nx3 d) _ _ (x3f gf) (x3f gc) k _ _ (dx3f gc k) _ (fun x => x) XX); [exact N|exact (proj2 (proj2 Rf))|intros; apply vk_U; exact Af|apply vk_U; exact Ac|intros; apply x3v_X; exact Af|apply x3v_X; exact Ac].
Qed.
End Refine.

(** ** The conditions of constrained transport *)
Lemma geometry_good : forall s d g, nonempty d -> proper_block s d g -> off_axis s (x1f g (is_ d)) ->
  (pole_in d = true -> s = spherical_polar /\ x2f g (js d) = 0) -> (pole_out d = true -> s = spherical_polar /\ x2f g (je d + 1)%Z = PI) ->
  (s = spherical_polar -> (x2f g (js d) = 0 -> pole_in d = true) /\ (x2f g (je d + 1)%Z = PI -> pole_out d = true)) ->
  good_geom d (geometry s g).
Proof.
  intros s d g N B OA HI HO HP. pose proof N as ((N1 & N2 & N3) & _). pose proof B as (A & P & S).
  assert (R1 : forall i, (is_ d <= i <= ie d + 1)%Z -> off_axis s (x1f g i)).
  { intros i Hi. destruct (Z.eq_dec i (is_ d)) as [->|Hn]; [exact OA|].
    pose proof (chain_lt (x1f g) (is_ d) (ie d) N1 (fun n Hn => proj1 (P (ks d) (js d) n ltac:(unfold is_active; lia))) (i - 1)%Z ltac:(lia)) as C. replace (i - 1 + 1)%Z with i in C by lia.
    destruct s; cbn [off_axis] in *; [exact I|lra|lra]. }
  assert (C2 : forall j, (js d <= j <= je d)%Z -> x2f g (js d) < x2f g (j + 1)%Z /\ x2f g (js d) <= x2f g j /\ x2f g (j + 1)%Z <= x2f g (je d + 1)%Z) by
    (apply chain_lt; [exact N2|intros n Hn; apply (P (ks d) n (is_ d)); unfold is_active; lia]).
  constructor; cbn [geometry A1 A2 A3 L1 L2 L3].
  - intros k j i H. rewrite (area1_sep s g k j i). pose proof (P k j (is_ d) ltac:(unfold is_active; lia)) as Pc.
    pose proof (vj_pos s g k j (is_ d) A Pc). pose proof (vk_pos s g k j (is_ d) A Pc). assert (0 < a1i s g i) by (specialize (R1 i ltac:(lia)); unfold a1i, coord_area1_i; destruct s; cbn [off_axis] in R1; [lra|lra|nra]).
    apply Rgt_not_eq. repeat apply Rmult_lt_0_compat; assumption.
  - intros k j i H. destruct (Z.eq_dec j (je d + 1)) as [->|Hj].
    + destruct (pole_out d) eqn:PO; [right; left; tauto|]. right; right. rewrite (area2_sep s g k (je d + 1)%Z i). pose proof (P k (je d) i ltac:(unfold is_active; lia)) as Pc.
      pose proof (a2i_pos s g k (je d) i A Pc). pose proof (vk_pos s g k (je d) i A Pc). apply Rgt_not_eq. repeat apply Rmult_lt_0_compat; try assumption.
      unfold a2j. destruct s; try lra. destruct Pc as (_ & Q1 & _ & _ & Q2); cbn [angle_ok] in Q2. rewrite area2_j_val by lra. apply sin_gt_0; [lra|].
      destruct (Rle_lt_or_eq_dec _ _ (proj2 Q2)) as [X|X]; [exact X|]. specialize (proj2 (HP eq_refl) X); congruence.
    + destruct (Z.eq_dec j (js d)) as [->|Hj'].
      * destruct (pole_in d) eqn:PI_; [left; tauto|]. right; right. rewrite (area2_sep s g k (js d) i). pose proof (P k (js d) i ltac:(unfold is_active; lia)) as Pc.
        pose proof (a2i_pos s g k (js d) i A Pc). pose proof (vk_pos s g k (js d) i A Pc). apply Rgt_not_eq. repeat apply Rmult_lt_0_compat; try assumption.
        unfold a2j. destruct s; try lra. destruct Pc as (_ & Q1 & _ & _ & Q2); cbn [angle_ok] in Q2. rewrite area2_j_val by lra. apply sin_gt_0; [|lra].
        destruct (Rle_lt_or_eq_dec _ _ (proj1 Q2)) as [X|X]; [exact X|]. symmetry in X. specialize (proj1 (HP eq_refl) X); congruence.
      * right; right. rewrite (area2_sep s g k j i). pose proof (P k j i ltac:(unfold is_active; lia)) as Pc. pose proof (a2i_pos s g k j i A Pc). pose proof (vk_pos s g k j i A Pc). apply Rgt_not_eq. repeat apply Rmult_lt_0_compat; try assumption.
        unfold a2j. destruct s; try lra. destruct Pc as (_ & Q1 & _ & _ & Q2); cbn [angle_ok] in Q2. rewrite area2_j_val by lra.
        pose proof (C2 (j - 1)%Z ltac:(lia)) as C. replace (j - 1 + 1)%Z with j in C by lia.
        pose proof (P k (js d) i ltac:(unfold is_active; lia)) as (_ & _ & _ & _ & Q3); cbn [angle_ok] in Q3. apply sin_gt_0; lra.
  - intros k j i H. rewrite (area3_sep s g k j i). pose proof (P (ks d) j i ltac:(unfold is_active; lia)) as Pc. pose proof (a3i_pos s g (ks d) j i A Pc).
    pose proof (proj1 (proj2 Pc)). rewrite (dj_U g j A). apply Rgt_not_eq. repeat apply Rmult_lt_0_compat; lra.
  - intros H k i. destruct (HI H) as (-> & E). unfold GetFace2Area, GetEdge3Length, coord_area2_j. rewrite E, sin_0, Rabs_R0. split; ring.
  - intros H k i. destruct (HO H) as (-> & E). unfold GetFace2Area, GetEdge3Length, coord_area2_j. rewrite E, sin_PI, Rabs_R0. split; ring.
  - intros H k i. unfold GetEdge3Length, coord_area2_j. destruct s; try reflexivity. rewrite (S H eq_refl). rewrite sin_PI_x. reflexivity.
  - intros H j i. split; reflexivity.
Qed.
