(** C37, C38, C39: restriction and prolongation. *)
From Coq Require Import Reals ZArith List Bool Lia Lra.
From Verif Require Import Fv_Model Fv_Spec Fv_Proofs Fv_Proofs2 Ref_Model Ref_Spec Ref_Proofs Ref_Proofs2 Ref_Proofs3 Ref_Proofs4.
Import ListNotations.
Local Open Scope R_scope.

(** ** C37: restriction *)
(** Every coarse value in the range times the volume of its fine cells is what the fine cells hold, and it lies within the range of their values (1D, 2D, 3D, any volumes). *)
Theorem C37_cells : forall d c vol fine b coarse q, layout d c -> in_box d c b q -> positive vol (cells d c q) -> average_of vol fine (cells d c q) (at_ (RestrictCC d c vol fine b coarse) q).
Proof. exact restrict_cc. Qed.
Print Assumptions C37_cells.
(** The same for the magnetic flux through each coarse face. *)
Theorem C37_x1_faces : forall d c area fine b coarse q, layout d c -> box_ok d c b -> in_box d c b q -> positive area (faces1 d c q) -> average_of area fine (faces1 d c q) (at_ (RestrictX1 d c area fine b coarse) q).
Proof. exact restrict_x1. Qed.
Print Assumptions C37_x1_faces.
(** x2 faces that are not on a pole; [dx], [old0], [old1] (used at poles) do not matter. *)
Theorem C37_x2_faces : forall d c area fine dx old0 old1 b coarse q, layout d c -> in_box d c b q ->
  (pole_in d = true -> (js d + 2 * (snd (fst q) - cjs c) <> js d)%Z) -> (pole_out d = true -> (js d + 2 * (snd (fst q) - cjs c) <> je d + 1)%Z) -> positive area (faces2 d c q) ->
  average_of area fine (faces2 d c q) (at_ (RestrictX2 d c area fine dx old0 old1 b coarse) q).
Proof.
  intros d c area fine dx old0 old1 b coarse q L B PI PO P. apply restrict_x2; try assumption. unfold IsPole. apply orb_false_iff. split; apply andb_false_iff.
  - destruct (pole_in d); [right; apply Z.eqb_neq; auto|left; reflexivity].
  - destruct (pole_out d); [right; apply Z.eqb_neq; auto|left; reflexivity].
Qed.
Print Assumptions C37_x2_faces.
Theorem C37_x3_faces : forall d c area fine b coarse q, layout d c -> in_box d c b q -> positive area (faces3 d c q) -> average_of area fine (faces3 d c q) (at_ (RestrictX3 d c area fine b coarse) q).
Proof. exact restrict_x3. Qed.
Print Assumptions C37_x3_faces.
(** The rest of the coarse array is left as it was. *)
Theorem C37_rest : forall d c w fine dx old0 old1 b coarse q, layout d c -> box_ok d c b -> ~ in_box d c b q ->
  at_ (RestrictCC d c w fine b coarse) q = at_ coarse q /\ at_ (RestrictX1 d c w fine b coarse) q = at_ coarse q /\ at_ (RestrictX2 d c w fine dx old0 old1 b coarse) q = at_ coarse q /\ at_ (RestrictX3 d c w fine b coarse) q = at_ coarse q.
Proof. exact restrict_out. Qed.
Print Assumptions C37_rest.
(** Finding: on a pole the weight of every second face is whatever the work array held before, so the restricted field depends on earlier computations. *)
Definition polar_block : dims := mkD 2 5 2 5 2 5 true false.
Definition offs : coff := mkO 2 2 2.
Definition whole : box := mkBox 2 3 2 3 2 3.
Theorem C37_pole_refuted : exists area fine dx old0 old1 old0' old1' q, layout polar_block offs /\ in_box polar_block offs whole q /\ (forall i, 0 < dx i /\ 0 <= old0 i /\ 0 <= old1 i /\ 0 <= old0' i /\ 0 <= old1' i) /\
  at_ (RestrictX2 polar_block offs area fine dx old0 old1 whole (fun _ _ _ => 0)) q <> at_ (RestrictX2 polar_block offs area fine dx old0' old1' whole (fun _ _ _ => 0)) q.
Proof.
  exists (fun _ _ _ => 0), (fun _ _ i => IZR i), (fun _ => 1), (fun _ => 0), (fun _ => 0), (fun _ => 1), (fun _ => 1), (2%Z, 2%Z, 2%Z). split; [|split; [|split]].
  - unfold layout, polar_block, offs, nx2, nx3; cbn. lia.
  - unfold in_box, polar_block, whole, nx2, nx3; cbn. lia.
  - intros; lra.
  - cbn [at_]. unfold RestrictX2. cbv zeta. change (Z.ltb 1 (nx3 polar_block)) with true. change (within (sk whole) (ek whole) 2 && within (sj whole) (ej whole) 2 && within (si whole) (ei whole) 2)%bool with true. cbv iota.
    change (IsPole polar_block (fJ polar_block offs 2)) with true. cbv iota. change (fI polar_block offs 2) with 2%Z. change (2 + 1)%Z with 3%Z. lra.
Qed.
Print Assumptions C37_pole_refuted.
Definition cube4 : dims := mkD 2 5 2 5 2 5 false false.
Example C37_witness : layout cube4 offs /\ in_box cube4 offs whole (2, 3, 2)%Z /\ positive (fun k j i => 1 + IZR (i * i)) (cells cube4 offs (2, 3, 2)%Z) /\ length (cells cube4 offs (2, 3, 2)%Z) = 8%nat
  /\ at_ (RestrictCC cube4 offs (fun _ _ _ => 1 / 8) (fun k j i => IZR (k + i)) whole (fun _ _ _ => 0)) (2, 3, 2)%Z = 5.
Proof.
  split; [unfold layout, cube4, offs, nx2, nx3; cbn; lia|]. split; [unfold in_box, cube4, whole, nx2, nx3; cbn; lia|]. split; [|split].
  - intros [[k j] i] _. cbn [at_]. pose proof (IZR_le 0 (i * i) ltac:(nia)). lra.
  - reflexivity.
  - cbn [at_]. unfold RestrictCC. cbv zeta. change (Z.ltb 1 (nx3 cube4)) with true. change (within (sk whole) (ek whole) 2 && within (sj whole) (ej whole) 3 && within (si whole) (ei whole) 2)%bool with true. cbv iota.
    change (fI cube4 offs 2) with 2%Z. change (fK cube4 offs 2) with 2%Z. rewrite !plus_IZR. lra.
Qed.

(** ** C38: prolongation of cell-centred values *)
(** The fine cells together hold what the coarse cell holds: their volume-weighted mean is the coarse value, if volumes are products of one factor for each direction and the coarse centre is the mean of the fine centres
    (uniform Cartesian grids, see C38_uniform; volume centroids in other coordinates). *)
Theorem C38_mean : forall d c xc xf b u v vol w1 w2 w3 q, layout d c -> in_box d c b q -> sep vol w1 w2 w3 ->
  centroid w1 (p1 xc) (p1 xf) (is_ d) (cis c) (snd q) -> ((1 < nx2 d)%Z -> centroid w2 (p2 xc) (p2 xf) (js d) (cjs c) (snd (fst q))) -> ((1 < nx3 d)%Z -> centroid w3 (p3 xc) (p3 xf) (ks d) (cks c) (fst (fst q))) ->
  sum (map (fun p => at_ vol p * at_ (ProlongateCC d c xc xf b u v) p) (cells d c q)) = at_ u q * sum (map (at_ vol) (cells d c q)).
Proof. exact prolong_mean. Qed.
Print Assumptions C38_mean.
(** Restriction undoes prolongation. *)
Theorem C38_inverse : forall d c xc xf b u v vol w1 w2 w3 u' q, layout d c -> in_box d c b q -> sep vol w1 w2 w3 -> positive vol (cells d c q) ->
  centroid w1 (p1 xc) (p1 xf) (is_ d) (cis c) (snd q) -> ((1 < nx2 d)%Z -> centroid w2 (p2 xc) (p2 xf) (js d) (cjs c) (snd (fst q))) -> ((1 < nx3 d)%Z -> centroid w3 (p3 xc) (p3 xf) (ks d) (cks c) (fst (fst q))) ->
  at_ (RestrictCC d c vol (ProlongateCC d c xc xf b u v) b u') q = at_ u q.
Proof. exact inverse. Qed.
Print Assumptions C38_inverse.
(** Every fine value lies within the range of the coarse value and the coarse neighbours on its side (one for each direction), when fine centres are at most a third of the way to the next coarse centre. *)
Theorem C38_bounded : forall d c xc xf b u v q p, layout d c -> in_box d c b q -> spaced xc q -> nested d c xc xf q -> In p (cells d c q) ->
  forall lo hi, (forall r, In r (nearby d c q p) -> lo <= at_ u r <= hi) -> lo <= at_ (ProlongateCC d c xc xf b u v) p <= hi.
Proof. exact prolong_bound. Qed.
Print Assumptions C38_bounded.
(** Linear functions of the positions (constants among them) are reproduced exactly on any increasing grid. *)
Theorem C38_linear : forall d c xc xf b u v a b1 b2 b3, layout d c -> (forall k j i, u k j i = a + b1 * p1 xc i + (if Z.ltb 1 (nx2 d) then b2 * p2 xc j else 0) + (if Z.ltb 1 (nx3 d) then b3 * p3 xc k else 0)) ->
  forall q, in_box d c b q -> spaced xc q -> forall k j i, In (k, j, i) (cells d c q) ->
  ProlongateCC d c xc xf b u v k j i = a + b1 * p1 xf i + (if Z.ltb 1 (nx2 d) then b2 * p2 xf j else 0) + (if Z.ltb 1 (nx3 d) then b3 * p3 xf k else 0).
Proof. exact prolong_linear. Qed.
Print Assumptions C38_linear.
Theorem C38_rest : forall d c xc xf b u v k j i, layout d c -> (forall q, in_box d c b q -> ~ In (k, j, i) (cells d c q)) -> ProlongateCC d c xc xf b u v k j i = v k j i.
Proof. exact prolong_out. Qed.
Print Assumptions C38_rest.
(** On uniform Cartesian grids all of it holds without further conditions. *)
Theorem C38_uniform : forall d c xc xf b u v w u' q, layout d c -> uniform_grid d c xc xf -> 0 < w -> in_box d c b q ->
  at_ (RestrictCC d c (fun _ _ _ => w) (ProlongateCC d c xc xf b u v) b u') q = at_ u q
  /\ forall p, In p (cells d c q) -> forall lo hi, (forall r, In r (nearby d c q p) -> lo <= at_ u r <= hi) -> lo <= at_ (ProlongateCC d c xc xf b u v) p <= hi.
Proof.
  intros d c xc xf b u v w u' [[k j] i] L [U1 [U2 U3]] W B. split.
  - apply inverse with (w1 := fun _ => 1) (w2 := fun _ => 1) (w3 := fun _ => w); try assumption.
    + intros ? ? ?. ring. + intros [[? ?] ?] _. exact W. + apply even_centroid1; exact U1. + intros _; apply even_centroid1; exact U2. + intros _; apply even_centroid; auto.
  - intros p Hp. apply prolong_bound; try assumption.
    + repeat split; eapply even_spaced; eassumption.
    + repeat split; eapply even_third; eassumption.
Qed.
Print Assumptions C38_uniform.
Definition coarse_x : pos := mkP (fun i => IZR i) (fun j => IZR j) (fun k => IZR k).
Definition fine_x : pos := mkP (fun i => 3 / 4 + IZR i / 2) (fun j => 3 / 4 + IZR j / 2) (fun k => 3 / 4 + IZR k / 2).
Lemma unit_even : even_grid IZR (fun i => 3 / 4 + IZR i / 2) 2 2.
Proof. exists 0, 1. split; [lra|]. split; [intros; ring|]. intros a. rewrite !plus_IZR, !mult_IZR, minus_IZR. lra. Qed.
Example C38_witness : layout cube4 offs /\ uniform_grid cube4 offs coarse_x fine_x /\ in_box cube4 offs whole (3, 2, 3)%Z /\ length (nearby cube4 offs (3, 2, 3)%Z (4, 3, 5)%Z) = 4%nat.
Proof. split; [unfold layout, cube4, offs, nx2, nx3; cbn; lia|]. split; [repeat split; apply unit_even|]. split; [unfold in_box, cube4, whole, nx2, nx3; cbn; lia|reflexivity]. Qed.
(** a grid that is not uniform: radii of cylindrical shells with their volume centroids *)
Example C38_witness_centroid : centroid (fun i => if Z.eqb i 2 then 3 / 2 else 5 / 2) (fun _ => 14 / 9) (fun i => if Z.eqb i 2 then 14 / 9 * 3 / 4 else 14 / 9 * 23 / 20) 2 2 2.
Proof. unfold centroid. cbv zeta. change (2 + 2 * (2 - 2))%Z with 2%Z. change (2 + 1)%Z with 3%Z. change (Z.eqb 2 2) with true. change (Z.eqb 3 2) with false. cbv iota. lra. Qed.

(** ** C39: magnetic fields *)
(** Prolongation of the faces on coarse faces keeps the flux through each of them. *)
Theorem C39_x1_faces : forall fl d c xc xf af ac b u v q, layout d c -> in_box d c b q -> ok1 fl d c xc xf af ac q ->
  sum (map (fun p => at_ af p * at_ (SharedX1 fl d c xc xf af ac b u v) p) (faces1 d c q)) = at_ u q * sum (map (at_ af) (faces1 d c q)).
Proof. exact shared1. Qed.
Print Assumptions C39_x1_faces.
Theorem C39_x2_faces : forall tiny fl d c xc xf af ac b u v q, layout d c -> in_box d c b q -> ok2 tiny fl d c xc xf af ac q ->
  sum (map (fun p => at_ af p * at_ (SharedX2 tiny fl d c xc xf af ac b u v) p) (faces2 d c q)) = at_ u q * sum (map (at_ af) (faces2 d c q)).
Proof. exact shared2. Qed.
Print Assumptions C39_x2_faces.
Theorem C39_x3_faces : forall fl d c xc xf af ac b u v q, layout d c -> in_box d c b q -> ok3 fl d c xc xf af ac q ->
  sum (map (fun p => at_ af p * at_ (SharedX3 fl d c xc xf af ac b u v) p) (faces3 d c q)) = at_ u q * sum (map (at_ af) (faces3 d c q)).
Proof. exact shared3. Qed.
Print Assumptions C39_x3_faces.
(** If the flux out of a coarse cell through the fine faces around it is zero, the flux out of every fine cell in it is zero after the inner faces are computed; whatever the fields, areas and edge lengths. *)
Theorem C39_inner_faces : forall d c g S1 S2 S3 bx b q p, layout d c -> in_box d c bx q -> inner_areas d c g q -> widths S1 S2 S3 -> In p (cells d c q) -> flat d g b p -> out_of d c g b q = 0 ->
  net_flux g (ProlongateInternal d c g S1 S2 S3 bx b) (fst (fst p)) (snd (fst p)) (snd p) = 0.
Proof. exact internal. Qed.
Print Assumptions C39_inner_faces.
(** Otherwise the total is shared equally in 3D and 2D. *)
Theorem C39_equal_shares : forall d c g S1 S2 S3 bx b q k j i, layout d c -> (1 < nx2 d)%Z -> in_box d c bx q -> inner_areas d c g q -> widths S1 S2 S3 -> In (k, j, i) (cells d c q) -> flat d g b (k, j, i) ->
  net_flux g (ProlongateInternal d c g S1 S2 S3 bx b) k j i = out_of d c g b q / INR (length (cells d c q)).
Proof.
  intros d c g S1 S2 S3 bx b [[ck cj] ci] k j i L D2 B IA W H FL. destruct (nx_cases _ _ L) as [[D3 _]|[[D3 _]|[_ X]]]; [| |lia].
  - rewrite (internal3 d c g S1 S2 S3 bx b ck cj ci D3 D2 B IA W k j i H). f_equal. unfold cells, combine3, duo, two. rewrite (ltb1 _ D2), (ltb1 _ D3). cbn. lra.
  - rewrite (internal2 d c g S1 S2 S3 bx b ck cj ci L D3 D2 B IA k j i H FL). f_equal. unfold cells, combine3, duo, two. rewrite (ltb1 _ D2), (ltb0 _ D3). cbn. lra.
Qed.
Print Assumptions C39_equal_shares.
(** All four steps: a coarse field without net flux out of coarse cell q gives a fine field without net flux out of each fine cell in it, where each coarse face around q is either prolonged or its fine faces were already known
    and carry its flux. *)
Theorem C39_prolongation : forall tiny fl d c g gc P1 F1 P2 F2 P3 F3 S1 S2 S3 bx il iu jl ju kl ku u v ck cj ci,
  layout d c -> in_box d c bx (ck, cj, ci) -> inner_areas d c g (ck, cj, ci) -> widths S1 S2 S3 -> flat_areas d g ->
  (forall i, (i = ci \/ i = ci + 1)%Z -> carried1 fl d c g gc P1 F1 il iu u v (ck, cj, i)) ->
  ((1 < nx2 d)%Z -> forall j, (j = cj \/ j = cj + 1)%Z -> carried2 tiny fl d c g gc P2 F2 jl ju u v (ck, j, ci)) ->
  ((1 < nx3 d)%Z -> forall k, (k = ck \/ k = ck + 1)%Z -> carried3 fl d c g gc P3 F3 kl ku u v (k, cj, ci)) ->
  coarse_out d gc u (ck, cj, ci) = 0 ->
  forall p, In p (cells d c (ck, cj, ci)) -> net_flux g (ProlongateField tiny fl d c g gc P1 F1 P2 F2 P3 F3 S1 S2 S3 bx il iu jl ju kl ku u v) (fst (fst p)) (snd (fst p)) (snd p) = 0.
Proof. exact all_steps. Qed.
Print Assumptions C39_prolongation.
(** Cartesian coordinates with evenly spaced cells, all shared faces prolonged. *)
Theorem C39_cartesian : forall tiny d c g gc xc xf S1 S2 S3 bx u v q,
  layout d c -> cartesian d g gc -> uniform_grid d c xc xf -> widths S1 S2 S3 -> in_box d c bx q -> coarse_out d gc u q = 0 ->
  forall p, In p (cells d c q) -> net_flux g (ProlongateField tiny false d c g gc xc xf xc xf xc xf S1 S2 S3 bx (si bx) (ei bx + 1) (sj bx) (ej bx + 1) (sk bx) (ek bx + 1) u v) (fst (fst p)) (snd (fst p)) (snd p) = 0.
Proof.
  intros tiny d c g gc xc xf S1 S2 S3 bx u v [[ck cj] ci] L [h1 [h2 [h3 [H1 [H2 [H3 G]]]]]] [U1 [U2 U3]] W B CO. cbv zeta in G.
  assert (NZ : h2 * h3 <> 0 /\ h1 * h3 <> 0 /\ h1 * h2 <> 0). { repeat split; apply Rmult_integral_contrapositive_currified; lra. }
  apply all_steps; try assumption.
  - intros k j i _. destruct (G k j (is_ d + 2 * (snd (ck, cj, ci) - cis c) + 1)%Z) as [-> _]. destruct (G k (js d + 2 * (snd (fst (ck, cj, ci)) - cjs c) + 1)%Z i) as [_ [-> _]]. destruct (G (ks d + 2 * (fst (fst (ck, cj, ci)) - cks c) + 1)%Z j i) as [_ [_ [-> _]]]. tauto.
  - split; intros _; [intros k i; destruct (G k (js d + 1)%Z i) as [_ [-> _]]; destruct (G k (js d) i) as [_ [-> _]]; reflexivity|intros j i; destruct (G (ks d + 1)%Z j i) as [_ [_ [-> _]]]; destruct (G (ks d) j i) as [_ [_ [-> _]]]; reflexivity].
  - intros i E. left. split; [cbn [snd]; unfold in_box in B; lia|]. split.
    + unfold ok1, area_weighted. cbn [andb]. exists (fun _ => h2 * h3), (fun _ => 1), (fun _ => 1). split; [intros k' j' i'; destruct (G k' j' i') as [-> _]; ring|]. split; intros _; apply even_centroid1; assumption.
    + unfold same_area, faces1, combine3, duo, two. cbn [at_]. destruct (G ck cj i) as [_ [_ [_ [_ [-> _]]]]]. destruct (Z.ltb 1 (nx3 d)), (Z.ltb 1 (nx2 d)); cbn [flat_map map app at_]; rewrite !sum_cons, !sum_nil; repeat match goal with |- context [A1 g ?k ?j ?i] => rewrite (proj1 (G k j i)) end; ring.
  - intros D2 j E. left. split; [cbn [fst snd]; unfold in_box in B; rewrite (ltb1 _ D2) in B; lia|]. split.
    + unfold ok2, area_weighted. cbn [andb]. exists (fun _ => 1), (fun _ => h1 * h3), (fun _ => 1). split; [intros k' j' i'; destruct (G k' j' i') as [_ [-> _]]; ring|]. split; [|intros _]; apply even_centroid1; assumption.
    + unfold same_area, faces2, combine3, duo, two. cbn [at_]. destruct (G ck j ci) as [_ [_ [_ [_ [_ [-> _]]]]]]. destruct (Z.ltb 1 (nx3 d)); cbn [flat_map map app at_]; rewrite !sum_cons, !sum_nil; repeat match goal with |- context [A2 g ?k ?j ?i] => rewrite (proj1 (proj2 (G k j i))) end; ring.
  - intros D3 k E. left. split; [cbn [fst snd]; unfold in_box in B; rewrite (ltb1 _ D3) in B; lia|]. split.
    + unfold ok3, area_weighted. cbn [andb]. exists (fun _ => 1), (fun _ => 1), (fun _ => h1 * h2). split; [intros k' j' i'; destruct (G k' j' i') as [_ [_ [-> _]]]; ring|]. split; [|intros _]; apply even_centroid1; assumption.
    + unfold same_area, faces3, combine3, duo, two. cbn [at_]. destruct (G k cj ci) as [_ [_ [_ [_ [_ [_ [-> _]]]]]]]. destruct (Z.ltb 1 (nx2 d)); cbn [flat_map map app at_]; rewrite !sum_cons, !sum_nil; repeat match goal with |- context [A3 g ?k ?j ?i] => rewrite (proj1 (proj2 (proj2 (G k j i)))) end; ring.
Qed.
Print Assumptions C39_cartesian.
Definition fine_g : geom := mkG (fun _ _ _ => 1 / 4) (fun _ _ _ => 1 / 4) (fun _ _ _ => 1 / 4) (fun _ _ _ => 1 / 2) (fun _ _ _ => 1 / 2) (fun _ _ _ => 1 / 2) (fun _ _ _ => 1 / 8).
Definition coarse_g : geom := mkG (fun _ _ _ => 1) (fun _ _ _ => 1) (fun _ _ _ => 1) (fun _ _ _ => 1) (fun _ _ _ => 1) (fun _ _ _ => 1) (fun _ _ _ => 1).
Definition swirl : vec := mkV (fun k j i => IZR (i * i + j)) (fun k j i => IZR (- (2 * i + 1) * j)) (fun k j i => IZR (i * j)).
Example C39_witness : layout cube4 offs /\ cartesian cube4 fine_g coarse_g /\ uniform_grid cube4 offs coarse_x fine_x /\ widths (fun _ _ _ => 1) (fun _ _ _ => 1) (fun _ _ _ => 1) /\ in_box cube4 offs whole (3, 2, 3)%Z
  /\ (forall k j i, coarse_out cube4 coarse_g swirl (k, j, i) = 0) /\ at_ (x1 swirl) (3, 2, 3)%Z <> at_ (x1 swirl) (3, 2, 4)%Z.
Proof.
  split; [unfold layout, cube4, offs, nx2, nx3; cbn; lia|]. split.
  - exists (1 / 2), (1 / 2), (1 / 2). repeat (split; [lra|]). cbv zeta. change (Z.ltb 1 (nx2 cube4)) with true. change (Z.ltb 1 (nx3 cube4)) with true. intros. unfold fine_g, coarse_g; cbn [A1 A2 A3 V]. lra.
  - split; [repeat split; apply unit_even|]. split; [intros ? ? ?; lra|]. split; [unfold in_box, cube4, whole, nx2, nx3; cbn; lia|]. split.
    + intros k j i. unfold coarse_out. change (Z.ltb 1 (nx2 cube4)) with true. change (Z.ltb 1 (nx3 cube4)) with true. unfold coarse_g, swirl; cbn [A1 A2 A3 x1 x2 x3]. rewrite !plus_IZR, !mult_IZR, !opp_IZR, !plus_IZR, !mult_IZR. ring.
    + cbn [at_ swirl x1]. intro X. apply eq_IZR in X. lia.
Qed.
