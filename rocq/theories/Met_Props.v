(** C50: geometry of cells in Cartesian, cylindrical and spherical-polar coordinates; C66: a fluid at rest; C67: angular momentum; and C38, C39, C40 in all three coordinate systems. *)
From Coq Require Import Reals ZArith List Bool Lia Lra.
From Verif Require Import Fv_Model Fv_Spec Fv_Proofs Fv_Proofs2 Fv_Props Ref_Model Ref_Spec Met_Model Met_Spec Met_Proofs Met_Proofs2 Met_Proofs3 Met_Proofs4.
Import ListNotations.
Local Open Scope R_scope.

(** ** C50 *)
(** The volume of a cell is the integral of the volume element over it. *)
Theorem C50_volume : forall s g k j i, aligned g -> proper s g k j i ->
  integral3 (volume_element s) (x1f g i) (x1f g (i + 1)%Z) (x2f g j) (x2f g (j + 1)%Z) (x3f g k) (x3f g (k + 1)%Z) (GetCellVolume s g k j i) /\ 0 < GetCellVolume s g k j i.
Proof. intros s g k j i A P. split; [apply volume_int; assumption|apply volume_pos; assumption]. Qed.
Print Assumptions C50_volume.
(** The area of each of the six faces is the integral over that face. *)
Theorem C50_areas : forall s g k j i, aligned g -> proper s g k j i ->
  (forall i', (i' = i \/ i' = i + 1)%Z -> integral2 (fun b c => h2 s (x1f g i') b c * h3 s (x1f g i') b c) (x2f g j) (x2f g (j + 1)%Z) (x3f g k) (x3f g (k + 1)%Z) (GetFace1Area s g k j i')) /\
  (forall j', (j' = j \/ j' = j + 1)%Z -> integral2 (fun a c => h1 s a (x2f g j') c * h3 s a (x2f g j') c) (x1f g i) (x1f g (i + 1)%Z) (x3f g k) (x3f g (k + 1)%Z) (GetFace2Area s g k j' i)) /\
  (forall k', (k' = k \/ k' = k + 1)%Z -> integral2 (fun a b => h1 s a b (x3f g k') * h2 s a b (x3f g k')) (x1f g i) (x1f g (i + 1)%Z) (x2f g j) (x2f g (j + 1)%Z) (GetFace3Area s g k' j i)).
Proof. intros s g k j i A P. repeat split; intros; [eapply face1_int|eapply face2_int|eapply face3_int]; eassumption. Qed.
Print Assumptions C50_areas.
(** The length of each of the twelve edges is the integral along it. *)
Theorem C50_lengths : forall s g k j i, aligned g -> proper s g k j i -> forall k' j' i', (k' = k \/ k' = k + 1)%Z -> (j' = j \/ j' = j + 1)%Z -> (i' = i \/ i' = i + 1)%Z ->
  integral (fun a => h1 s a (x2f g j') (x3f g k')) (x1f g i) (x1f g (i + 1)%Z) (GetEdge1Length s g k' j' i) /\
  integral (fun b => h2 s (x1f g i') b (x3f g k')) (x2f g j) (x2f g (j + 1)%Z) (GetEdge2Length s g k' j i') /\
  integral (fun c => h3 s (x1f g i') (x2f g j') c) (x3f g k) (x3f g (k + 1)%Z) (GetEdge3Length s g k j' i').
Proof. intros s g k j i A P k' j' i' H3 H2 H1. split; [eapply edge1_int; eassumption|]. split; [eapply edge2_int; eassumption|eapply edge3_int; eassumption]. Qed.
Print Assumptions C50_lengths.
(** Faces have an area off the axis and off the poles, and none on them. *)
Theorem C50_signs : forall s g k j i, aligned g -> proper s g k j i ->
  (off_axis s (x1f g i) -> 0 < GetFace1Area s g k j i) /\ 0 < GetFace1Area s g k j (i + 1)%Z /\ (off_pole s (x2f g j) -> 0 < GetFace2Area s g k j i) /\ (off_pole s (x2f g (j + 1)%Z) -> 0 < GetFace2Area s g k (j + 1)%Z i) /\
  0 < GetFace3Area s g k j i /\ (~ off_axis s (x1f g i) -> GetFace1Area s g k j i = 0) /\ (~ off_pole s (x2f g j) -> GetFace2Area s g k j i = 0).
Proof.
  intros s g k j i A P. pose proof (vj_pos s g k j i A P) as Vj. pose proof (vk_pos s g k j i A P) as Vk. pose proof (a2i_pos s g k j i A P) as V2. pose proof (a3i_pos s g k j i A P) as V3.
  rewrite (area1_sep s g k j i), (area1_sep s g k j (i + 1)%Z), (area2_sep s g k j i), (area2_sep s g k (j + 1)%Z i), (area3_sep s g k j i). pose proof P as (Q1 & Q2 & Q3 & Q4 & Q5). rewrite (dj_U g j A). repeat split.
  - intro H. repeat apply Rmult_lt_0_compat; try assumption. unfold a1i, coord_area1_i. destruct s; cbn [off_axis] in H; [lra|lra|nra].
  - repeat apply Rmult_lt_0_compat; try assumption. unfold a1i, coord_area1_i. destruct s; cbn [radius_ok] in Q4; [lra|lra|nra].
  - intro H. repeat apply Rmult_lt_0_compat; try assumption. unfold a2j. destruct s; try lra. cbn [off_pole angle_ok] in *. rewrite area2_j_val by lra. apply sin_gt_0; lra.
  - intro H. repeat apply Rmult_lt_0_compat; try assumption. unfold a2j. destruct s; try lra. cbn [off_pole angle_ok] in *. rewrite area2_j_val by lra. apply sin_gt_0; lra.
  - repeat apply Rmult_lt_0_compat; lra.
  - intro H. unfold a1i, coord_area1_i. destruct s; cbn [off_axis radius_ok] in *; [exfalso; apply H; exact I| |]; replace (x1f g i) with 0 by lra; ring.
  - intro H. unfold a2j, coord_area2_j. destruct s; cbn [off_pole angle_ok] in *; [exfalso; apply H; exact I|exfalso; apply H; exact I|]. replace (x2f g j) with 0 by (destruct (Rlt_dec 0 (x2f g j)); [exfalso; apply H; lra|lra]). rewrite sin_0, Rabs_R0. ring.
Qed.
Print Assumptions C50_signs.
(** All cells of a block together have the volume of the region the block covers. *)
Theorem C50_block : forall s d g, nonempty d -> proper_block s d g ->
  integral3 (volume_element s) (x1f g (is_ d)) (x1f g (ie d + 1)%Z) (x2f g (js d)) (x2f g (je d + 1)%Z) (x3f g (ks d)) (x3f g (ke d + 1)%Z) (sum3 d (GetCellVolume s g)).
Proof. exact block_volume. Qed.
Print Assumptions C50_block.
(** A coarse cell has the volume of the fine cells in it, a coarse face the area of the fine faces on it. *)
Theorem C50_refined : forall s d c gf gc k j i, nested_cells s d c gf gc (k, j, i) ->
  sum (map (at_ (GetCellVolume s gf)) (cells d c (k, j, i))) = GetCellVolume s gc k j i /\
  (forall i', (i' = i \/ i' = i + 1)%Z -> same_area (GetFace1Area s gf) (GetFace1Area s gc) (faces1 d c (k, j, i')) (k, j, i')) /\
  ((1 < nx2 d)%Z -> forall j', (j' = j \/ j' = j + 1)%Z -> same_area (GetFace2Area s gf) (GetFace2Area s gc) (faces2 d c (k, j', i)) (k, j', i)) /\
  (forall k', (k' = k \/ k' = k + 1)%Z -> same_area (GetFace3Area s gf) (GetFace3Area s gc) (faces3 d c (k', j, i)) (k', j, i)).
Proof.
  intros s d c gf gc k j i N. pose proof (nested_spans s d c gf gc k j i N) as (_ & S2_). destruct N as (Af & Ac & Rf & _). repeat split.
  - apply cells_sum; assumption.
  - intros i' [-> | ->]; [apply faces1_sum; assumption|apply faces1_next; assumption].
  - intros D2 j' [-> | ->]; [apply faces2_sum; assumption|apply faces2_next; assumption].
  - intros k' [-> | ->]; [apply faces3_sum; assumption|apply faces3_next; assumption].
Qed.
Print Assumptions C50_refined.
(** The centre of a cell lies in it and is its centre of volume: coordinate times volume is the integral of the coordinate (in one dimension the polar angle of the centre is the midpoint instead). *)
Theorem C50_centres : forall s g k j i n, aligned g -> proper s g k j i ->
  x1f g i < x1v s g i < x1f g (i + 1)%Z /\ x2f g j < x2v s g n j < x2f g (j + 1)%Z /\ x3f g k < x3v s g k < x3f g (k + 1)%Z /\
  ((s = spherical_polar -> n <> 1%Z) -> let box f v := integral3 f (x1f g i) (x1f g (i + 1)%Z) (x2f g j) (x2f g (j + 1)%Z) (x3f g k) (x3f g (k + 1)%Z) v in
     box (fun a b c => a * volume_element s a b c) (x1v s g i * GetCellVolume s g k j i) /\
     box (fun a b c => b * volume_element s a b c) (x2v s g n j * GetCellVolume s g k j i) /\
     box (fun a b c => c * volume_element s a b c) (x3v s g k * GetCellVolume s g k j i)).
Proof.
  intros s g k j i n A P. split; [eapply x1v_in; eassumption|]. split; [eapply x2v_in; eassumption|]. split; [destruct P as (_ & _ & H & _); unfold x3v; lra|]. intro Hn. apply centre_int; assumption.
Qed.
Print Assumptions C50_centres.

(** A shell from pole to pole. *)
Definition ball : dims := mkD 2 5 2 5 2 5 true true.
Definition ball_grid (n : R) : grid :=
  let D (h : Z -> R) := fun m : Z => h (m + 1)%Z - h m in let a := fun i : Z => 1 + IZR (i - 2) / n in let b := fun j : Z => PI * (IZR (j - 2) / 4) in let c := fun k : Z => IZR (k - 2) / n in mkGrid a b c (D a) (D b) (D c).
Lemma pi_frac : forall j, (2 <= j <= 5)%Z -> 0 <= PI * (IZR (j - 2) / 4) /\ PI * (IZR (j - 2) / 4) < PI * (IZR (j + 1 - 2) / 4) /\ PI * (IZR (j + 1 - 2) / 4) <= PI.
Proof.
  intros j H. pose proof PI_RGT_0. pose proof (IZR_le 0 (j - 2) ltac:(lia)). replace (j + 1 - 2)%Z with (j - 2 + 1)%Z by lia. rewrite plus_IZR. pose proof (IZR_le (j - 2) 3 ltac:(lia)). nra.
Qed.
Example C50_ball : nonempty ball /\ proper_block spherical_polar ball (ball_grid 2) /\ off_axis spherical_polar (x1f (ball_grid 2) (is_ ball)).
Proof.
  split; [unfold nonempty, ball, nx2, nx3; cbn; lia|]. split; [|unfold ball_grid, ball; cbn [off_axis x1f is_]; change (IZR (2 - 2)) with 0; lra]. split; [intro; repeat split|]. split; [|intro X; unfold nx2, ball in X; cbn in X; lia].
  intros k j i H. unfold is_active, ball in H; cbn in H. pose proof (pi_frac j ltac:(lia)) as Q. unfold proper, ball_grid; cbn [x1f x2f x3f radius_ok angle_ok].
  replace (i + 1 - 2)%Z with (i - 2 + 1)%Z by lia. replace (k + 1 - 2)%Z with (k - 2 + 1)%Z by lia. rewrite !plus_IZR. pose proof (IZR_le 0 (i - 2) ltac:(lia)). repeat split; lra.
Qed.
(** Finding: nothing keeps a cylindrical or spherical-polar grid off r = 0; the face there has no area, so the update of the magnetic field (C40) divides by zero. *)
Definition pipe : grid := let D (h : Z -> R) := fun m : Z => h (m + 1)%Z - h m in let a := fun i : Z => IZR (i - 2) in mkGrid a a a (D a) (D a) (D a).
Definition rod : dims := mkD 2 5 2 5 2 5 false false.
Theorem C50_axis_refuted : nonempty rod /\ proper_block cylindrical rod pipe /\ ~ good_geom rod (geometry cylindrical pipe) /\ forall k j, GetFace1Area cylindrical pipe k j (is_ rod) = 0.
Proof.
  assert (Z0 : forall k j, GetFace1Area cylindrical pipe k j (is_ rod) = 0). { intros k j. unfold GetFace1Area, pipe, rod; cbn [x1f is_]. change (2 - 2)%Z with 0%Z. ring. }
  split; [unfold nonempty, rod, nx2, nx3; cbn; lia|]. split; [|split].
  - split; [intro; repeat split|]. split; [|intros X; discriminate]. intros k j i H. unfold is_active, rod in H; cbn in H. unfold proper, pipe; cbn [x1f x2f x3f radius_ok angle_ok].
    replace (i + 1 - 2)%Z with (i - 2 + 1)%Z by lia. replace (k + 1 - 2)%Z with (k - 2 + 1)%Z by lia. replace (j + 1 - 2)%Z with (j - 2 + 1)%Z by lia. rewrite !plus_IZR. pose proof (IZR_le 0 (i - 2) ltac:(lia)). repeat split; lra.
  - intro G. apply (gg1 _ _ G (ks rod) (js rod) (is_ rod)); [unfold rod; cbn; lia|]. apply Z0.
  - exact Z0.
Qed.
Print Assumptions C50_axis_refuted.

(** ** C40 in all coordinate systems: off the axis the geometry meets the conditions of the theorems on constrained transport, with and without poles and in one, two or three dimensions. *)
Theorem C40_all_coordinates : forall s d g e w b, nonempty d -> proper_block s d g -> off_axis s (x1f g (is_ d)) ->
  (pole_in d = true -> s = spherical_polar /\ x2f g (js d) = 0) -> (pole_out d = true -> s = spherical_polar /\ x2f g (je d + 1)%Z = PI) ->
  (s = spherical_polar -> (x2f g (js d) = 0 -> pole_in d = true) /\ (x2f g (je d + 1)%Z = PI -> pole_out d = true)) -> good_emf d (geometry s g) e ->
  forall k j i, is_active d k j i -> net_flux (geometry s g) (CT d (geometry s g) e w b) k j i = net_flux (geometry s g) b k j i.
Proof. intros. apply C40_cell_flux; try assumption. apply geometry_good; assumption. Qed.
Print Assumptions C40_all_coordinates.
Example C40_ball : good_geom ball (geometry spherical_polar (ball_grid 2)).
Proof.
  destruct C50_ball as (N & B & O). apply geometry_good; try assumption; intros; unfold ball, ball_grid; cbn [x2f js je pole_in pole_out].
  - split; [reflexivity|]. change (2 - 2)%Z with 0%Z. lra.
  - split; [reflexivity|]. change (5 + 1 - 2)%Z with 4%Z. lra.
  - auto.
Qed.

(** ** C38 and C39 in all coordinate systems *)
(** Prolonging with the cell centres of C50 puts into the fine cells exactly what the coarse cell holds, and restricting gives the coarse value back. *)
Theorem C38_all_coordinates : forall s d c gf gc b u v u' q, layout d c -> in_box d c b q -> nested_cells s d c gf gc q ->
  let fine := ProlongateCC d c (centres s d gc) (centres s d gf) b u v in
  sum (map (fun p => at_ (GetCellVolume s gf) p * at_ fine p) (cells d c q)) = at_ (GetCellVolume s gc) q * at_ u q /\ at_ (RestrictCC d c (GetCellVolume s gf) fine b u') q = at_ u q.
Proof. intros. split; [apply mean_all; assumption|apply inverse_all; assumption]. Qed.
Print Assumptions C38_all_coordinates.
(** Magnetic fields without net flux out of the coarse cell are prolonged without net flux out of any fine cell in it; with the area-weighted form the cell must be off the axis. *)
Theorem C39_all_coordinates : forall tiny fl s d c gf gc S1 S2 S3 bx u v q, 0 < tiny -> layout d c -> in_box d c bx q -> nested_cells s d c gf gc q -> (fl = true -> off_axis s (x1f gc (snd q))) -> widths S1 S2 S3 ->
  coarse_out d (geometry s gc) u q = 0 -> forall p, In p (cells d c q) ->
  net_flux (geometry s gf) (ProlongateField tiny fl d c (geometry s gf) (geometry s gc) (centres1 s d gc) (centres1 s d gf) (centres2 s d gc) (centres2 s d gf) (centres3 s d gc) (centres3 s d gf)
    S1 S2 S3 bx (si bx) (ei bx + 1) (sj bx) (ej bx + 1) (sk bx) (ek bx + 1) u v) (fst (fst p)) (snd (fst p)) (snd p) = 0.
Proof. exact divfree_all. Qed.
Print Assumptions C39_all_coordinates.
(** A coarse cell at the pole of the ball and the eight fine cells in it. *)
Definition coarse_ball : grid :=
  let D (h : Z -> R) := fun m : Z => h (m + 1)%Z - h m in let a := fun i : Z => 1 + IZR (i - 2) in let b := fun j : Z => PI * (IZR (j - 2) / 2) in let c := fun k : Z => IZR (k - 2) in mkGrid a b c (D a) (D b) (D c).
Example C38_ball : layout ball (mkO 2 2 2) /\ in_box ball (mkO 2 2 2) (mkBox 2 3 2 3 2 3) (3, 2, 3)%Z /\ nested_cells spherical_polar ball (mkO 2 2 2) (ball_grid 2) coarse_ball (3, 2, 3)%Z.
Proof.
  split; [unfold layout, ball, nx2, nx3; cbn; lia|]. split; [unfold in_box, ball, nx2, nx3; cbn; lia|]. destruct C50_ball as (_ & (A & P & _) & _). split; [exact A|]. split; [intro; repeat split|]. split; [|split; [|split]].
  - unfold refines, finer. change (Z.ltb 1 (nx2 ball)) with true. change (Z.ltb 1 (nx3 ball)) with true. cbv iota zeta. cbn [is_ js ks cis cjs cks ball ball_grid coarse_ball x1f x2f x3f].
    change (2 + 2 * (3 - 2))%Z with 4%Z. change (2 + 2 * (2 - 2))%Z with 2%Z. change (4 + 2 - 2)%Z with 4%Z. change (2 + 2 - 2)%Z with 2%Z. change (3 + 1 - 2)%Z with 2%Z. change (4 - 2)%Z with 2%Z. change (3 - 2)%Z with 1%Z. change (2 - 2)%Z with 0%Z. change (2 + 1 - 2)%Z with 1%Z. repeat split; lra.
  - unfold proper, coarse_ball; cbn [x1f x2f x3f radius_ok angle_ok]. change (3 + 1 - 2)%Z with 2%Z. change (3 - 2)%Z with 1%Z. change (2 - 2)%Z with 0%Z. change (2 + 1 - 2)%Z with 1%Z. pose proof PI_RGT_0. repeat split; lra.
  - intros k j i H. apply P. unfold cells, combine3, duo, two in H. change (Z.ltb 1 (nx2 ball)) with true in H. change (Z.ltb 1 (nx3 ball)) with true in H. cbn in H. unfold is_active, ball; cbn. repeat destruct H as [H|H]; try (inversion H; subst; lia); contradiction.
  - intro X; unfold nx2, ball in X; cbn in X; lia.
Qed.

(** ** C66: a fluid at rest with uniform pressure stays at rest *)
(** The momentum that pressure adds through the faces of a cell is exactly what the geometric source terms take away, in one, two and three dimensions and next to axis and poles. *)
Theorem C66_fluid_at_rest : forall s d g dt f w u p, nonempty d -> proper_block s d g -> at_rest p w -> pressure_flux p f ->
  forall k j i, M1 (advance_momenta s d g dt f w u) k j i = M1 u k j i /\ M2 (advance_momenta s d g dt f w u) k j i = M2 u k j i /\ M3 (advance_momenta s d g dt f w u) k j i = M3 u k j i.
Proof. intros; eapply rest; eassumption. Qed.
Print Assumptions C66_fluid_at_rest.
Definition still : prims := let o : arr := fun _ _ _ => 0 in mkPr (fun k j i => IZR (1 + i * i)) (fun _ _ _ => 7) o o (fun _ _ _ => 3) o o o.
Definition push : mflux := let o : arr := fun _ _ _ => 0 in let c : arr := fun _ _ _ => 3 in mkMF (mkV c o o) (mkV o c o) (mkV o o c).
Example C66_ball : nonempty ball /\ proper_block spherical_polar ball (ball_grid 2) /\ at_rest 3 still /\ pressure_flux 3 push.
Proof. destruct C50_ball as (N & B & _). split; [exact N|]. split; [exact B|]. split; intros k j i; unfold still, push; cbn; repeat split. Qed.

(** ** C67: angular momentum *)
(** Times the lever arm of its cell, the azimuthal momentum changes by a flux divergence alone: the source terms leave none behind. *)
Theorem C67_pure_divergence : forall s d g dt f w u k j i, nonempty d -> proper_block s d g -> is_active d k j i -> s <> cartesian ->
  arm s g j i * azimuthal s (advance_momenta s d g dt f w u) k j i = AddFluxDivergence d (geometry s g) (torque s g (azimuthal_flux s f)) dt (fun k j i => arm s g j i * azimuthal s u k j i) k j i.
Proof. exact angular. Qed.
Print Assumptions C67_pure_divergence.
(** So the angular momentum of a block changes only by what flows through its sides. *)
Theorem C67_block : forall s d g dt f w u, nonempty d -> proper_block s d g -> s <> cartesian ->
  let L u := sum3 d (fun k j i => GetCellVolume s g k j i * (arm s g j i * azimuthal s u k j i)) in
  L (advance_momenta s d g dt f w u) = L u - dt * sum (map (fun fid => flow (geometry s g) (torque s g (azimuthal_flux s f)) fid (side d fid)) (sides d)).
Proof.
  intros s d g dt f w u N B Hs L. unfold L.
  pose proof (C41_block d (geometry s g) (torque s g (azimuthal_flux s f)) dt (fun k j i => arm s g j i * azimuthal s u k j i) N) as H.
  assert (HV : forall k j i, is_active d k j i -> V (geometry s g) k j i <> 0). { intros k j i Ha. cbn [geometry V]. apply Rgt_not_eq. apply volume_pos; [apply B|apply B; exact Ha]. }
  specialize (H HV). unfold total in H. transitivity (sum3 d (fun k j i => V (geometry s g) k j i * AddFluxDivergence d (geometry s g) (torque s g (azimuthal_flux s f)) dt (fun k j i => arm s g j i * azimuthal s u k j i) k j i)); [|exact H].
  unfold sum3. apply sum_ext; intros k Hk. apply sum_ext; intros j Hj. apply sum_ext; intros i Hi. rewrite in_upto in Hk, Hj, Hi. rewrite <- (angular s d g dt f w u k j i N B); [reflexivity|unfold is_active; tauto|exact Hs].
Qed.
Print Assumptions C67_block.
Example C67_ball : arm spherical_polar (ball_grid 2) 3 3 <> 0 /\ is_active ball 3 3 3.
Proof.
  split; [|unfold is_active, ball; cbn; lia]. unfold arm, mid, ball_grid; cbn [x1f x2f]. change (3 + 1 - 2)%Z with 2%Z. change (3 - 2)%Z with 1%Z. replace (PI * (1 / 4)) with (PI / 4) by field. replace (PI * (2 / 4)) with (PI / 2) by field. rewrite sin_PI2.
  assert (0 < sin (PI / 4)) by (apply sin_gt_0; pose proof PI_RGT_0; lra). intro X0. nra.
Qed.
