(** C40, C41, C42: constrained transport, conservation and flux correction. *)
From Coq Require Import Reals ZArith List Bool Lia Lra Permutation.
From Verif Require Import Fv_Model Fv_Spec Fv_Proofs Fv_Proofs2 Fv_Proofs3.
Import ListNotations.
Local Open Scope R_scope.

(** ** C40: magnetic flux *)
(** Whatever the electric fields, weight and geometry, the update leaves the magnetic flux out of every cell unchanged (1D, 2D, 3D, and next to poles). *)
Theorem C40_cell_flux : forall d g e w b, nonempty d -> good_geom d g -> good_emf d g e -> forall k j i, is_active d k j i -> net_flux g (CT d g e w b) k j i = net_flux g b k j i.
Proof. intros. apply CT_net; assumption. Qed.
Print Assumptions C40_cell_flux.
(** In one and two dimensions the edge fields as the code copies them meet the condition on the fields for any values. *)
Theorem C40_copied_fields : forall d g e, nonempty d -> nx3 d = 1%Z \/ good_emf d g e -> good_emf d g (corner_copies d e).
Proof. exact copies_good. Qed.
Print Assumptions C40_copied_fields.
Theorem C40_two_dimensions : forall d g e w b, nonempty d -> good_geom d g -> nx3 d = 1%Z -> forall k j i, is_active d k j i -> net_flux g (CT d g (corner_copies d e) w b) k j i = net_flux g b k j i.
Proof. intros. apply CT_net; auto. apply copies_good; auto. Qed.
Print Assumptions C40_two_dimensions.
(** In three dimensions away from poles there is no condition on the fields. *)
Theorem C40_three_dimensions : forall d g e w b, nonempty d -> good_geom d g -> (1 < nx3 d)%Z -> pole_in d = false -> pole_out d = false -> forall k j i, is_active d k j i -> net_flux g (CT d g e w b) k j i = net_flux g b k j i.
Proof. intros d g e w b N G H P1 P2 k j i A. apply CT_net; auto. assert (nx2 d <> 1%Z) by (destruct N as [_ N]; intro X; specialize (N X); lia). split; intros; try lia; congruence. Qed.
Print Assumptions C40_three_dimensions.
(** Any history of updates, averages between registers with any weights (outside the case below), copies and super time stepping registers keeps the field free of net flux when it starts so. *)
Theorem C40_history : forall d g, nonempty d -> good_geom d g -> forall ops, Forall (allowed d g) ops ->
  forall regs, (forall r, (forall k j i, is_active d k j i -> net_flux g (regs r) k j i = 0) /\ ((1 < nx2 d)%Z \/ forall k j i, is_active d k j i -> A1 g k j (i + 1)%Z * x1 (regs r) k j (i + 1)%Z - A1 g k j i * x1 (regs r) k j i = 0)) ->
  forall r k j i, is_active d k j i -> net_flux g (fold_left (fun s o => perform d g o s) ops regs r) k j i = 0.
Proof. intros d g N G ops HA regs H r k j i A. apply (proj1 (history d g N G ops HA regs H r)). assumption. Qed.
Print Assumptions C40_history.
(** Two blocks that share a face with the same area, field and electromotive forces on its edges keep the same field on it. *)
Theorem C40_shared_face : forall d d' g g' e e' w b b' k j i k' j' i',
  (ks d <= k <= ke d)%Z -> (js d <= j <= je d)%Z -> (is_ d <= i <= ie d + 1)%Z -> (ks d' <= k' <= ke d')%Z -> (js d' <= j' <= je d')%Z -> (is_ d' <= i' <= ie d' + 1)%Z ->
  same_size d d' -> A1 g k j i = A1 g' k' j' i' -> x1 b k j i = x1 b' k' j' i' ->
  (forall s, s = 0%Z \/ s = 1%Z -> L3 g k (j + s)%Z i * x3 e k (j + s)%Z i = L3 g' k' (j' + s)%Z i' * x3 e' k' (j' + s)%Z i' /\ L2 g (k + s)%Z j i * x2 e (k + s)%Z j i = L2 g' (k' + s)%Z j' i' * x2 e' (k' + s)%Z j' i') ->
  x1 (CT d g e w b) k j i = x1 (CT d' g' e' w b') k' j' i'.
Proof.
  intros d d' g g' e e' w b b' k j i k' j' i' H1 H2 H3 H4 H5 H6 [S1 [S2 S3]] HA HB HE. unfold CT; cbn [x1]. rewrite !within_true by lia. cbn [andb]. rewrite <- S2, <- S3, HA, HB.
  destruct (HE 0%Z (or_introl eq_refl)) as [E1 E2]. destruct (HE 1%Z (or_intror eq_refl)) as [E3 E4]. rewrite !Z.add_0_r in E1, E2. rewrite E1, E2, E3, E4. reflexivity.
Qed.
Print Assumptions C40_shared_face.
(** Finding: with the first weight 1 and all the others used, the average of the second component takes the third component of one register, and the average of fields without net flux has net flux. *)
Definition cube : dims := mkD 0 1 0 1 0 1 false false.
Definition unit_geom : geom := mkG (fun _ _ _ => 1) (fun _ _ _ => 1) (fun _ _ _ => 1) (fun _ _ _ => 1) (fun _ _ _ => 1) (fun _ _ _ => 1) (fun _ _ _ => 1).
Definition zero_field : vec := mkV (fun _ _ _ => 0) (fun _ _ _ => 0) (fun _ _ _ => 0).
(** third component growing with j: no net flux. *)
Definition shear_field : vec := mkV (fun _ _ _ => 0) (fun _ _ _ => 0) (fun _ j _ => IZR j).
Theorem C40_average_refuted : exists w o a b c e, (forall v, In v [o; a; b; c; e] -> forall k j i, net_flux unit_geom v k j i = 0) /\ is_active cube 0 0 0 /\ net_flux unit_geom (WeightedAve cube w o a b c e) 0 0 0 <> 0.
Proof.
  exists (mkW 1 1 1 1 1), zero_field, zero_field, zero_field, shear_field, zero_field. split; [|split].
  - intros v [<-|[<-|[<-|[<-|[<-|[]]]]]] k j i; unfold net_flux, unit_geom, zero_field, shear_field; cbn [x1 x2 x3 A1 A2 A3]; ring.
  - unfold is_active, cube; cbn. lia.
  - unfold net_flux, WeightedAve, unit_geom, zero_field, shear_field, cube. cbn [x1 x2 x3 A1 A2 A3 ks ke js je is_ ie pole_in pole_out w0 w1 w2 w3 w4]. unfold ave, isR.
    destruct (Req_EM_T 1 1) as [_|X]; [|exfalso; lra]. destruct (Req_EM_T 1 0) as [X|_]; [exfalso; lra|]. cbn [negb andb within Z.leb Z.compare Z.add Pos.compare Pos.compare_cont Pos.add Pos.succ]. lra.
Qed.
Print Assumptions C40_average_refuted.

Lemma unit_good : good_geom cube unit_geom.
Proof. unfold unit_geom, cube; split; cbn [A1 A2 A3 L1 L2 L3 pole_in pole_out]; intros; try lra; try discriminate; auto. Qed.
Example C40_witness : nonempty cube /\ good_geom cube unit_geom /\ is_active cube 1 1 1 /\ net_flux unit_geom (CT cube unit_geom (mkV (fun k j i => IZR (k * j)) (fun _ _ i => IZR (i * i)) (fun _ j i => IZR (j - i))) (1 / 2) shear_field) 1%Z 1%Z 1%Z = 0
  /\ x1 (CT cube unit_geom (mkV (fun k j i => IZR (k * j)) (fun _ _ i => IZR (i * i)) (fun _ j i => IZR (j - i))) (1 / 2) shear_field) 1%Z 1%Z 1%Z <> 0.
Proof.
  assert (N : nonempty cube) by (unfold nonempty, cube, nx2, nx3; cbn; lia). assert (A : is_active cube 1 1 1) by (unfold is_active, cube; cbn; lia).
  split; [exact N|]. split; [exact unit_good|]. split; [exact A|]. split.
  - rewrite C40_three_dimensions; try assumption; try reflexivity; [|exact unit_good]. unfold net_flux, shear_field, unit_geom; cbn [x1 x2 x3 A1 A2 A3]; ring.
  - unfold CT, cube, unit_geom, shear_field, nx2, nx3; cbn [x1 x2 x3 A1 L2 L3 ks ke js je is_ ie]. cbn [within Z.leb Z.compare Z.add Z.sub Z.opp Z.pos_sub Pos.pred_double Pos.compare Pos.compare_cont Pos.add Pos.succ andb Z.ltb Z.mul Pos.mul]. lra.
Qed.

(** ** C41: conservation *)
(** One block: the content changes by the outflow through its sides times the weight. *)
Theorem C41_block : forall d g f w u, nonempty d -> (forall k j i, is_active d k j i -> V g k j i <> 0) ->
  total d g (AddFluxDivergence d g f w u) = total d g u - w * sum (map (fun fid => flow g f fid (side d fid)) (sides d)).
Proof. intros. apply block_change; assumption. Qed.
Print Assumptions C41_block.
(** Cells outside the active range are untouched. *)
Theorem C41_ghosts : forall d g f w u k j i, ~ is_active d k j i -> AddFluxDivergence d g f w u k j i = u k j i.
Proof.
  intros d g f w u k j i H. unfold AddFluxDivergence. destruct (active d k j i) eqn:A; [|reflexivity]. exfalso; apply H. unfold active in A. rewrite !andb_true_iff, !within_iff in A. unfold is_active; tauto.
Qed.
Print Assumptions C41_ghosts.
(** Any set of blocks: the content changes by the outflow through all patches; when every patch is matched by one with the opposite flow, it does not change. *)
Theorem C41_mesh : forall w m, Forall good_block m -> mesh_total (map (advanced w) m) = mesh_total m - w * sum (flows m).
Proof. exact mesh_change. Qed.
Print Assumptions C41_mesh.
Theorem C41_closed_mesh : forall w m boundary, Forall good_block m -> (exists inner, Permutation (flows m) (inner ++ boundary) /\ closed inner) -> mesh_total (map (advanced w) m) = mesh_total m - w * sum boundary.
Proof. intros w m bd_ H [inner [P C]]. rewrite mesh_change by assumption. rewrite (sum_perm _ _ P), sum_app, (closed_zero _ C). ring. Qed.
Print Assumptions C41_closed_mesh.
(** The averages of the time integrators take the weighted average of the contents. *)
Theorem C41_average : forall d g w o a b c e, total d g (WeightedAve_cc d w o a b c e) = w0 w * total d g o + w1 w * total d g a + w2 w * total d g b + w3 w * total d g c + w4 w * total d g e.
Proof. exact average_total. Qed.
Print Assumptions C41_average.
(** The register of super time stepping holds half a step of the outflow. *)
Theorem C41_register : forall d g f dt r, nonempty d -> (forall k j i, is_active d k j i -> V g k j i <> 0) ->
  total d g (FluxDivergence_register d g f dt r) = - (1 / 2) * dt * sum (map (fun fid => flow g f fid (side d fid)) (sides d)).
Proof. intros. apply register_change; assumption. Qed.
Print Assumptions C41_register.

(** ** C42: flux correction *)
(** After the correction the flux through a coarse face times the area of the fine faces on it is the sum of what goes through those; nothing else changes. *)
Theorem C42_faces : forall dc df gf fc ff fid fi1 fi2, nonempty dc -> same_size dc df -> Z.even (nx1 dc) = true -> dir_ok (nx2 dc) -> dir_ok (nx3 dc) -> In fid (sides dc) -> In (Part fid fi1 fi2) (parts dc fid) ->
  let f' := SetFlux dc fc fid fi1 fi2 (LoadFlux df gf ff (opposite fid)) in
  (forall p, In p (slots dc fid fi1 fi2) -> area_of gf fid (fine_faces dc df fid fi1 fi2 p) <> 0 ->
     at_ (comp fid f') p * area_of gf fid (fine_faces dc df fid fi1 fi2 p) = sum (map (fun q => at_ (areas fid gf) q * at_ (comp fid ff) q) (fine_faces dc df fid fi1 fi2 p))) /\
  (forall p, ~ In p (slots dc fid fi1 fi2) -> at_ (comp fid f') p = at_ (comp fid fc) p).
Proof.
  intros dc df gf fc ff fid fi1 fi2 N S D1 D2 D3 Hs Hp. destruct (corrected_all dc df unit_geom gf fc ff fid fi1 fi2 N S D1 D2 D3 Hs Hp) as [H1 [H2 _]]. split; [|exact H2].
  intros p Hin. rewrite area_at. apply H1; assumption.
Qed.
Print Assumptions C42_faces.
(** What leaves the coarse block through that part is what enters the fine one. *)
Theorem C42_flow : forall dc df gc gf fc ff fid fi1 fi2, nonempty dc -> same_size dc df -> Z.even (nx1 dc) = true -> dir_ok (nx2 dc) -> dir_ok (nx3 dc) -> In fid (sides dc) -> In (Part fid fi1 fi2) (parts dc fid) ->
  (forall p, In p (slots dc fid fi1 fi2) -> at_ (areas fid gc) p = area_of gf fid (fine_faces dc df fid fi1 fi2 p) /\ at_ (areas fid gc) p <> 0) ->
  patch_flow dc gc (SetFlux dc fc fid fi1 fi2 (LoadFlux df gf ff (opposite fid))) (Part fid fi1 fi2) = - patch_flow df gf ff (Whole (opposite fid)).
Proof.
  intros dc df gc gf fc ff fid fi1 fi2 N S D1 D2 D3 Hs Hp HA. destruct (corrected_all dc df gc gf fc ff fid fi1 fi2 N S D1 D2 D3 Hs Hp) as [_ [_ H3]].
  pose proof (sides_lt _ _ Hs) as L. unfold patch_flow. rewrite !flow_at, opp_sign, opp_areas, opp_comp by assumption. rewrite H3; [ring|]. intros p Hin. rewrite <- area_at. apply HA; assumption.
Qed.
Print Assumptions C42_flow.
(** The parts of a side make up the side, and no face belongs to two parts of the block, so corrections from different finer neighbours never overwrite each other. *)
Theorem C42_parts : forall d g f fid, nonempty d -> In fid (sides d) -> Z.even (nx1 d) = true -> dir_ok (nx2 d) -> dir_ok (nx3 d) -> sum (map (patch_flow d g f) (parts d fid)) = patch_flow d g f (Whole fid).
Proof. exact parts_whole. Qed.
Print Assumptions C42_parts.
(** All corrections of a block, in whatever order they arrive: afterwards every part matches its finer neighbour. *)
Theorem C42_all_neighbours : forall dc gc fc (cs : list correction), nonempty dc -> Z.even (nx1 dc) = true -> dir_ok (nx2 dc) -> dir_ok (nx3 dc) -> NoDup (map key cs) ->
  (forall c, In c cs -> same_size dc (c_d c) /\ In (c_fid c) (sides dc) /\ In (Part (c_fid c) (c_fi1 c) (c_fi2 c)) (parts dc (c_fid c)) /\
     forall p, In p (slots dc (c_fid c) (c_fi1 c) (c_fi2 c)) -> at_ (areas (c_fid c) gc) p = area_of (c_g c) (c_fid c) (fine_faces dc (c_d c) (c_fid c) (c_fi1 c) (c_fi2 c) p) /\ at_ (areas (c_fid c) gc) p <> 0) ->
  forall c, In c cs -> patch_flow dc gc (fold_left (correct dc) cs fc) (Part (c_fid c) (c_fi1 c) (c_fi2 c)) = - patch_flow (c_d c) (c_g c) (c_f c) (Whole (opposite (c_fid c))).
Proof. exact all_corrections. Qed.
Print Assumptions C42_all_neighbours.

(** A block of 2x2x2 cells with unit faces next to one with faces of area 1/4. *)
Definition quarter_geom : geom := mkG (fun _ _ _ => 1 / 4) (fun _ _ _ => 1 / 4) (fun _ _ _ => 1 / 4) (fun _ _ _ => 1 / 2) (fun _ _ _ => 1 / 2) (fun _ _ _ => 1 / 2) (fun _ _ _ => 1 / 8).
Example C42_witness : nonempty cube /\ same_size cube cube /\ In 1%nat (sides cube) /\ In (Part 1 1 0) (parts cube 1) /\
  (forall p, In p (slots cube 1 1 0) -> at_ (areas 1 unit_geom) p = area_of quarter_geom 1 (fine_faces cube cube 1 1 0 p) /\ at_ (areas 1 unit_geom) p <> 0) /\
  patch_flow cube unit_geom (SetFlux cube zero_field 1 1 0 (LoadFlux cube quarter_geom (mkV (fun k j i => IZR (k + j)) (fun _ _ _ => 0) (fun _ _ _ => 0)) 0)) (Part 1 1 0) = 1.
Proof.
  assert (N : nonempty cube) by (unfold nonempty, cube, nx2, nx3; cbn; lia).
  assert (HA : forall p, In p (slots cube 1 1 0) -> at_ (areas 1 unit_geom) p = area_of quarter_geom 1 (fine_faces cube cube 1 1 0 p) /\ at_ (areas 1 unit_geom) p <> 0).
  { intros p Hp. cbn in Hp. destruct Hp as [<-|[]]. split; [|cbn; lra]. unfold area_of, unit_geom, quarter_geom. cbn. lra. }
  repeat match goal with |- _ /\ _ => split end; try exact N; try exact HA; try (unfold same_size; auto); try (cbn; tauto).
  rewrite (C42_flow cube cube unit_geom quarter_geom zero_field _ 1 1 0 N); try (repeat split; reflexivity); try (left; reflexivity); try (cbn; tauto); try exact HA.
  unfold patch_flow, flow, out_sign, quarter_geom. cbn. change (Pos.to_nat 2) with 2%nat. cbn. lra.
Qed.
(** A periodic block: what leaves on the right enters on the left. *)
Definition line : dims := mkD 0 3 0 0 0 0 false false.
Definition ring_block : block := mkB line unit_geom (mkV (fun _ _ i => IZR (i * (4 - i))) (fun _ _ _ => 0) (fun _ _ _ => 0)) (fun _ _ i => IZR i) (fun _ => false).
Example C41_witness : Forall good_block [ring_block] /\ closed (flows [ring_block]) /\ mesh_total (map (advanced (1 / 2)) [ring_block]) = mesh_total [ring_block].
Proof.
  assert (G : Forall good_block [ring_block]).
  { constructor; [|constructor]. split; [unfold nonempty, ring_block, line, nx2, nx3; cbn; lia|]. split; [intros; cbn; lra|]. cbn; intros; discriminate. }
  assert (C : closed (flows [ring_block])).
  { assert (E : flows [ring_block] = [-1 * (1 * IZR (0 * (4 - 0)) + 0); 1 * (1 * IZR (4 * (4 - 4)) + 0)]) by reflexivity.
    rewrite E. exists [0]. change (0 * (4 - 0))%Z with 0%Z. change (4 * (4 - 4))%Z with 0%Z. replace (-1 * (1 * 0 + 0)) with 0 by ring. replace (1 * (1 * 0 + 0)) with (- 0) by ring. apply Permutation_refl. }
  split; [exact G|]. split; [exact C|]. rewrite (C41_closed_mesh _ _ [] G); [cbn [sum fold_right]; ring|]. exists (flows [ring_block]). rewrite app_nil_r. auto.
Qed.
