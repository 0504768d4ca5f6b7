(** C93: magnetic fields at shearing-box boundaries. *)
From Coq Require Import Reals ZArith Lra Lia List Bool.
From Verif Require Import Time_Model Fv_Model Fv_Spec Fv_Proofs2 Rec_Model Rec_Spec Orb_Model Orb_Spec Orb_Proofs Orb_Proofs2 Orb_Proofs3 Shb_Model Shb_Spec Shb_Proofs Shb_Proofs2 Shb_Props Shf_Model Shf_Spec Shf_Proofs.
Import ListNotations.
Local Open Scope R_scope.

Lemma along_faces m u s : accepted m -> shared m u -> (0 <= s < nblx2 m)%Z -> holds_faces (nx2 m) (js m) (u s) s (along m u).
Proof.
  intros Ac Sh H a Ha. pose proof Ac as (A & B & C & D). pose proof (xg_pos (ppm m)) as X. destruct (Z.eq_dec a (nx2 m)) as [-> | N].
  - rewrite Sh by exact H. unfold along. replace (s * nx2 m + nx2 m)%Z with ((s + 1) * nx2 m)%Z by lia. rewrite Z.div_mul by lia. rewrite Z.mod_mul by lia. f_equal. lia.
  - apply along_holds; [exact Ac | exact H | lia].
Qed.

(** Every x2-face in the ghost zones receives the mean of the field reconstructed along the boundary, displaced by the shear.  The exchange never fails. *)
Theorem C93_faces : forall m upper yshear src old b j, accepted m -> shared m src -> 0 <= yshear -> (0 <= b < nblx2 m)%Z -> (js m - NGHOST m <= j <= je m + NGHOST m + 1)%Z ->
  ShearedFace m upper yshear src old b j = Some (displaced (reconstructed (ppm m) (along m src)) ((if upper then -1 else 1) * (yshear / dx m)) (cell m b j)).
Proof.
  intros m upper yshear src old b j Ac Sh Hy Hb Hj. pose proof Ac as (A & B & C & D).
  destruct (face_remap m false upper yshear src old b (along m src) A B Hb D Hy (along_periodic m src Ac) (fun s => along_faces m src s Ac Sh)) as (arr & E & V).
  unfold ShearedFace. rewrite E. f_equal. apply V. exact Hj.
Qed.
Print Assumptions C93_faces.
Theorem C93_emf : forall m upper yshear own other old b j, accepted m -> shared m other -> 0 <= yshear -> (0 <= b < nblx2 m)%Z -> (js m <= j <= je m + 1)%Z ->
  ShearedEmf m upper yshear own other old b j = Some ((own b j + displaced (reconstructed (ppm m) (along m other)) ((if upper then -1 else 1) * (yshear / dx m)) (cell m b j)) / 2).
Proof.
  intros m upper yshear own other old b j Ac Sh Hy Hb Hj. pose proof Ac as (A & B & C & D).
  destruct (face_remap m true upper yshear other old b (along m other) A B Hb D Hy (along_periodic m other Ac) (fun s => along_faces m other s Ac Sh)) as (arr & E & V).
  unfold ShearedEmf. rewrite E. f_equal. rewrite V by lia. unfold cell. field.
Qed.
Print Assumptions C93_emf.

(** Displacing commutes with the numbering of the ring. *)
Lemma displaced_ring m u s x k : accepted m -> displaced (reconstructed (ppm m) (along m u)) s (x + k * (nblx2 m * nx2 m))%Z = displaced (reconstructed (ppm m) (along m u)) s x.
Proof.
  intros Ac. pose proof (along_periodic m u Ac) as P. pose proof (base_Int_part (IZR x - s)) as (I1 & I2). set (y := Int_part (IZR x - s)) in *.
  rewrite (displaced_at _ s x y (IZR x - s - IZR y)) by lra.
  rewrite (displaced_at _ s _ (y + k * (nblx2 m * nx2 m))%Z (IZR x - s - IZR y)) by (rewrite ?plus_IZR; lra).
  replace (y + k * (nblx2 m * nx2 m) + 1)%Z with (y + 1 + k * (nblx2 m * nx2 m))%Z by lia. rewrite !(profile_mul _ _ _ P). reflexivity.
Qed.
Lemma cell_next m u s b : accepted m -> (0 <= b < nblx2 m)%Z ->
  displaced (reconstructed (ppm m) (along m u)) s (cell m ((b + 1) mod nblx2 m) (js m)) = displaced (reconstructed (ppm m) (along m u)) s (cell m b (js m + nx2 m)).
Proof.
  intros Ac H. pose proof (Z.div_mod (b + 1) (nblx2 m) ltac:(lia)) as E. rewrite <- (displaced_ring m u s _ ((b + 1) / nblx2 m) Ac). f_equal. unfold cell. nia.
Qed.

(** Blocks that share a face still agree about it afterwards: for the field in the ghost zones and for the averaged EMFs. *)
Theorem C93_shared : forall m upper yshear src own other old b, accepted m -> 0 <= yshear -> (0 <= b < nblx2 m)%Z ->
  (shared m src -> exists v, ShearedFace m upper yshear src old b (js m + nx2 m) = Some v /\ ShearedFace m upper yshear src old ((b + 1) mod nblx2 m) (js m) = Some v) /\
  (shared m own -> shared m other ->
   exists v, ShearedEmf m upper yshear own other old b (js m + nx2 m) = Some v /\ ShearedEmf m upper yshear own other old ((b + 1) mod nblx2 m) (js m) = Some v).
Proof.
  intros m upper yshear src own other old b Ac Hy Hb. pose proof Ac as (A & B & C & D). pose proof (xg_pos (ppm m)) as X. pose proof (Z.mod_pos_bound (b + 1) (nblx2 m) C) as Hb'.
  split.
  - intros Sh. rewrite !C93_faces by (try assumption; unfold je; lia). rewrite cell_next by assumption. eexists. split; reflexivity.
  - intros So Sh. rewrite !C93_emf by (try assumption; unfold je; lia). rewrite cell_next by assumption. rewrite (So b Hb). eexists. split; reflexivity.
Qed.
Print Assumptions C93_shared.

(** The two boundaries have the same total EMF, so that the shear adds no net azimuthal field. *)
Theorem C93_conserved : forall m yshear inner outer old old', accepted m -> shared m inner -> shared m outer -> 0 <= yshear ->
  exists inner' outer',
    (forall b j, (0 <= b < nblx2 m)%Z -> (js m <= j <= je m + 1)%Z ->
       ShearedEmf m false yshear inner outer old b j = Some (inner' b j) /\ ShearedEmf m true yshear outer inner old' b j = Some (outer' b j)) /\
    shared m inner' /\ shared m outer' /\
    boundary_total m inner' = (boundary_total m inner + boundary_total m outer) / 2 /\ boundary_total m outer' = boundary_total m inner'.
Proof.
  intros m yshear inner outer old old' Ac Si So Hy. pose proof Ac as (A & B & C & D). pose proof (xg_pos (ppm m)) as X.
  exists (fun b j => (inner b j + displaced (reconstructed (ppm m) (along m outer)) (1 * (yshear / dx m)) (cell m b j)) / 2),
         (fun b j => (outer b j + displaced (reconstructed (ppm m) (along m inner)) (-1 * (yshear / dx m)) (cell m b j)) / 2).
  split; [intros b j Hb Hj; split; [apply (C93_emf m false) | apply (C93_emf m true)]; assumption | ].
  split; [intros b Hb; rewrite cell_next, (Si b Hb) by assumption; reflexivity | ]. split; [intros b Hb; rewrite cell_next, (So b Hb) by assumption; reflexivity | ].
  assert (T : forall u, boundary_total m u = ring_total (nblx2 m * nx2 m) (along m u)).
  { intros u. change (boundary_total m u) with (blocks_total (nblx2 m) (nx2 m) (js m) (fun s _ => u s) 0). apply blocks_ring; [lia | lia | ]. intros s Hs. apply along_holds; assumption. }
  assert (M : forall u v s, boundary_total m (fun b j => (u b j + displaced (reconstructed (ppm m) (along m v)) s (cell m b j)) / 2) = (boundary_total m u + boundary_total m v) / 2).
  { intros u v s. rewrite (T u), (T v). set (F := fun x => (along m u x + displaced (reconstructed (ppm m) (along m v)) s x) / 2).
    transitivity (ring_total (nblx2 m * nx2 m) F).
    - change (boundary_total m (fun b j => (u b j + displaced (reconstructed (ppm m) (along m v)) s (cell m b j)) / 2)) with
        (blocks_total (nblx2 m) (nx2 m) (js m) (fun b _ j => (u b j + displaced (reconstructed (ppm m) (along m v)) s (cell m b j)) / 2) 0).
      apply blocks_ring; [lia | lia | ]. intros q Hq a Ha. unfold F. rewrite (along_holds m u q Ac Hq a Ha). unfold cell. replace (q * nx2 m + (js m + a - js m))%Z with (q * nx2 m + a)%Z by lia. reflexivity.
    - rewrite <- (displaced_total (nblx2 m * nx2 m) (along m v) (reconstructed (ppm m) (along m v)) s); [ | nia | apply along_periodic; exact Ac | intros; apply profile_one | intros; apply profile_periodic; apply along_periodic; exact Ac].
      unfold ring_total, F. generalize (upto 0 (nblx2 m * nx2 m - 1)). intros l. induction l as [ | z l IH]; cbn [map]; rewrite ?sum_nil, ?sum_cons; [field | rewrite IH; field]. }
  rewrite !M. split; [reflexivity | lra].
Qed.
Print Assumptions C93_conserved.

(** The field in the ghost zones is free of divergence: in every ghost cell, for all fields sent by the other side. *)
Theorem C93_divergence : forall m upper yshear src2 src3 src3k old b j b1 dx1 dx2 dx3, accepted m -> 0 <= yshear -> (0 <= b < nblx2 m)%Z -> (js m - NGHOST m <= j <= je m + NGHOST m)%Z ->
  (forall i, shared m (src2 i)) -> (forall i, dx1 i <> 0) -> dx2 <> 0 -> dx3 <> 0 -> forall n,
  exists near far left2 right2 left3 right3,
    GhostB1 m upper yshear src2 src3 src3k old b j b1 dx1 dx2 dx3 n = Some near /\ GhostB1 m upper yshear src2 src3 src3k old b j b1 dx1 dx2 dx3 (S n) = Some far /\
    ShearedFace m upper yshear (src2 n) old b j = Some left2 /\ ShearedFace m upper yshear (src2 n) old b (j + 1) = Some right2 /\
    ShearedGhost m upper yshear (src3 n) old b j = Some left3 /\ ShearedGhost m upper yshear (src3k n) old b j = Some right3 /\
    divergence (dx1 n) dx2 dx3 (if upper then near else far) (if upper then far else near) left2 right2 left3 right3 = 0.
Proof.
  intros m upper yshear src2 src3 src3k old b j b1 dx1 dx2 dx3 Ac Hy Hb Hj Sh H1 H2 H3 n.
  assert (Nr : forall n, exists v, GhostB1 m upper yshear src2 src3 src3k old b j b1 dx1 dx2 dx3 n = Some v).
  { induction n0 as [ | i (v & IH)]; cbn [GhostB1]; [eexists; reflexivity | ]. rewrite IH. rewrite !C93_faces by (try assumption; try apply Sh; lia). rewrite !C92_ghosts by assumption. eexists. reflexivity. }
  destruct (Nr n) as (v & E). cbn [GhostB1]. rewrite E. rewrite !C93_faces by (try assumption; try apply Sh; lia). rewrite !C92_ghosts by assumption.
  do 6 eexists. repeat (split; [reflexivity | ]). specialize (H1 n). unfold divergence.
  match goal with |- context [displaced ?P ?s ?x] => generalize (displaced P s x); intros ? end.
  repeat match goal with |- context [displaced ?P ?s ?x] => generalize (displaced P s x); intros ? end.
  destruct upper; field; repeat split; assumption.
Qed.
Print Assumptions C93_divergence.

(** A box of two blocks with a field that the blocks share. *)
Example C93_example : shared two (fun s j => if Z.eqb ((s * 4 + (j - 2)) mod 8) 4 then 1 else 0) /\
  exists v, ShearedFace two true (13 / 2) (fun s j => if Z.eqb ((s * 4 + (j - 2)) mod 8) 4 then 1 else 0) (fun _ => 0) 1 6 = Some v.
Proof.
  assert (Sh : shared two (fun s j => if Z.eqb ((s * 4 + (j - 2)) mod 8) 4 then 1 else 0)).
  { intros s Hs. cbn [two nblx2] in Hs. assert (C : s = 0%Z \/ s = 1%Z) by lia. destruct C as [-> | ->]; reflexivity. }
  split; [exact Sh | ]. eexists. apply C93_faces; [exact two_accepted | exact Sh | lra | cbn; lia | cbn; lia].
Qed.
