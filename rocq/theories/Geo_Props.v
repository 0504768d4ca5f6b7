(** C49: adjacent, refined and coarsened blocks agree bit for bit on where their faces are. *)
From Coq Require Import Reals ZArith List Bool Lra Lia.
From Verif Require Import Time_Model Time_Proofs Geo_Model Geo_Spec Geo_Proofs.
Import ListNotations.
Local Open Scope R_scope.

(** Whatever the rounding, the generator, the levels and the blocks: two faces (of the blocks themselves, of their coarse buffers, or ghost faces inside the domain) that stand at the same fraction of the
    domain have the same machine number as position. *)
Theorem C49_shared_faces : forall rnd B a bnx root x2dir,
  exact_integers rnd B -> divided a bnx ->
  forall l lx coarse il ng i l' lx' coarse' il' ng' i',
  is_block a root l lx -> is_block a root l' lx' -> (2 * cells_across a root l <= B)%Z -> (2 * cells_across a root l' <= B)%Z ->
  (coarse = true -> Z.Even bnx) -> (coarse' = true -> Z.Even bnx) ->
  interior_face a root l lx bnx coarse il i -> interior_face a root l' lx' bnx coarse' il' i' ->
  (global coarse lx bnx il i * cells_across a root l' = global coarse' lx' bnx il' i' * cells_across a root l)%Z ->
  face rnd a x2dir root l lx bnx coarse il (last coarse bnx il) ng i = face rnd a x2dir root l' lx' bnx coarse' il' (last coarse' bnx il') ng' i'.
Proof.
  intros rnd B a bnx root x2dir E D l lx coarse il ng i l' lx' coarse' il' ng' i' I I' H1 H1' H2 H2' F F' Q.
  rewrite (face_pos rnd B) by assumption. rewrite (face_pos rnd B) by assumption.
  destruct D as (D1 & D2 & D3), I as (I & _), I' as (I' & _). pose proof (pow2_pos root l I); pose proof (pow2_pos root l' I').
  apply pos_ratio; [unfold cells_across; rewrite D3; nia|unfold cells_across; rewrite D3; nia|exact Q].
Qed.
Print Assumptions C49_shared_faces.

(** The outer limit of a block is the inner limit of the next one at its level. *)
Theorem C49_adjacent_blocks : forall rnd a root l lx, (root <= l)%Z -> (0 <= lx)%Z -> (lx + 1 < blocks_across a root l)%Z ->
  xmax (SetBlockSizeAndBoundaries rnd a false root l lx) = xmin (SetBlockSizeAndBoundaries rnd a false root l (lx + 1)).
Proof.
  intros rnd a root l lx Hl H1 H2. unfold SetBlockSizeAndBoundaries; cbv zeta. unfold blocks_across in H2.
  rewrite Z.shiftl_mul_pow2 by lia. set (m := (anrb a * 2 ^ (l - root))%Z) in *.
  destruct (Z.eqb_spec (lx + 1) 0); [lia|]. destruct (Z.eqb_spec lx (m - 1)); [lia|].
  destruct (Z.eqb lx 0), (Z.eqb (lx + 1) (m - 1)); reflexivity.
Qed.
Print Assumptions C49_adjacent_blocks.

(** The first and last descendants of a block, k levels down, have its limits. *)
Theorem C49_child_limits : forall rnd B a bnx root l lx k,
  exact_integers rnd B -> divided a bnx -> is_block a root l lx -> (0 <= k)%Z -> (2 * cells_across a root (l + k) <= B)%Z ->
  xmin (SetBlockSizeAndBoundaries rnd a false root (l + k) (lx * 2 ^ k)) = xmin (SetBlockSizeAndBoundaries rnd a false root l lx) /\
  xmax (SetBlockSizeAndBoundaries rnd a false root (l + k) ((lx + 1) * 2 ^ k - 1)) = xmax (SetBlockSizeAndBoundaries rnd a false root l lx).
Proof.
  intros rnd B a bnx root l lx k E D I Hk HB. pose proof D as (D1 & D2 & D3). pose proof I as (I1 & I2).
  assert (Pk : (0 < 2 ^ k)%Z) by (apply Z.pow_pos_nonneg; lia). pose proof (pow2_pos root l I1) as Pl.
  assert (Pq : (2 ^ (l + k - root) = 2 ^ (l - root) * 2 ^ k)%Z) by (rewrite <- Z.pow_add_r by lia; f_equal; lia).
  unfold blocks_across in I2. set (p := (2 ^ (l - root))%Z) in *. set (q := (2 ^ k)%Z) in *.
  assert (C : (cells_across a root (l + k) = cells_across a root l * q)%Z) by (unfold cells_across; rewrite Pq; fold p; ring).
  assert (C0 : (0 < cells_across a root l)%Z) by (unfold cells_across; fold p; rewrite D3; nia).
  assert (B1 : is_block a root (l + k) (lx * q)) by (split; [lia|]; unfold blocks_across; rewrite Pq; nia).
  assert (B2 : is_block a root (l + k) ((lx + 1) * q - 1)) by (split; [lia|]; unfold blocks_across; rewrite Pq; nia).
  destruct (block_limits rnd B a bnx root l lx E D I ltac:(nia)) as (L1 & L2 & _).
  destruct (block_limits rnd B a bnx root (l + k) _ E D B1 HB) as (M1 & _). destruct (block_limits rnd B a bnx root (l + k) _ E D B2 HB) as (_ & M2 & _).
  rewrite L1, L2, M1, M2. split; apply pos_ratio; try nia; rewrite C; ring.
Qed.
Print Assumptions C49_child_limits.

(** The ends of the domain are the limits given in the input, exactly, and only there does a block carry a boundary condition of the mesh. *)
Theorem C49_domain_ends : forall rnd a root l lx, is_block a root l lx ->
  let e := SetBlockSizeAndBoundaries rnd a false root l lx in
  (lx = 0%Z -> xmin e = amin a /\ f_in e = bc_in a) /\
  (lx = blocks_across a root l - 1 -> xmax e = amax a /\ f_out e = bc_out a)%Z /\
  (lx <> 0%Z -> f_in e = block) /\ (lx <> blocks_across a root l - 1 -> f_out e = block)%Z.
Proof.
  intros rnd a root l lx (I1 & I2) e; unfold e, SetBlockSizeAndBoundaries, blocks_across in *; cbv zeta. rewrite Z.shiftl_mul_pow2 by lia.
  destruct (Z.eqb_spec lx 0); destruct (Z.eqb_spec lx (anrb a * 2 ^ (l - root) - 1)); cbn [xmin xmax f_in f_out]; repeat split; try contradiction; intros; reflexivity || contradiction.
Qed.
Print Assumptions C49_domain_ends.

(** The ghost faces of a block are the faces of its neighbours at the same level (as many as a block has cells, less one). *)
Theorem C49_ghost_faces : forall rnd B a bnx root x2dir l lx il ng k,
  exact_integers rnd B -> divided a bnx -> is_block a root l lx -> (2 * cells_across a root l <= B)%Z -> (0 <= k < bnx)%Z ->
  let f lx i := face rnd a x2dir root l lx bnx false il (il + bnx - 1) ng i in
  (is_block a root l (lx + 1) -> f lx (il + bnx + k)%Z = f (lx + 1)%Z (il + k)%Z /\ f (lx + 1)%Z (il - k)%Z = f lx (il + bnx - k)%Z).
Proof.
  intros rnd B a bnx root x2dir l lx il ng k E D I HB Hk f I'. unfold f.
  change (il + bnx - 1)%Z with (last false bnx il).
  pose proof D as (D1 & D2 & D3). pose proof I as (I1 & I2). pose proof I' as (_ & I2'). pose proof (pow2_pos root l I1). unfold blocks_across in *.
  assert (C : (cells_across a root l = anrb a * 2 ^ (l - root) * bnx)%Z) by (unfold cells_across; rewrite D3; ring).
  set (m := (anrb a * 2 ^ (l - root))%Z) in *.
  split; (apply (C49_shared_faces rnd B); try assumption; try (intro X0; discriminate X0); [| |unfold global; f_equal; ring]).
  - destruct (Z.eq_dec k 0) as [->|]; [left; unfold last; lia|right; unfold global; rewrite C; nia].
  - left; unfold last; lia.
  - destruct (Z.eq_dec k 0) as [->|]; [left; unfold last; lia|right; unfold global; rewrite C; nia].
  - left; unfold last; lia.
Qed.
Print Assumptions C49_ghost_faces.

(** The faces of the coarse buffer of a block are every second face of the block, and they are faces of the block's parent. *)
Theorem C49_coarse_faces : forall rnd B a bnx root x2dir l lx il cil pil ng k,
  exact_integers rnd B -> divided a bnx -> Z.Even bnx -> is_block a root l lx -> (2 * cells_across a root l <= B)%Z -> (0 <= k <= bnx / 2)%Z ->
  face rnd a x2dir root l lx bnx true cil (cil + bnx / 2 - 1) ng (cil + k) = face rnd a x2dir root l lx bnx false il (il + bnx - 1) ng (il + 2 * k) /\
  (root < l ->
   face rnd a x2dir root l lx bnx true cil (cil + bnx / 2 - 1) ng (cil + k) = face rnd a x2dir root (l - 1) (lx / 2) bnx false pil (pil + bnx - 1) ng (pil + (lx mod 2) * (bnx / 2) + k))%Z.
Proof.
  intros rnd B a bnx root x2dir l lx il cil pil ng k E D Ev I HB Hk.
  change (cil + bnx / 2 - 1)%Z with (last true bnx cil). change (il + bnx - 1)%Z with (last false bnx il). change (pil + bnx - 1)%Z with (last false bnx pil).
  pose proof D as (D1 & D2 & D3). pose proof I as (I1 & I2). destruct Ev as [h Eh].
  assert (Hh : (bnx / 2 = h)%Z) by (rewrite Eh, (Z.mul_comm 2), Z.div_mul by lia; reflexivity).
  split; [|intro Hl].
  - apply (C49_shared_faces rnd B); try assumption; try (intro; exists h; assumption).
    + left; unfold last; lia.
    + left; unfold last; lia.
    + unfold global; f_equal; ring.
  - pose proof (Z.div_mod lx 2 ltac:(lia)) as DM. pose proof (Z.mod_pos_bound lx 2 ltac:(lia)) as MB.
    assert (Pq : (2 ^ (l - root) = 2 ^ (l - 1 - root) * 2)%Z) by (rewrite (Z.mul_comm _ 2), <- Z.pow_succ_r by lia; f_equal; lia).
    pose proof (pow2_pos root (l - 1) ltac:(lia)).
    apply (C49_shared_faces rnd B); try assumption; try (intro; exists h; assumption).
    + split; [lia|]. unfold blocks_across in *. rewrite Pq in I2. nia.
    + unfold cells_across in *. rewrite Pq in HB. nia.
    + left; unfold last; lia.
    + left; unfold last. rewrite Hh in *. nia.
    + unfold global, cells_across. rewrite Pq. rewrite Hh in *. set (p := (2 ^ (l - 1 - root))%Z) in *. rewrite Eh.
      set (q := (lx / 2)%Z) in *. set (r := (lx mod 2)%Z) in *. rewrite DM. ring.
Qed.
Print Assumptions C49_coarse_faces.

(** In exact arithmetic the faces of a block are strictly increasing. *)
Theorem C49_increasing : forall a bnx root x2dir l lx coarse il ng i j,
  onto a -> increasing a -> divided a bnx -> is_block a root l lx -> (coarse = true -> Z.Even bnx) ->
  (il <= i)%Z -> (i < j)%Z -> (j <= last coarse bnx il + 1)%Z ->
  face exact a x2dir root l lx bnx coarse il (last coarse bnx il) ng i < face exact a x2dir root l lx bnx coarse il (last coarse bnx il) ng j.
Proof.
  intros a bnx root x2dir l lx coarse il ng i j On Inc D I Ev H1 H2 H3.
  assert (HB : (2 * cells_across a root l <= 2 * cells_across a root l)%Z) by lia.
  rewrite (face_pos exact _ a bnx x2dir root l lx coarse il ng i (exact_all _) D I HB Ev) by (left; lia).
  rewrite (face_pos exact _ a bnx x2dir root l lx coarse il ng j (exact_all _) D I HB Ev) by (left; lia).
  pose proof (span_global bnx coarse lx il Ev) as SG.
  destruct D as (D1 & D2 & D3), I as (I1 & I2). unfold blocks_across in I2. pose proof (pow2_pos root l I1).
  assert (C : (cells_across a root l = anrb a * 2 ^ (l - root) * bnx)%Z) by (unfold cells_across; rewrite D3; ring).
  apply pos_lt; try assumption.
  - rewrite C; nia.
  - unfold global; destruct coarse; nia.
  - unfold global; destruct coarse; nia.
  - rewrite C. unfold global in *; destruct coarse; nia.
Qed.
Print Assumptions C49_increasing.

(** The widths the code stores are the differences of the faces it stores, ghost cells included. *)
Theorem C49_widths : forall a bnx root x2dir l lx coarse il ng i,
  onto a -> consistent a -> divided a bnx -> is_block a root l lx -> (coarse = true -> Z.Even bnx) ->
  width exact a x2dir root l lx bnx coarse il (last coarse bnx il) ng i =
  face exact a x2dir root l lx bnx coarse il (last coarse bnx il) ng (i + 1) - face exact a x2dir root l lx bnx coarse il (last coarse bnx il) ng i.
Proof. intros; apply W_F; assumption. Qed.
Print Assumptions C49_widths.

(** At a reflecting boundary (in x2 also at a pole) the ghost faces are the mirror images of the faces inside. *)
Theorem C49_mirrored_ghosts : forall a bnx root x2dir l lx coarse il ng k,
  onto a -> consistent a -> divided a bnx -> is_block a root l lx -> (coarse = true -> Z.Even bnx) ->
  let iu := last coarse bnx il in let f := face exact a x2dir root l lx bnx coarse il iu ng in
  (0 <= k <= iu - il + 1)%Z ->
  (lx = 0%Z -> (bc_in a = reflect \/ bc_in a = polar /\ x2dir = true) -> (f (il - k)%Z + f (il + k)%Z) / 2 = amin a) /\
  (lx = (blocks_across a root l - 1)%Z -> (bc_out a = reflect \/ bc_out a = polar /\ x2dir = true) -> (f (iu + 1 + k)%Z + f (iu + 1 - k)%Z) / 2 = amax a).
Proof.
  intros a bnx root x2dir l lx coarse il ng k On Co D I Ev iu f Hk.
  destruct (C49_domain_ends exact a root l lx I) as (E1 & E2 & _).
  split; intros X Y.
  - destruct (E1 X) as (Z1 & Z2). assert (M : mirrored x2dir (f_in (SetBlockSizeAndBoundaries exact a false root l lx)) = true) by (rewrite Z2; destruct Y as [->|[-> ->]]; reflexivity).
    unfold f, iu. rewrite F_in by (assumption || lia). rewrite F_act by (assumption || (fold iu; lia)).
    replace (face0 exact a root l lx bnx coarse il (last coarse bnx il) il) with (amin a); [lra|].
    rewrite <- Z1. unfold face0; cbv zeta. fold iu. destruct (Z.eqb_spec il (iu + 1)) as [Q|Q]; [|rewrite Z.eqb_refl; reflexivity].
    exfalso. unfold iu, last in Q. destruct D as (_ & D2 & _). destruct coarse; [|lia]. destruct (Ev eq_refl) as [h Eh]. rewrite Eh, (Z.mul_comm 2), Z.div_mul in Q by lia. lia.
  - destruct (E2 X) as (Z1 & Z2). assert (M : mirrored x2dir (f_out (SetBlockSizeAndBoundaries exact a false root l lx)) = true) by (rewrite Z2; destruct Y as [->|[-> ->]]; reflexivity).
    unfold f, iu. rewrite F_out by (assumption || lia). rewrite F_act by (assumption || (fold iu; lia)).
    replace (face0 exact a root l lx bnx coarse il (last coarse bnx il) (last coarse bnx il + 1)) with (amax a); [lra|].
    rewrite <- Z1. unfold face0; cbv zeta. rewrite Z.eqb_refl; reflexivity.
Qed.
Print Assumptions C49_mirrored_ghosts.

(** The generators of the code meet the hypotheses above: uniform, and geometric with any positive ratio. *)
Theorem C49_generators : forall nx nrb bi bo xmin xmax rat, xmin < xmax -> 0 < rat -> (1 <= nx)%Z ->
  let u := mkA xmin xmax nx nrb true (UniformMeshGenerator xmin xmax) bi bo in
  let g := mkA xmin xmax nx nrb false (DefaultMeshGenerator xmin xmax rat nx) bi bo in
  (onto u /\ increasing u /\ consistent u) /\ (onto g /\ increasing g /\ consistent g).
Proof.
  intros nx nrb bi bo xmin xmax rat H1 H2 H3 u g; repeat split; unfold lo, hi; cbn [uniform gen amin amax u g].
  - apply uniform_onto.
  - apply uniform_onto.
  - intros x y _ H _; apply uniform_incr; assumption.
  - apply default_onto; assumption.
  - apply default_onto; assumption.
  - intros x y _ H _; apply default_incr; assumption.
  - intro X0; discriminate X0.
Qed.
Print Assumptions C49_generators.

(** On the root level of a geometric mesh each cell is [rat] times as wide as the one before; on a finer level, the root of that. *)
Theorem C49_ratio : forall xmin xmax rat nx n i, 0 < rat -> (1 <= nx)%Z -> (1 <= n)%Z ->
  let x i := DefaultMeshGenerator xmin xmax rat nx (ComputeMeshGeneratorX exact i n false) in
  x (i + 2)%Z - x (i + 1)%Z = Rpower rat (IZR nx / IZR n) * (x (i + 1)%Z - x i).
Proof.
  intros xmin xmax rat nx n i Hr H1 H2 x. unfold x, ComputeMeshGeneratorX, exact; cbn [negb].
  assert (N : IZR n <> 0) by (intro X0; apply eq_IZR in X0; lia).
  set (r := Rpower rat (IZR nx / IZR n)).
  set (X := fun t => DefaultMeshGenerator xmin xmax rat nx t).
  change (X (IZR (i + 2) / IZR n) - X (IZR (i + 1) / IZR n) = r * (X (IZR (i + 1) / IZR n) - X (IZR i / IZR n))).
  assert (P2 : Rpower rat (IZR (i + 2) / IZR n * IZR nx) = Rpower rat (IZR i / IZR n * IZR nx) * (r * r)).
  { unfold r; rewrite <- !Rpower_plus; f_equal; rewrite plus_IZR; field; assumption. }
  assert (P1 : Rpower rat (IZR (i + 1) / IZR n * IZR nx) = Rpower rat (IZR i / IZR n * IZR nx) * r).
  { unfold r; rewrite <- !Rpower_plus; f_equal; rewrite plus_IZR; field; assumption. }
  unfold X.
  destruct (default_form xmin xmax rat nx (IZR i / IZR n) Hr H1) as [(E & Q0)|(E & D & Q0)];
  destruct (default_form xmin xmax rat nx (IZR (i + 1) / IZR n) Hr H1) as [(E1 & Q1)|(E1 & D1 & Q1)]; try contradiction;
  destruct (default_form xmin xmax rat nx (IZR (i + 2) / IZR n) Hr H1) as [(E2 & Q2)|(E2 & D2 & Q2)]; try contradiction; rewrite Q0, Q1, Q2.
  - assert (r = 1) as -> by (unfold r; rewrite E; unfold Rpower; rewrite ln_1, Rmult_0_r, exp_0; reflexivity). rewrite !plus_IZR; field; assumption.
  - rewrite P1, P2. set (p := Rpower rat (IZR i / IZR n * IZR nx)); clearbody p. set (q := Rpower rat (IZR nx)) in *; clearbody q r. field; assumption.
Qed.
Print Assumptions C49_ratio.

(** ** The hypotheses are met: rounding to multiples of 2^-10 (not the identity), 48 cells in blocks of 8, three levels. *)
Definition fixed (x : R) : R := IZR (Int_part (x * 1024)) / 1024.
Lemma Int_part_spec : forall r z, r - 1 < IZR z <= r -> z = Int_part r.
Proof. intros r z H. unfold Int_part. rewrite <- (tech_up r (z + 1)) by (rewrite plus_IZR; lra). lia. Qed.
Lemma fixed_exact : forall B, exact_integers fixed B.
Proof.
  intros B z _. unfold fixed. rewrite <- mult_IZR. rewrite <- (Int_part_spec (IZR (z * 1024)) (z * 1024)%Z) by lra. rewrite mult_IZR; field.
Qed.
Example fixed_not_exact : fixed (/ 3) <> / 3.
Proof. intro X0. unfold fixed in X0. rewrite <- (Int_part_spec (/ 3 * 1024) 341%Z) in X0 by lra. lra. Qed.
Definition ex_axis := mkA (-1) 1 48 6 true (fun x => fixed (UniformMeshGenerator (-1) 1 x)) reflect outflow.
Example shared_met : (exact_integers fixed 16777216 /\ divided ex_axis 8 /\ is_block ex_axis 3 5 23 /\ is_block ex_axis 3 4 11 /\ (2 * cells_across ex_axis 3 5 <= 16777216)%Z /\
  interior_face ex_axis 3 5 23 8 false 2 4 /\ interior_face ex_axis 3 4 11 8 false 2 7 /\ interior_face ex_axis 3 5 23 8 true 2 3 /\
  global false 23 8 2 4 * cells_across ex_axis 3 4 = global false 11 8 2 7 * cells_across ex_axis 3 5)%Z.
Proof. split; [apply fixed_exact|]. repeat split; unfold interior_face, last, global, cells_across, blocks_across; cbn; try lia. Qed.
Example increasing_met : let a := mkA 1 100 64 4 false (DefaultMeshGenerator 1 100 (11/10) 64) reflect reflect in
  onto a /\ increasing a /\ consistent a /\ divided a 16 /\ is_block a 2 4 3.
Proof.
  intro a. destruct (C49_generators 64 4 reflect reflect 1 100 (11/10) ltac:(lra) ltac:(lra) ltac:(lia)) as (_ & G1 & G2 & G3).
  split; [exact G1|split; [exact G2|split; [exact G3|]]]. split; [unfold divided; cbn; lia|]. unfold is_block, blocks_across; cbn; lia.
Qed.
