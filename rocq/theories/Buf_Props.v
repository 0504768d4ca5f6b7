(** C25, C26: message buffers of array regions and of moving MeshBlocks. *)
From Coq Require Import List Arith ZArith Bool Lia.
From Verif Require Import Loc Arr_Model Arr_Spec Buf_Model Buf_Spec Buf_Proofs Buf_Proofs2 Buf_Proofs3.
Import ListNotations.
Local Open Scope Z_scope.

(** C25.  Packing a region of [src] into a buffer at any offset and unpacking it into the region of [dst] displaced by [d] (the same region if
    [d] is zero): both advance the offset by the number of elements, the buffer is unchanged elsewhere, and [dst] is unchanged except for
    the region, which holds the packed values.  Ranges may be empty; the arrays may have different extents. *)
Theorem C25_pack_unpack_3d : forall A D D' (src buf dst : mem A) si ei sj ej sk ek di dj dk off, fits D' [(sk + dk, ek + dk); (sj + dj, ej + dj); (si + di, ei + di)] ->
  let b := PackData3 D src si ei sj ej sk ek (buf, off) in let r := UnpackData3 (fst b) D' (si + di) (ei + di) (sj + dj) (ej + dj) (sk + dk) (ek + dk) (dst, off) in
  snd b = off + volume [(sk, ek); (sj, ej); (si, ei)] /\ snd r = snd b /\ (forall p, p < off \/ snd b <= p -> fst b p = buf p) /\
  transferred D D' [(sk, ek); (sj, ej); (si, ei)] [dk; dj; di] src dst (fst r).
Proof. intros A D D' src buf dst si ei sj ej sk ek di dj dk off F b r. unfold r, b. rewrite pack3_over, unpack3_over. apply (round_trip A D D' src buf dst [(sk, ek); (sj, ej); (si, ei)] [dk; dj; di] off); [cbn; lia|reflexivity|exact F]. Qed.
Theorem C25_pack_unpack_4d : forall A D D' (src buf dst : mem A) sn en si ei sj ej sk ek dn di dj dk off, fits D' [(sn + dn, en + dn); (sk + dk, ek + dk); (sj + dj, ej + dj); (si + di, ei + di)] ->
  let b := PackData4 D src sn en si ei sj ej sk ek (buf, off) in let r := UnpackData4 (fst b) D' (sn + dn) (en + dn) (si + di) (ei + di) (sj + dj) (ej + dj) (sk + dk) (ek + dk) (dst, off) in
  snd b = off + volume [(sn, en); (sk, ek); (sj, ej); (si, ei)] /\ snd r = snd b /\ (forall p, p < off \/ snd b <= p -> fst b p = buf p) /\
  transferred D D' [(sn, en); (sk, ek); (sj, ej); (si, ei)] [dn; dk; dj; di] src dst (fst r).
Proof. intros A D D' src buf dst sn en si ei sj ej sk ek dn di dj dk off F b r. unfold r, b. rewrite pack4_over, unpack4_over. apply (round_trip A D D' src buf dst [(sn, en); (sk, ek); (sj, ej); (si, ei)] [dn; dk; dj; di] off); [cbn; lia|reflexivity|exact F]. Qed.
Theorem C25_pack_unpack_5d : forall A D D' (src buf dst : mem A) sn en sm em si ei sj ej sk ek dn dm di dj dk off,
  fits D' [(sn + dn, en + dn); (sk + dk, ek + dk); (sj + dj, ej + dj); (si + di, ei + di); (sm + dm, em + dm)] ->
  let b := PackData5 D src sn en sm em si ei sj ej sk ek (buf, off) in
  let r := UnpackData5 (fst b) D' (sn + dn) (en + dn) (sm + dm) (em + dm) (si + di) (ei + di) (sj + dj) (ej + dj) (sk + dk) (ek + dk) (dst, off) in
  snd b = off + volume [(sn, en); (sk, ek); (sj, ej); (si, ei); (sm, em)] /\ snd r = snd b /\ (forall p, p < off \/ snd b <= p -> fst b p = buf p) /\
  transferred D D' [(sn, en); (sk, ek); (sj, ej); (si, ei); (sm, em)] [dn; dk; dj; di; dm] src dst (fst r).
Proof. intros A D D' src buf dst sn en sm em si ei sj ej sk ek dn dm di dj dk off F b r. unfold r, b. rewrite pack5_over, unpack5_over. apply (round_trip A D D' src buf dst [(sn, en); (sk, ek); (sj, ej); (si, ei); (sm, em)] [dn; dk; dj; di; dm] off); [cbn; lia|reflexivity|exact F]. Qed.

(** C26.  No access outside the arrays (or, with the offsets below, outside the buffers). *)
Theorem C26_accesses_inside : forall B V l, refinable B -> loc_of B l ->
  all_inside (main_dims B V) (PrepareSendSameLevel B V) /\ all_inside (main_dims B V) (FinishRecvSameLevel B V) /\
  all_inside (coarse_dims B V) (PrepareSendFineToCoarseAMR B V) /\ all_inside (main_dims B V) (FinishRecvFineToCoarseAMR B V l) /\
  all_inside (main_dims B V) (PrepareSendCoarseToFineAMR B V l) /\ all_inside (coarse_dims B V) (ReceiveCoarseToFineAMR B V).
Proof.
  intros B V l HB HL. pose proof HB as (HG & _). split; [apply same_inside, HG|]. split; [apply same_inside, HG|]. split; [apply f2c_send_inside, HB|]. split; [apply f2c_recv_inside; assumption|].
  split; [apply c2f_send_inside; assumption|apply c2f_recv_inside, HB].
Qed.
(** A block that changes rank: the message has the allocated number of elements (the last is the derefinement counter), and the new block
    has the old one's values in all its own cells and faces and is otherwise unchanged. *)
Theorem C26_same_level : forall A B V (T S : store A) buf, good_block B -> goodv V ->
  let b := pack_all (main_dims B V) T (PrepareSendSameLevel B V) buf in let r := unpack_all (main_dims B V) (fst b) (FinishRecvSameLevel B V) S in
  snd b + 1 = bssame B V /\ snd r = snd b /\ (forall p, p < 0 \/ snd b <= p -> fst b p = buf p) /\
  written (main_dims B V) (main_dims B V) (own_cells B V) (fun _ x y => y = x) T S (fst r).
Proof. exact same_level. Qed.
(** A derefined block at [l]: the values of its coarse buffers arrive in its parent at [c] at the same places, by message or by copy. *)
Theorem C26_fine_to_coarse : forall A B V l c (T S : store A) buf, refinable B -> goodv V -> loc_of B l -> parent_loc l c ->
  let b := pack_all (coarse_dims B V) T (PrepareSendFineToCoarseAMR B V) buf in let r := unpack_all (main_dims B V) (fst b) (FinishRecvFineToCoarseAMR B V l) S in
  (snd b = bsf2c B V /\ snd r = snd b /\ (forall p, p < 0 \/ snd b <= p -> fst b p = buf p) /\
  written (main_dims B V) (coarse_dims B V) (coarse_cells B V 0) (same_place B l c) T S (fst r)) /\
  (forall a q, copy_all (main_dims B V) (coarse_dims B V) T (FillSameRankFineToCoarseAMR B V l) S a q = fst r a q).
Proof. intros A B V l c T S buf H1 H2 H3 H4. exact (fine_to_coarse A B V l c T S buf H1 H2 H3 H4). Qed.
(** Every element of the parent's own cells comes from some child. *)
Theorem C26_children_cover : forall B V c, refinable B -> loc_of B c -> forall a x, own_cells B V a x ->
  exists l y, parent_loc l c /\ loc_of B l /\ coarse_cells B V 0 a y /\ same_place B l c a y x.
Proof. exact children_cover. Qed.
(** A refined block at [c]: the coarse buffers of its child at [l], including one ghost cell, hold its values at the same places. *)
Theorem C26_coarse_to_fine : forall A B V l c (T S : store A) buf, refinable B -> goodv V -> loc_of B l -> parent_loc l c ->
  let b := pack_all (main_dims B V) T (PrepareSendCoarseToFineAMR B V l) buf in let r := unpack_all (coarse_dims B V) (fst b) (ReceiveCoarseToFineAMR B V) S in
  (snd b = bsc2f B V /\ snd r = snd b /\ (forall p, p < 0 \/ snd b <= p -> fst b p = buf p) /\
  written (coarse_dims B V) (main_dims B V) (fun a x => exists y, coarse_cells B V 1 a y /\ same_place B l c a y x) (fun a x y => same_place B l c a y x) T S (fst r)) /\
  (forall a q, copy_all (coarse_dims B V) (main_dims B V) T (FillSameRankCoarseToFineAMR B V l) S a q = fst r a q).
Proof. intros A B V l c T S buf H1 H2 H3 H4. exact (coarse_to_fine A B V l c T S buf H1 H2 H3 H4). Qed.
(** Finding: the sizes are only computed on adaptive meshes, but blocks of static meshes are moved by load balancing with the same messages. *)
Theorem C26_static_balancing_refuted : exists B V, good_block B /\ goodv V /\ same_buffer false B V = None /\
  forall A (T : store A) buf, 0 < snd (pack_all (main_dims B V) T (PrepareSendSameLevel B V) buf).
Proof.
  exists (mkB 2 8 8 1), (mkV [5] None 0). assert (G : good_block (mkB 2 8 8 1)) by (unfold good_block; cbn; lia).
  assert (V : goodv (mkV [5] None 0)) by (split; [repeat constructor; lia|discriminate]). split; [exact G|]. split; [exact V|]. split; [reflexivity|].
  intros A T buf. destruct (same_level A _ _ T T buf G V) as (H & _). assert (E : bssame (mkB 2 8 8 1) (mkV [5] None 0) = 321) by reflexivity. rewrite E in H. cbn zeta in H. lia.
Qed.

(** Non-trivial instances: a 2D region moved by (0, 1, 2); a 2D block of 8 x 4 cells with 2 variables, 3 angles and a magnetic field. *)
Definition exB : bsz := mkB 2 8 4 1.
Definition exV : vars := mkV [5; 2] (Some 3) 1.
Example ex_region : fits (mkD 5 4 1 1 1 1) [(0 + 0, 0 + 0); (0 + 1, 2 + 1); (1 + 2, 2 + 2)] /\ volume [(0, 0); (0, 2); (1, 2)] = 6.
Proof.
  split; [|reflexivity]. intros x Hx. unfold within in Hx. repeat match goal with H : Forall2 _ (_ :: _) _ |- _ => inversion H; clear H; subst | H : Forall2 _ [] _ |- _ => inversion H; clear H; subst end; cbn [fst snd] in *.
  unfold pad, inrange, extents. cbn [length Nat.sub repeat app nx1 nx2 nx3 nx4 nx5 nx6]. repeat constructor; lia.
Qed.
Example ex_hyps : refinable exB /\ goodv exV /\ loc_of exB (mkLoc 3 5 2 0) /\ parent_loc (mkLoc 3 5 2 0) (mkLoc 2 2 1 0).
Proof. unfold refinable, good_block, goodv, loc_of, parent_loc, exB, exV. cbn. repeat split; try lia; try (intros; lia); try (intros n H; injection H as <-; lia); repeat constructor; lia. Qed.
Example ex_sizes : bssame exB exV = 8 * 4 * 10 + (9 * 4 + 8 * 5 + 8 * 4) + 1 /\ bsf2c exB exV = 4 * 2 * 10 + (5 * 2 + 4 * 3 + 4 * 2) /\ bsc2f exB exV = 6 * 4 * 10 + (7 * 4 + 6 * 5 + 6 * 4).
Proof. repeat split. Qed.
Example ex_move : same_place exB (mkLoc 3 5 2 0) (mkLoc 2 2 1 0) (Cc 1) [0; 0; 3; 2] [0; 0; 3; 6] /\ coarse_cells exB exV 0 (Cc 1) [0; 0; 3; 2].
Proof. split; [cbn; lia|]. unfold coarse_cells. cbn. exists 2. repeat split; lia. Qed.
Print Assumptions C25_pack_unpack_5d.
Print Assumptions C26_accesses_inside.
Print Assumptions C26_same_level.
Print Assumptions C26_fine_to_coarse.
Print Assumptions C26_coarse_to_fine.
Print Assumptions C26_children_cover.
Print Assumptions C26_static_balancing_refuted.
