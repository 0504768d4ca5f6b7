(** Property theorems about tags, buffer slots and physics ids (C23, C24; the tag part of C22). *)
From Coq Require Import List Arith NArith ZArith Bool Lia.
From Verif Require Import Tags_Model Tags_Spec Tags_Proofs.
Import ListNotations.

(** ** C23 *)
Theorem C23_tags_injective : forall lid lid' b b' p p' : N, tag_args_ok b p -> tag_args_ok b' p' ->
  CreateBvalsMPITag lid b p = CreateBvalsMPITag lid' b' p' -> lid = lid' /\ b = b' /\ p = p'.
Proof. intros lid lid' b b' p p' [Hb Hp] [Hb' Hp']. exact (bvals_tag_inj lid lid' b b' p p' Hb Hb' Hp Hp'). Qed.
Print Assumptions C23_tags_injective.

(** Tags fit a 31-bit int for fewer than 2^20 blocks per rank; the range every MPI library guarantees (32767)
    is only enough for 16 blocks per rank. *)
Theorem C23_tag_range : forall lid b p : N, tag_args_ok b p ->
  ((lid < 2 ^ 20)%N -> (CreateBvalsMPITag lid b p < 2 ^ 31)%N) /\
  ((lid < 16)%N -> (CreateBvalsMPITag lid b p <= 32767)%N).
Proof. intros lid b p [Hb Hp]. exact (bvals_tag_range lid b p Hb Hp). Qed.
Print Assumptions C23_tag_range.
Theorem C23_guaranteed_range_refuted : exists lid b p, tag_args_ok b p /\ lid = 16%N /\ (CreateBvalsMPITag lid b p > 32767)%N.
Proof. exists 16%N, 0%N, 1%N. split; [split; reflexivity|]. split; reflexivity. Qed.
Print Assumptions C23_guaranteed_range_refuted.

(** Physics ids are distinct and below 32 unless implicit radiation (or, after a restart, six-ray radiation) is
    followed by another variable, or every optional variable is enabled at once. *)
Theorem C23_physics_ids_partial : forall restart o,
  (p_im o = true -> p_nr o = false -> p_cr o = false /\ p_crdiff o = false /\ p_orbital o = false) ->
  (restart = true -> p_sixray o = true -> p_nr o = false /\ p_im o = false /\ p_cr o = false /\ p_crdiff o = false /\ p_orbital o = false) ->
  (p_mhd o && p_grav o && p_scalars o && p_sixray o && p_nr o && p_cr o && p_crdiff o && p_orbital o = false) ->
  NoDup (phys_ids restart o) /\ forall i, In i (phys_ids restart o) -> 1 <= i <= 31.
Proof.
  intros restart o H1 H2 H3. apply ids_check; [|exact H3]. clear H3. unfold later.
  destruct o as [a b c six nr im cr crd orb]. cbn in *.
  destruct im, nr, restart, six, cr, crd, orb; try reflexivity; exfalso; intuition discriminate.
Qed.
Print Assumptions C23_physics_ids_partial.

(** Implicit radiation and cosmic rays get the same ids, so their boundary messages have the same tags. *)
Theorem C23_implicit_radiation_refuted : exists o, p_im o = true /\ p_nr o = false /\ p_cr o = true /\
  exists i, In (PRad, i) (phys_base false o) /\ In (PCR, i) (phys_base false o).
Proof. exists (mkPO false false false false false true true false false). repeat split. exists 5. cbn; auto. Qed.
Print Assumptions C23_implicit_radiation_refuted.
(** After a restart, six-ray radiation shares its id with the next variable. *)
Theorem C23_restarted_six_ray_refuted : exists o i, p_sixray o = true /\
  In (PSixRay, i) (phys_base true o) /\ In (PCR, i) (phys_base true o).
Proof. exists (mkPO false false true true false false true false false), 9. repeat split; cbn; tauto. Qed.
Print Assumptions C23_restarted_six_ray_refuted.
(** With every variable enabled the last id needs six bits and two of its messages share a tag. *)
Theorem C23_all_physics_refuted : exists o i, In i (phys_ids false o) /\ 32 <= i /\
  CreateBvalsMPITag 0 0 (N.of_nat i) = CreateBvalsMPITag 0 1 (N.of_nat i).
Proof. exists (mkPO true true true true true false true true true), 32. split; [|split; [lia|reflexivity]]. vm_compute. tauto. Qed.
Print Assumptions C23_all_physics_refuted.
(** Polar electromotive-force messages use the azimuthal block index of the sender as the slot
    (src/bvals/fc/bvals_fc.cpp 1371, 1386): with more than 64 blocks around the pole two messages collide. *)
Theorem C23_polar_slots_refuted : forall phys, exists lid slot lid' slot', (lid, slot) <> (lid', slot') /\
  CreateBvalsMPITag lid slot phys = CreateBvalsMPITag lid' slot' phys.
Proof. intros phys. exists 0%N, 64%N, 1%N, 0%N. split; [discriminate|reflexivity]. Qed.
Print Assumptions C23_polar_slots_refuted.

(** ** C24 *)
Theorem C24_slots_enumerate_directions : forall dim multilevel, 1 <= dim <= 3 ->
  NoDup (BufferTable dim multilevel) /\ (forall e, In e (BufferTable dim multilevel) <-> valid_slot dim multilevel e) /\
  length (BufferTable dim multilevel) <= 56.
Proof.
  intros dim ml H. split; [exact (table_nodup dim ml H)|]. split; [|exact (slots_56 dim ml H)].
  intros e. split; [exact (table_valid dim ml e H)|exact (table_complete dim ml e H)].
Qed.
Print Assumptions C24_slots_enumerate_directions.
Theorem C24_lookup_returns_own_slot : forall dim multilevel k e, 1 <= dim <= 3 ->
  nth_error (BufferTable dim multilevel) k = Some e ->
  FindBufferID dim multilevel (ox1 e) (ox2 e) (ox3 e) (fi1 e) (fi2 e) = Some k.
Proof. exact slot_roundtrip. Qed.
Print Assumptions C24_lookup_returns_own_slot.
(** Slots therefore always fit the six bits of a tag. *)
Theorem C24_slots_fit_tags : forall dim multilevel k e, 1 <= dim <= 3 ->
  nth_error (BufferTable dim multilevel) k = Some e -> (N.of_nat k < 64)%N.
Proof.
  intros dim ml k e H Hk. pose proof (slots_56 dim ml H). assert (k < length (BufferTable dim ml)) by (apply nth_error_Some; congruence). lia.
Qed.
Print Assumptions C24_slots_fit_tags.

(** Examples. *)
Example slot_counts : map (fun d => (length (BufferTable d false), length (BufferTable d true))) [1; 2; 3] = [(2, 2); (8, 12); (26, 56)].
Proof. reflexivity. Qed.
Example mhd_shearing_ids : phys_ids false (mkPO true false true false false false false false true) = seq 1 15.
Proof. reflexivity. Qed.
Example tag_example : CreateBvalsMPITag 5 55 14 = 12014%N.
Proof. reflexivity. Qed.
