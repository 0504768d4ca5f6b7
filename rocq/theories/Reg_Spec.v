(** What refining and derefining blocks does to the values they hold.  Cells, places and averages are those of Gho_Spec and Ref_Spec; block lists those of AMR_Spec. *)
From Coq Require Import List Arith ZArith Bool Reals.
From Verif Require Import Loc AMR_Model AMR_Spec Tree_Model Tree_Spec Nbr_Model Buf_Model Fv_Model Gho_Model Con_Model Fgh_Model2 Gho_Spec.
From Verif Require Fv_Spec Ref_Model Ref_Spec.
Import ListNotations.
Local Open Scope Z_scope.

(** Block sizes of a mesh of dimension dim that can be refined: more than one cell, an even number, exactly in the directions of the mesh. *)
Definition refinable (dim : nat) (B : bsz) : Prop := 1 <= ng B /\ forall d, (d < 3)%nat -> ((d < dim)%nat -> 1 < cells_in B d /\ Z.even (cells_in B d) = true) /\ ((dim <= d)%nat -> cells_in B d = 1).
(** The cells of a parent as its child [b] sees them: half-size block, counted from the first index of coarse buffers; the index in the parent's own array. *)
Definition coarse_own (B : bsz) (dim : nat) (q : Ref_Spec.pt) : Prop := let '(k, j, i) := q in own B dim true (fun d => match d with 0%nat => i | 1%nat => j | _ => k end).
Definition in_parent (B : bsz) (dim : nat) (b : loc) (q : Ref_Spec.pt) : Ref_Spec.pt := let '(k, j, i) := q in
  let half d := if Nat.ltb d dim then coord d b mod 2 * size B dim true d else 0 in (k + half 2%nat, j + half 1%nat, i + half 0%nat).
(** Wherever a block is replaced by its children, or the other way round: volumes are positive and that of a cell of the parent is the sum of those of the cells in it. *)
Definition volumes_add (dim : nat) (B : bsz) (vol : loc -> arr) (old new : list loc) : Prop := forall l b q, (In l old /\ In b new) \/ (In b old /\ In l new) -> In b (children dim l) -> coarse_own B dim q ->
  Ref_Spec.positive (vol b) (Ref_Spec.cells (block_dims B) (coarse_offs B) q) /\
  Fv_Spec.at_ (vol l) (in_parent B dim b q) = Fv_Spec.sum (map (Fv_Spec.at_ (vol b)) (Ref_Spec.cells (block_dims B) (coarse_offs B) q)).
(** Positions used for the prolongation into block [b]: coarse centres are the volume means of the fine ones; volumes are products. *)
Definition centred (B : bsz) (vol : arr) (xc xf : Ref_Model.pos) : Prop := let d := block_dims B in let c := coarse_offs B in
  exists w1 w2 w3, Ref_Spec.sep vol w1 w2 w3 /\ forall q, Ref_Spec.in_box d c (coarse_box B 3) q ->
  Ref_Spec.centroid w1 (Ref_Model.p1 xc) (Ref_Model.p1 xf) (is_ d) (Ref_Model.cis c) (snd q) /\
  (1 < nx2 d -> Ref_Spec.centroid w2 (Ref_Model.p2 xc) (Ref_Model.p2 xf) (js d) (Ref_Model.cjs c) (snd (fst q))) /\
  (1 < nx3 d -> Ref_Spec.centroid w3 (Ref_Model.p3 xc) (Ref_Model.p3 xf) (ks d) (Ref_Model.cks c) (fst (fst q))).
(** Increasing centres, fine centres at most a third of the way to the next coarse one. *)
Definition well_spaced (B : bsz) (xc xf : Ref_Model.pos) : Prop := forall q, Ref_Spec.in_box (block_dims B) (coarse_offs B) (coarse_box B 3) q ->
  Ref_Spec.spaced xc q /\ Ref_Spec.nested (block_dims B) (coarse_offs B) xc xf q.
(** A uniform Cartesian mesh: cells of the lengths of Con_Spec.uniform; centres of cells i = 0, 1, .. at (i + 1/2) cell lengths from some origin. *)
Definition uniform_positions (B : bsz) (xc xf : Ref_Model.pos) : Prop := Ref_Spec.uniform_grid (block_dims B) (coarse_offs B) xc xf.
(** The total of a variable over a list of blocks given by number. *)
Definition total_of (B : bsz) (vol : loc -> arr) (ls : list loc) (u : nat -> arr) : R :=
  Fv_Spec.sum (map (fun n => Fv_Spec.sum3 (block_dims B) (fun k j i => vol (locs_at ls n) k j i * u n k j i)%R) (seq 0 (length ls))).
