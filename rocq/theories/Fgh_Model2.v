(** Magnetic fields as the exchange of ghost zones reads them, and their restriction. *)
From Coq Require Import List Arith ZArith Bool Reals.
From Verif Require Import Fv_Model Ref_Model Loc Nbr_Model Buf_Model Gho_Model Con_Model.
Import ListNotations.
Local Open Scope Z_scope.

(** The field of a block as one array, FaceField x1f, x2f, x3f (athena.hpp 147-170), as in Fgh_Model. *)
Definition field4 (v : vec) : arr4 (A := R) := fun n => if Z.eqb n 0 then x1 v else if Z.eqb n 1 then x2 v else x3 v.
(** The first active indices of the coarse buffers, meshblock.cpp 104-116 (Gho_Model.cs_), and the coarse faces of direction [c] of the block. *)
Definition coarse_offs (B : bsz) : coff := mkO (cs_ B 0) (cs_ B 1) (cs_ B 2).
Definition coarse_box (B : bsz) (c : nat) : box :=
  let hi d := ce_ B d + (if Nat.eqb d c && actv B d then 1 else 0) in mkBox (cs_ B 0) (hi 0%nat) (cs_ B 1) (hi 1%nat) (cs_ B 2) (hi 2%nat).
(** LoadBoundaryBufferToCoarser, 426, 441, 460, calls RestrictFieldX1, X2, X3 (Ref_Model) with the range of the message before it packs it.
    Simplification: here all coarse faces of the block are restricted; each entry depends only on the fine faces on it.  No poles: the last arguments of RestrictX2 are not used. *)
Definition RestrictField (B : bsz) (G : geom) (v : arr4 (A := R)) : arr4 := fun n =>
  let d := block_dims B in let o := coarse_offs B in let zero := fun _ _ _ => 0%R in
  if Z.eqb n 0 then RestrictX1 d o (A1 G) (v 0) (coarse_box B 0) zero
  else if Z.eqb n 1 then RestrictX2 d o (A2 G) (v 1) (fun _ => 0%R) (fun _ => 0%R) (fun _ => 0%R) (coarse_box B 1) zero
  else RestrictX3 d o (A3 G) (v 2) (coarse_box B 2) zero.
