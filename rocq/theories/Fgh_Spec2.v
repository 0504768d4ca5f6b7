(** Magnetic flux in the ghost zones: geometry of ghost cells, and the flux out of a cell. *)
From Coq Require Import List Arith ZArith Bool Reals.
From Verif Require Import Fv_Model Fv_Spec Ref_Model Ref_Spec Loc Tree_Model Tree_Spec Nbr_Model Nbr_Spec Buf_Model Gho_Model Gho_Spec Con_Model Con_Spec Mag_Spec Fgh_Model Fgh_Spec Fgh_Model2.
Import ListNotations.
Local Open Scope Z_scope.

Definition fpos_of (x : cell) : fpos := (x 2%nat, x 1%nat, x 0%nat).
(** The flux out of cell x through its faces in the directions of the mesh. *)
Definition charge (dim : nat) (G : geom) (v : arr4 (A := R)) (x : cell) : R :=
  sum (map (fun c => area G c (fpos_of (cell_face x c true)) * value v (Z.of_nat c) (cell_face x c true) - area G c (fpos_of (cell_face x c false)) * value v (Z.of_nat c) (cell_face x c false))%R (seq 0 dim)).
(** The fine faces on coarse face y of a block (Ref_Spec). *)
Definition fine_faces (B : bsz) (c : nat) (y : cell) : list fpos := (match c with 0%nat => faces1 | 1%nat => faces2 | _ => faces3 end) (block_dims B) (coarse_offs B) (fpos_of y).
(** The area of face y of block [b]; of the fine faces on it, if y is a coarse face of a finer block. *)
Definition area_there (B : bsz) (G : loc -> geom) (h : bool) (b : loc) (c : nat) (y : cell) : R := if h then sum (map (area (G b) c) (fine_faces B c y)) else area (G b) c (fpos_of y).
(** The faces of ghost cells, and of the cells of the coarse buffer (with geometry [Gc a]), have the area they have in the block that has the cell. *)
Definition ghost_areas (g : grid) (B : bsz) (bs : list loc) (G Gc : loc -> geom) : Prop :=
  (forall a x b (h : bool) y c hi, In a bs -> In b bs -> (c < gdim g)%nat -> near B (gdim g) false (ng B) x -> level b = (if h then S (level a) else level a) -> own B (gdim g) h y ->
     same_place g B (level a) a false x b h y -> area (G a) c (fpos_of (cell_face x c hi)) = area_there B G h b c (cell_face y c hi)) /\
  (forall a x b y c hi, In a bs -> In b bs -> (c < gdim g)%nat -> near B (gdim g) true (coarse_ghosts B) x -> level a = S (level b) -> own B (gdim g) false y ->
     same_place g B (level b) a true x b false y -> area (Gc a) c (fpos_of (cell_face x c hi)) = area (G b) c (fpos_of (cell_face y c hi))).
Definition areas_positive (g : grid) (B : bsz) (bs : list loc) (G : loc -> geom) : Prop := forall a dir p, In a bs -> (dir < gdim g)%nat -> face_of g B dir p -> (0 < area (G a) dir p)%R.
(** No ghost cell that lies in a block of the same or the next finer level is a source of flux, nor is a cell of the coarse buffer that lies in a block of the next coarser level. *)
Definition ghosts_uncharged (g : grid) (B : bsz) (bs : list loc) (G Gc : loc -> geom) (a : loc) (main coarse : arr4 (A := R)) : Prop :=
  (forall x b (h : bool) y, near B (gdim g) false (ng B) x -> ~ own B (gdim g) false x -> In b bs -> level b = (if h then S (level a) else level a) -> own B (gdim g) h y ->
     same_place g B (level a) a false x b h y -> charge (gdim g) (G a) main x = 0%R) /\
  (forall x b y, near B (gdim g) true (coarse_ghosts B) x -> In b bs -> level a = S (level b) -> own B (gdim g) false y ->
     same_place g B (level b) a true x b false y -> charge (gdim g) (Gc a) coarse x = 0%R).
(** The coarse geometry of a uniform Cartesian mesh: that of a block of the next coarser level. *)
Definition coarse_uniform (g : grid) (dx : nat -> R) (a : loc) : geom := uniform g dx (mkLoc (level a - 1) 0 0 0).
(** In the directions the mesh does not have, as much flux enters a cell as leaves it. *)
Definition flat (g : grid) (B : bsz) (bs : list loc) (G : loc -> geom) (b : loc -> vec) : Prop :=
  forall a x c, In a bs -> own B (gdim g) false x -> (gdim g <= c < 3)%nat -> (area (G a) c (fpos_of (cell_face x c true)) * normal (b a) c (fpos_of (cell_face x c true)) = area (G a) c (fpos_of (cell_face x c false)) * normal (b a) c (fpos_of (cell_face x c false)))%R.
