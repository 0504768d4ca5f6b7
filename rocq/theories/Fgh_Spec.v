(** What the exchange of the ghost zones of magnetic fields has to achieve. *)
From Coq Require Import List Arith ZArith Bool.
From Verif Require Import Loc Tree_Model Tree_Spec Nbr_Model Nbr_Spec Buf_Model Gho_Model Gho_Spec.
Import ListNotations.
Local Open Scope Z_scope.

(** The lower ([hi] = false) and upper face of a cell in direction [c]; face indices are those of the cell above the face. *)
Definition cell_face (x : cell) (c : nat) (hi : bool) : cell := fun d => if hi && Nat.eqb d c then x d + 1 else x d.
(** The faces of a block in direction [c]; in a direction the mesh does not have, the first of the two. *)
Definition own_face (B : bsz) (dim : nat) (h : bool) (c : nat) (x : cell) : Prop :=
  forall d, (d < 3)%nat -> first B dim d <= x d < first B dim d + size B dim h d + (if Nat.eqb d c && Nat.ltb c dim then 1 else 0).
(** The field of block [b] on its own faces ([h] = false), or restricted to coarse faces. *)
Definition reading {A} (V : loc -> arr4 (A := A)) (R : loc -> arr4 -> arr4) (h : bool) (b : loc) : arr4 := if h then R b (V b) else V b.
(** All blocks that have a face hold the same field there, be it their own or restricted to the coarser level [lev]. *)
Definition consistent {A} (g : grid) (B : bsz) (bs : list loc) (V : loc -> arr4 (A := A)) (R : loc -> arr4 -> arr4) : Prop :=
  forall lev b (h : bool) y b' (h' : bool) y' c, In b bs -> In b' bs -> level b = (if h then S lev else lev) -> level b' = (if h' then S lev else lev) -> (groot g <= lev)%nat -> (c < gdim g)%nat ->
  own_face B (gdim g) h c y -> own_face B (gdim g) h' c y' -> same_place g B lev b h y b' h' y' -> value (reading V R h b) (Z.of_nat c) y = value (reading V R h' b') (Z.of_nat c) y'.
(** In a direction the mesh does not have, both faces of a cell hold the same. *)
Definition upper (dim c : nat) (hi : bool) : bool := hi && Nat.ltb c dim.
(** The faces of every ghost cell x of block [a] hold what the block that has the cell holds there: a block of the same level, or, restricted, one of the next finer level.
    The faces of the cells of the coarse buffer in the block and around it hold what blocks of the next coarser level hold. *)
Definition faces_filled {A} (g : grid) (B : bsz) (bs : list loc) (V : loc -> arr4 (A := A)) (R : loc -> arr4 -> arr4) (a : loc) (main coarse : arr4) : Prop :=
  (forall x b (h : bool) y c hi, (c < 3)%nat -> near B (gdim g) false (ng B) x -> ~ own B (gdim g) false x -> In b bs -> level b = (if h then S (level a) else level a) -> own B (gdim g) h y ->
     same_place g B (level a) a false x b h y -> value main (Z.of_nat c) (cell_face x c hi) = value (reading V R h b) (Z.of_nat c) (cell_face y c (upper (gdim g) c hi))) /\
  (forall x b y c hi, (c < 3)%nat -> near B (gdim g) true (coarse_ghosts B) x -> In b bs -> level a = S (level b) -> own B (gdim g) false y ->
     same_place g B (level b) a true x b false y -> value coarse (Z.of_nat c) (cell_face x c hi) = value (V b) (Z.of_nat c) (cell_face y c (upper (gdim g) c hi))).
(** Nothing else changes: the faces of the block's own cells, and the faces of which neither cell is a ghost cell that lies in one of those blocks. *)
Definition faces_kept {A} (g : grid) (B : bsz) (bs : list loc) (a : loc) (main main' coarse coarse' : arr4 (A := A)) : Prop :=
  (forall x c hi, (c < 3)%nat -> own B (gdim g) false x -> value main' (Z.of_nat c) (cell_face x c hi) = value main (Z.of_nat c) (cell_face x c hi)) /\
  (forall p c, (c < 3)%nat -> (forall x hi, (forall d, cell_face x c hi d = p d) -> ~ near B (gdim g) false (ng B) x \/ empty g B bs a x) -> value main' (Z.of_nat c) p = value main (Z.of_nat c) p) /\
  (forall p c, (c < 3)%nat -> (forall x hi, (forall d, cell_face x c hi d = p d) -> ~ near B (gdim g) true (coarse_ghosts B) x \/ empty_coarse g B bs a x) -> value coarse' (Z.of_nat c) p = value coarse (Z.of_nat c) p).
