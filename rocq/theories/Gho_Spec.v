(** What the exchange of ghost zones has to achieve. *)
From Coq Require Import List Arith ZArith Bool.
From Verif Require Import Loc Tree_Model Tree_Spec Nbr_Model Nbr_Spec Buf_Model Gho_Model.
Import ListNotations.
Local Open Scope Z_scope.

(** A cell: its index in each of the three directions 0, 1, 2. *)
Definition cell := nat -> Z.
Definition value {A} (v : arr4 (A := A)) (n : Z) (x : cell) : A := v n (x 2%nat) (x 1%nat) (x 0%nat).
Definition cells_in (B : bsz) (d : nat) : Z := match d with 0%nat => bn1 B | 1%nat => bn2 B | _ => bn3 B end.
(** Arrays have [ng] ghost cells in the directions that exist.  [h] stands for the coarse buffer, whose cells are twice as long. *)
Definition first (B : bsz) (dim d : nat) : Z := if Nat.ltb d dim then ng B else 0.
Definition size (B : bsz) (dim : nat) (h : bool) (d : nat) : Z := if Nat.ltb d dim then if h then cells_in B d / 2 else cells_in B d else 1.
Definition own (B : bsz) (dim : nat) (h : bool) (x : cell) : Prop := forall d, (d < 3)%nat -> first B dim d <= x d < first B dim d + size B dim h d.
(** Within [w] cells of the block. *)
Definition near (B : bsz) (dim : nat) (h : bool) (w : Z) (x : cell) : Prop :=
  forall d, (d < 3)%nat -> let w := if Nat.ltb d dim then w else 0 in first B dim d - w <= x d < first B dim d + size B dim h d + w.
(** On which side of the block the cell lies. *)
Definition side (B : bsz) (dim : nat) (h : bool) (x : cell) (d : nat) : Z :=
  if Z.ltb (x d) (first B dim d) then -1 else if Z.leb (first B dim d + size B dim h d) (x d) then 1 else 0.
(** Cell x of the block at [a] and cell y of the block at [b] (or of their coarse buffers) occupy the same place, up to periods of the domain; both are cells of level [lev]. *)
Definition same_place (g : grid) (B : bsz) (lev : nat) (a : loc) (ha : bool) (x : cell) (b : loc) (hb : bool) (y : cell) : Prop :=
  forall d, (d < 3)%nat -> exists s, period_shift g d (gnrb g d * 2 ^ Z.of_nat (lev - groot g) * cells_in B d) s /\
    coord d b * size B (gdim g) hb d + (y d - first B (gdim g) d) = coord d a * size B (gdim g) ha d + (x d - first B (gdim g) d) + s.
(** Block sizes: more than one cell exactly in the directions of the mesh, at least as many as ghost cells; refined meshes need even numbers and twice as many cells as ghost cells. *)
Definition fitting (g : grid) (B : bsz) (ml : bool) : Prop :=
  1 <= ng B /\ (forall d, (d < 3)%nat -> ((d < gdim g)%nat -> 1 < cells_in B d /\ ng B <= cells_in B d) /\ ((gdim g <= d)%nat -> cells_in B d = 1)) /\
  (ml = true -> Z.even (ng B) = true /\ forall d, (d < gdim g)%nat -> Z.even (cells_in B d) = true /\ 2 * ng B <= cells_in B d).
(** The coarse ghost cells the prolongation needs. *)
Definition coarse_ghosts (B : bsz) : Z := (ng B + 1) / 2 + 1.
(** Ghost cells hold what the neighbours hold at that place: cell x of block [a] and cell y of a block of the same level; or the coarse cell y, restricted from a block of the next finer level.
    The coarse buffer holds, in the block and around it, what blocks of the next coarser level hold. *)
Definition filled {A} (g : grid) (B : bsz) (bs : list loc) (V : loc -> arr4 (A := A)) (R : loc -> arr4 -> arr4) (a : loc) (n : Z) (main coarse : arr4) : Prop :=
  (forall x b y, near B (gdim g) false (ng B) x -> ~ own B (gdim g) false x -> In b bs -> level b = level a -> own B (gdim g) false y -> same_place g B (level a) a false x b false y ->
     value main n x = value (V b) n y) /\
  (forall x b y, near B (gdim g) false (ng B) x -> ~ own B (gdim g) false x -> In b bs -> level b = S (level a) -> own B (gdim g) true y -> same_place g B (level a) a false x b true y ->
     value main n x = value (R b (V b)) n y) /\
  (forall x b y, near B (gdim g) true (coarse_ghosts B) x -> In b bs -> level a = S (level b) -> own B (gdim g) false y -> same_place g B (level b) a true x b false y ->
     value coarse n x = value (V b) n y).
(** No block of the same or the next finer level lies at cell x; no block of the next coarser level lies at cell x of the coarse buffer. *)
Definition empty (g : grid) (B : bsz) (bs : list loc) (a : loc) (x : cell) : Prop := forall b y, In b bs ->
  (level b = level a -> own B (gdim g) false y -> ~ same_place g B (level a) a false x b false y) /\ (level b = S (level a) -> own B (gdim g) true y -> ~ same_place g B (level a) a false x b true y).
Definition empty_coarse (g : grid) (B : bsz) (bs : list loc) (a : loc) (x : cell) : Prop := forall b y, In b bs ->
  level a = S (level b) -> own B (gdim g) false y -> ~ same_place g B (level b) a true x b false y.
(** Nothing else changes. *)
Definition kept {A} (g : grid) (B : bsz) (bs : list loc) (a : loc) (n : Z) (main main' coarse coarse' : arr4 (A := A)) : Prop :=
  (forall x, own B (gdim g) false x \/ ~ near B (gdim g) false (ng B) x \/ empty g B bs a x -> value main' n x = value main n x) /\
  (forall x, ~ near B (gdim g) true (coarse_ghosts B) x \/ empty_coarse g B bs a x -> value coarse' n x = value coarse n x).
(** The place of a cell is in the domain, up to periods; the coarse cell around a cell. *)
Definition inside (g : grid) (B : bsz) (a : loc) (x : cell) : Prop := forall d, (d < gdim g)%nat -> exists s, period_shift g d (gnrb g d * 2 ^ Z.of_nat (level a - groot g) * cells_in B d) s /\
  0 <= coord d a * cells_in B d + (x d - ng B) + s < gnrb g d * 2 ^ Z.of_nat (level a - groot g) * cells_in B d.
Definition coarse_cell (g : grid) (B : bsz) (x : cell) : cell := fun d => if Nat.ltb d (gdim g) then ng B + (x d - ng B) / 2 else x d.
