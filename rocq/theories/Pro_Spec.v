(** What the ghost zones next to coarser blocks have to hold. *)
From Coq Require Import List Arith ZArith Bool.
From Verif Require Import Loc Tree_Model Tree_Spec Nbr_Model Nbr_Spec Buf_Model Gho_Model Gho_Spec.
Import ListNotations.
Local Open Scope Z_scope.

(** Only periodic and physical boundaries. *)
Definition plain (g : grid) : Prop := forall d hi, (d < gdim g)%nat -> gbc g d hi = BPeriodic \/ gbc g d hi = BOther.
(** The block touches a physical boundary of the domain. *)
Definition at_wall (g : grid) (a : loc) (d : nat) (hi : bool) : Prop :=
  (d < gdim g)%nat /\ gbc g d hi = BOther /\ coord d a = if hi then gnrb g d * 2 ^ Z.of_nat (level a - groot g) - 1 else 0.
(** A cell of the coarse buffer of [a] that lies in block [b] of the next coarser level, at its cell y. *)
Definition in_coarser (g : grid) (B : bsz) (bs : list loc) (a : loc) (s : cell) (b : loc) (y : cell) : Prop :=
  In b bs /\ level a = S (level b) /\ own B (gdim g) false y /\ same_place g B (level b) a true s b false y.
(** One that lies in a block of the same level, the block itself included. *)
Definition in_level (g : grid) (B : bsz) (bs : list loc) (a : loc) (s : cell) : Prop :=
  exists b y, In b bs /\ level b = level a /\ own B (gdim g) true y /\ same_place g B (level a - 1) a true s b true y.
(** The coarse cells the slopes at coarse cell c need: itself and the next one in each direction. *)
Definition stencil (g : grid) (c s : cell) : Prop := exists d, (d < gdim g)%nat /\ (s d = c d \/ s d = c d - 1 \/ s d = c d + 1) /\ forall d', (d' < 3)%nat -> d' <> d -> s d' = c d'.
Definition row (B : bsz) (dim d : nat) (s s' : cell) : Prop := first B dim d <= s' d < first B dim d + size B dim true d /\ forall d', (d' < 3)%nat -> d' <> d -> s' d' = s d'.

(** The operators use only these cells: restriction the fine cells under the coarse one, prolongation the stencil, boundary functions the block's cells in that row. *)
Definition local_restriction {A} (g : grid) (B : bsz) (R : arr4 (A := A) -> arr4 (A := A)) : Prop :=
  forall v v' s, (forall x, (forall d, (d < 3)%nat -> coarse_cell g B x d = s d) -> value v 0 x = value v' 0 x) -> value (R v) 0 s = value (R v') 0 s.
Definition local_prolongation {P} (g : grid) (B : bsz) (Pr : arr4 (A := P) -> arr4 (A := P)) : Prop :=
  forall v v' x, (forall s, stencil g (coarse_cell g B x) s -> value v 0 s = value v' 0 s) -> value (Pr v) 0 x = value (Pr v') 0 x.
Definition local_boundary {P} (g : grid) (B : bsz) (bc : nat -> bool -> arr4 (A := P) -> arr4 (A := P)) : Prop :=
  forall d hi v v' s, (forall s', row B (gdim g) d s s' -> value v 0 s' = value v' 0 s') -> value (bc d hi v) 0 s = value (bc d hi v') 0 s.

(** The primitive coarse values the prolongation should start from, at cell s: in a coarser block that block's value; in the block or one of the same level the restriction of [main], the values after the exchange; beyond
    a physical boundary what the boundary function gives. *)
Definition proper {A P} (g : grid) (B : bsz) (bs : list loc) (V : loc -> arr4 (A := A)) (Rs : arr4 (A := A) -> arr4 (A := A)) (c2p : Z -> Z -> Z -> A -> P) (bc : nat -> bool -> arr4 (A := P) -> arr4 (A := P)) (a : loc) (main : arr4 (A := A)) (pw : arr4 (A := P)) (s : cell) : Prop :=
  (exists b y, in_coarser g B bs a s b y /\ value pw 0 s = c2p (s 2%nat) (s 1%nat) (s 0%nat) (value (V b) 0 y)) \/
  (in_level g B bs a s /\ value pw 0 s = c2p (s 2%nat) (s 1%nat) (s 0%nat) (value (Rs main) 0 s)) \/
  (exists d hi, at_wall g a d hi /\ side B (gdim g) true s d = (if hi then 1 else -1) /\ value pw 0 s = value (bc d hi pw) 0 s).
