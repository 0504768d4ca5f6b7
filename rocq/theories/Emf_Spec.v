(** Shared edges: which edges of which blocks are the same, and what their electromotive forces have to satisfy. *)
From Coq Require Import List Arith ZArith Bool Reals.
From Verif Require Import Loc Tree_Model Tree_Spec Nbr_Model Nbr_Spec Buf_Model Gho_Model Gho_Spec Con_Spec.
From Verif Require Fv_Spec.
Import ListNotations.
Local Open Scope Z_scope.

(** An edge is given by the direction 0, 1, 2 along which it runs and its indices (k,j,i); [at_edge] reads an array of EMFs or edge lengths. *)
Definition at_edge (E : arr4 (A := R)) (c : nat) (p : fpos) : R := let '(k, j, i) := p in E (Z.of_nat c) k j i.
(** The edges of the cells of a block. *)
Definition edge_of (g : grid) (B : bsz) (c : nat) (p : fpos) : Prop := forall d, (d < 3)%nat ->
  first B (gdim g) d <= index p d < first B (gdim g) d + size B (gdim g) false d + (if Nat.ltb d (gdim g) && negb (Nat.eqb d c) then 1 else 0).
(** Edges of two blocks of the same level that are the same edge, up to periods of the domain. *)
Definition same_edge (g : grid) (B : bsz) (a : loc) (p : fpos) (b : loc) (q : fpos) : Prop :=
  forall d, (d < gdim g)%nat -> exists s, period_shift g d (domain_cells g B (level a) d) s /\ place g B b q d = place g B a p d + s.
(** Edge q of a block of the next finer level lies on edge p. *)
Definition on_edge (g : grid) (B : bsz) (c : nat) (a : loc) (p : fpos) (b : loc) (q : fpos) : Prop :=
  forall d, (d < gdim g)%nat -> exists s, period_shift g d (domain_cells g B (level b) d) s /\
    (if Nat.eqb d c then 2 * place g B a p d + s <= place g B b q d <= 2 * place g B a p d + 1 + s else place g B b q d = 2 * place g B a p d + s).
(** The edges of blocks of the same level, or of the next finer level, at the place of edge p of block [a]. *)
Definition copy (g : grid) (B : bsz) (bs : list loc) (c : nat) (a : loc) (p : fpos) (x : loc * fpos) : Prop :=
  In (fst x) bs /\ level (fst x) = level a /\ edge_of g B c (snd x) /\ same_edge g B a p (fst x) (snd x).
Definition part (g : grid) (B : bsz) (bs : list loc) (c : nat) (a : loc) (p : fpos) (x : loc * fpos) : Prop :=
  In (fst x) bs /\ level (fst x) = S (level a) /\ edge_of g B c (snd x) /\ on_edge g B c a p (fst x) (snd x).
Definition lists_all {T} (l : list T) (P : T -> Prop) : Prop := NoDup l /\ forall x, In x l <-> P x.
(** Edge lengths: positive, and the same for all blocks of a level that share the edge. *)
Definition lengths_ok (g : grid) (B : bsz) (bs : list loc) (L : loc -> arr4 (A := R)) : Prop :=
  (forall a c p, In a bs -> (c < 3)%nat -> edge_of g B c p -> (0 < at_edge (L a) c p)%R) /\
  (forall a c p x, In a bs -> (c < 3)%nat -> edge_of g B c p -> copy g B bs c a p x -> at_edge (L (fst x)) c (snd x) = at_edge (L a) c p).
(** The EMF of an edge is the mean of those computed by the blocks that touch it; if finer blocks do, of theirs alone, weighted with the lengths of the finer edges. *)
Definition mean_emf (g : grid) (B : bsz) (bs : list loc) (L E : loc -> arr4 (A := R)) (E' : loc -> arr4 (A := R)) : Prop := forall a c p, In a bs -> (c < 3)%nat -> edge_of g B c p ->
  (exists l, lists_all l (part g B bs c a p) /\ l <> [] /\
     (at_edge (E' a) c p * Fv_Spec.sum (map (fun x => at_edge (L (fst x)) c (snd x)) l) = Fv_Spec.sum (map (fun x => at_edge (L (fst x)) c (snd x) * at_edge (E (fst x)) c (snd x)) l))%R) \/
  ((forall x, ~ part g B bs c a p x) /\ exists l, lists_all l (copy g B bs c a p) /\ l <> [] /\
     (at_edge (E' a) c p * INR (length l) = Fv_Spec.sum (map (fun x => at_edge (E (fst x)) c (snd x)) l))%R).
(** All blocks hold the same EMF on an edge they share, and a coarse edge the mean of its parts. *)
Definition single_valued (g : grid) (B : bsz) (bs : list loc) (L E : loc -> arr4 (A := R)) : Prop :=
  (forall a c p x, In a bs -> (c < 3)%nat -> edge_of g B c p -> copy g B bs c a p x -> at_edge (E (fst x)) c (snd x) = at_edge (E a) c p) /\
  (forall a b c p qs, In a bs -> (c < 3)%nat -> edge_of g B c p -> qs <> [] -> lists_all qs (fun q => part g B bs c a p (b, q)) ->
     (at_edge (E a) c p * Fv_Spec.sum (map (fun q => at_edge (L b) c q) qs) = Fv_Spec.sum (map (fun q => at_edge (L b) c q * at_edge (E b) c q) qs))%R).
(** A uniform Cartesian mesh. *)
Definition uniform_lengths (g : grid) (dx : nat -> R) (a : loc) : arr4 (A := R) := fun n _ _ _ => cell_length g dx (level a) (Z.to_nat n).
