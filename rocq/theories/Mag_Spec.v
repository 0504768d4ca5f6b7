(** Magnetic fields on refined meshes: what blocks have to agree on. *)
From Coq Require Import List Arith ZArith Bool Permutation Reals.
From Verif Require Import Fv_Model Fv_Spec Loc Tree_Model Tree_Spec Nbr_Model Nbr_Spec Buf_Model Gho_Model Gho_Spec Con_Model Con_Spec Emf_Model Emf_Spec.
Import ListNotations.
Local Open Scope Z_scope.

(** The edge lengths of a block as one array with the direction of the edge as first index; the corrected EMFs, with the copies in directions the mesh does not have, as the update reads them. *)
Definition edge_lengths (G : geom) : arr4 (A := R) := fun n => if Z.eqb n 0 then L1 G else if Z.eqb n 1 then L2 G else L3 G.
Definition edge_fields (d : dims) (E : arr4 (A := R)) : vec := corner_copies d (Fv_Model.mkV (E 0) (E 1) (E 2)).
(** The normal component of the field on face p of direction [dir]. *)
Definition normal (b : vec) (dir : nat) (p : fpos) : R := flux b dir p.
(** All faces of block [b] that lie on face p of block [a], of which there are some. *)
Definition face_parts (g : grid) (B : bsz) (a b : loc) (dir : nat) (p : fpos) (qs : list fpos) : Prop := qs <> [] /\ lists_all qs (fun q => face_of g B dir q /\ on_face g B dir a p b q).
(** Geometry: faces have an area, blocks agree on areas and lengths, and a coarse edge is as long as its parts together. *)
Record magnetic_geometry (g : grid) (B : bsz) (bs : list loc) (G : loc -> geom) : Prop := mkMG {
  mg_area : forall a dir p, In a bs -> (dir < gdim g)%nat -> face_of g B dir p -> area (G a) dir p <> 0%R;
  mg_same : forall a b dir p q, In a bs -> In b bs -> level a = level b -> (dir < gdim g)%nat -> face_of g B dir p -> face_of g B dir q -> same_face g B a p b q -> area (G a) dir p = area (G b) dir q;
  mg_lengths : lengths_ok g B bs (fun a => edge_lengths (G a));
  mg_parts : forall a b c p qs, In a bs -> (c < 3)%nat -> edge_of g B c p -> qs <> [] -> lists_all qs (fun q => part g B bs c a p (b, q)) -> at_edge (edge_lengths (G a)) c p = sum (map (at_edge (edge_lengths (G b)) c) qs) }.
(** Blocks of one level hold the same field on a face they share; the magnetic flux through a coarse face is that through the finer faces of a neighbour on it. *)
Definition fields_agree (g : grid) (B : bsz) (bs : list loc) (G : loc -> geom) (b : loc -> vec) : Prop :=
  (forall a a' dir p q, In a bs -> In a' bs -> level a = level a' -> (dir < gdim g)%nat -> face_of g B dir p -> face_of g B dir q -> same_face g B a p a' q -> normal (b a) dir p = normal (b a') dir q) /\
  (forall a a' dir p qs, In a bs -> In a' bs -> level a' = S (level a) -> (dir < gdim g)%nat -> face_of g B dir p -> face_parts g B a a' dir p qs ->
     (area (G a) dir p * normal (b a) dir p = sum (map (fun q => area (G a') dir q * normal (b a') dir q) qs))%R).
(** No magnetic charge: as much flux enters every cell as leaves it. *)
Definition no_charge (B : bsz) (bs : list loc) (G : loc -> geom) (b : loc -> vec) : Prop := forall a k j i, In a bs -> is_active (block_dims B) k j i -> net_flux (G a) (b a) k j i = 0%R.
(** What the time integrators do with the field registers of all blocks: constrained transport with any computed EMFs, corrected by messages handled in any order; averages of registers; copies. *)
Definition any_order (g : grid) (ml : bool) (t : tree) (es : loc -> list nblock) : Prop := forall a, In a (blocks t) -> exists ns, SearchAndSetNeighbors g ml t a = Some ns /\ Permutation (emf_loop ns) (es a).
Inductive field_step (g : grid) (ml : bool) (t : tree) (B : bsz) (G : loc -> geom) (regs regs' : nat -> loc -> vec) : Prop :=
| Step_advance (r : nat) (E E' : loc -> emf) (es es' : loc -> list nblock) (w : R) (_ : any_order g ml t es) (_ : any_order g ml t es')
    (_ : forall a, In a (blocks t) -> ReceiveEmf g ml t B (fun a => edge_lengths (G a)) E a (es a) (es' a) = Some (E' a))
    (_ : forall s a, regs' s a = if Nat.eqb s r then CT (block_dims B) (G a) (edge_fields (block_dims B) (E' a)) w (regs s a) else regs s a)
| Step_average (r i1 i2 i3 i4 : nat) (w : weights) (_ : sound_weights w) (_ : forall s a, regs' s a = if Nat.eqb s r then WeightedAve (block_dims B) w (regs s a) (regs i1 a) (regs i2 a) (regs i3 a) (regs i4 a) else regs s a)
| Step_copy (r i : nat) (_ : forall s a, regs' s a = if Nat.eqb s r then regs i a else regs s a).
Inductive field_run (g : grid) (ml : bool) (t : tree) (B : bsz) (G : loc -> geom) (regs : nat -> loc -> vec) : (nat -> loc -> vec) -> Prop :=
| Run_start : field_run g ml t B G regs regs
| Run_step (mid fin : nat -> loc -> vec) (_ : field_run g ml t B G regs mid) (_ : field_step g ml t B G mid fin) : field_run g ml t B G regs fin.
