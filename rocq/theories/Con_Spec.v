(** Conservation on a refined mesh: what geometry and fluxes have to satisfy, and what leaves the domain. *)
From Coq Require Import List Arith ZArith Bool Reals.
From Verif Require Import Loc Tree_Model Tree_Spec Nbr_Model Nbr_Spec Buf_Model Gho_Model Gho_Spec Fv_Model Fv_Spec Con_Model.
Import ListNotations.
Local Open Scope Z_scope.

(** A face is given by a direction 0, 1, 2 and its indices (k,j,i). *)
Definition fpos := (Z * Z * Z)%type.
Definition index (p : fpos) (d : nat) : Z := let '(k, j, i) := p in match d with 0%nat => i | 1%nat => j | _ => k end.
Definition area (G : geom) (dir : nat) (p : fpos) : R := at_ (match dir with 0%nat => A1 G | 1%nat => A2 G | _ => A3 G end) p.
Definition flux (F : vec) (dir : nat) (p : fpos) : R := at_ (match dir with 0%nat => x1 F | 1%nat => x2 F | _ => x3 F end) p.
(** The faces of the cells of a block. *)
Definition face_of (g : grid) (B : bsz) (dir : nat) (p : fpos) : Prop := forall d, (d < 3)%nat ->
  first B (gdim g) d <= index p d < first B (gdim g) d + size B (gdim g) false d + (if Nat.eqb d dir then 1 else 0).
(** The place of a face, counted in cells of its level from the edge of the domain. *)
Definition place (g : grid) (B : bsz) (a : loc) (p : fpos) (d : nat) : Z := coord d a * cells_in B d + (index p d - first B (gdim g) d).
Definition domain_cells (g : grid) (B : bsz) (lev d : nat) : Z := gnrb g d * 2 ^ Z.of_nat (lev - groot g) * cells_in B d.
(** Faces of two blocks of the same level that are the same face, up to periods of the domain. *)
Definition same_face (g : grid) (B : bsz) (a : loc) (p : fpos) (b : loc) (q : fpos) : Prop :=
  forall d, (d < gdim g)%nat -> exists s, period_shift g d (domain_cells g B (level a) d) s /\ place g B b q d = place g B a p d + s.
(** Face q of a block of the next finer level lies on face p. *)
Definition on_face (g : grid) (B : bsz) (dir : nat) (a : loc) (p : fpos) (b : loc) (q : fpos) : Prop :=
  forall d, (d < gdim g)%nat -> exists s, period_shift g d (domain_cells g B (level b) d) s /\
    (if Nat.eqb d dir then place g B b q d = 2 * place g B a p d + s else 2 * place g B a p d + s <= place g B b q d <= 2 * place g B a p d + 1 + s).

(** Geometry: no cell without volume; a face has the same area for both blocks; the area of a coarse face next to a finer block is that of the finer faces on it, and not zero. *)
Record geometry_ok (g : grid) (B : bsz) (bs : list loc) (G : loc -> geom) : Prop := mkGO {
  go_volume : forall a k j i, In a bs -> is_active (block_dims B) k j i -> V (G a) k j i <> 0%R;
  go_same : forall a b dir p q, In a bs -> In b bs -> level a = level b -> (dir < gdim g)%nat -> face_of g B dir p -> face_of g B dir q -> same_face g B a p b q -> area (G a) dir p = area (G b) dir q;
  go_parts : forall a b dir p qs, In a bs -> In b bs -> level b = S (level a) -> (dir < gdim g)%nat -> face_of g B dir p -> NoDup qs -> qs <> [] ->
    (forall q, In q qs <-> face_of g B dir q /\ on_face g B dir a p b q) -> area (G a) dir p = sum (map (area (G b) dir) qs) /\ area (G a) dir p <> 0%R }.
(** Two blocks of the same level have computed the same flux through the faces they share. *)
Definition fluxes_agree (g : grid) (B : bsz) (bs : list loc) (F : loc -> vec) : Prop := forall a b dir p q, In a bs -> In b bs -> level a = level b -> (dir < gdim g)%nat ->
  face_of g B dir p -> face_of g B dir q -> same_face g B a p b q -> flux (F a) dir p = flux (F b) dir q.

(** The sides of a block (0 .. 5: inner x1, outer x1, ...) on the boundary of the domain that are not periodic. *)
Definition wall (g : grid) (a : loc) (fid : nat) : bool :=
  let d := (fid / 2)%nat in let outer := Nat.eqb (fid mod 2) 1 in
  Z.eqb (coord d a) (if outer then gnrb g d * 2 ^ Z.of_nat (level a - groot g) - 1 else 0) && negb (is_per (gbc g d outer)).
Definition content (B : bsz) (bs : list loc) (G : loc -> geom) (U : loc -> arr) : R := sum (map (fun a => total (block_dims B) (G a) (U a)) bs).
(** What leaves the domain through its walls per unit of time. *)
Definition outflow (g : grid) (B : bsz) (bs : list loc) (G : loc -> geom) (F : loc -> vec) : R :=
  sum (map (fun a => sum (map (fun fid => flow (G a) (F a) fid (side (block_dims B) fid)) (filter (wall g a) (sides (block_dims B))))) bs).

(** A uniform Cartesian mesh: root cells of the given lengths, halved from level to level in the directions of the mesh. *)
Definition cell_length (g : grid) (dx : nat -> R) (lev d : nat) : R := if Nat.ltb d (gdim g) then (dx d / 2 ^ (lev - groot g))%R else dx d.
Definition uniform (g : grid) (dx : nat -> R) (a : loc) : geom := let h d := cell_length g dx (level a) d in
  mkG (fun _ _ _ => h 1%nat * h 2%nat)%R (fun _ _ _ => h 0%nat * h 2%nat)%R (fun _ _ _ => h 0%nat * h 1%nat)%R (fun _ _ _ => h 0%nat) (fun _ _ _ => h 1%nat) (fun _ _ _ => h 2%nat) (fun _ _ _ => h 0%nat * h 1%nat * h 2%nat)%R.
(** The cells on the line through a face: cell m, counted from the first one behind the face. *)
Definition line (p : fpos) (dir : nat) (m : Z) : cell := fun d => if Nat.eqb d dir then index p d + m else index p d.
(** Fluxes computed from the ghost-zone-filled variables, each from the ng cells on either side of its face; [phi] may depend on the face, but not on which block it is seen from. *)
Definition stencil_flux {A} (g : grid) (B : bsz) (bs : list loc) (nl nu : Z) (main : loc -> arr4 (A := A)) (phi : loc -> nat -> fpos -> (Z -> Z -> A) -> R) (F : loc -> vec) : Prop :=
  (forall a dir p u v, (forall n m, nl <= n <= nu -> - ng B <= m < ng B -> u n m = v n m) -> phi a dir p u = phi a dir p v) /\
  (forall a b dir p q u, In a bs -> In b bs -> level a = level b -> same_face g B a p b q -> phi a dir p u = phi b dir q u) /\
  (forall a dir p, In a bs -> (dir < gdim g)%nat -> face_of g B dir p -> flux (F a) dir p = phi a dir p (fun n m => value (main a) n (line p dir m))).
