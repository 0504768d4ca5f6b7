(** Ghost zones next to coarser blocks: BoundaryValues::ProlongateBoundaries, src/bvals/bvals_refine.cpp, for cell-centred variables.
    [A] is the whole state of a cell in conserved form, [P] in primitive form; arrays have the single component 0.
    Operators on cells are parameters: [Rs] restriction (RestrictCellCenteredValues, C38), [c2p] and [p2c] equation of state (C44), [Pr] prolongation (ProlongateCellCenteredValues, C39), [bc] physical boundary functions (C47).
    Not modelled: magnetic fields, passive scalars, radiation, cosmic rays, general relativity (restriction of primitives), the change of the conserved variables by floors in ConservedToPrimitive. *)
From Coq Require Import List Arith ZArith Bool.
From Verif Require Import Loc Tags_Model Tree_Model Nbr_Model Buf_Model Gho_Model.
Import ListNotations.
Local Open Scope Z_scope.

(** Loop limits si, ei, .. of the ghost zone of entry [e] in the coarse buffer, 170-199. *)
Definition box (B : bsz) (l : loc) (e : nblock) (d : nat) : rangez :=
  let cn := cng B - 1 in
  if Z.eqb (ox e d) 0 then
    if actv B d then if Z.even (lx l d) then (cs_ B d, ce_ B d + cn) else (cs_ B d - cn, ce_ B d) else (cs_ B d, ce_ B d)
  else if Z.ltb 0 (ox e d) then (ce_ B d + 1, ce_ B d + cn) else (cs_ B d - cn, cs_ B d - 1).
(** nis .. nke, 150-168. *)
Definition nrange (B : bsz) (e : nblock) (d : nat) : rangez := if actv B d then (Z.max (ox e d - 1) (-1), Z.min (ox e d + 1) 1) else (0, 0).
Definition ndirs (B : bsz) (e : nblock) : list dirt :=
  flat_map (fun nk => flat_map (fun nj => map (fun ni => (ni, nj, nk)) (ints (nrange B e 0))) (ints (nrange B e 1))) (ints (nrange B e 2)).
(** RestrictGhostCellsOnSameLevel, 270-297: the range for the neighbour in direction [o]. *)
Definition same_range (B : bsz) (e : nblock) (o : dirt) (d : nat) : rangez :=
  let n := match d with 0%nat => fst (fst o) | 1%nat => snd (fst o) | _ => snd o end in
  if Z.eqb n 0 then (if Z.eqb (ox e d) 1 then ce_ B d else cs_ B d, if Z.eqb (ox e d) (-1) then cs_ B d else ce_ B d)
  else if Z.eqb n 1 then (ce_ B d + 1, ce_ B d + 1) else (cs_ B d - 1, cs_ B d - 1).
(** ApplyPhysicalBoundariesOnCoarseLevel 405-434: f1m, f1p, ..; [hi] is the upper face. *)
Definition face_dir (d : nat) (hi : bool) : dirt := let s := if hi then 1 else -1 in match d with 0%nat => (s, 0, 0) | 1%nat => (0, s, 0) | _ => (0, 0, s) end.
Definition grow (g : grid) (t : tree) (B : bsz) (l : loc) (e : nblock) (d : nat) (hi : bool) : Z :=
  if actv B d then if Z.eqb (ox e d) 0 then if Z.eqb (nblevel g t l (face_dir d hi)) (-1) then 0 else 1 else 1 else 0.
Definition grown (g : grid) (t : tree) (B : bsz) (l : loc) (e : nblock) (d : nat) : rangez :=
  (fst (box B l e d) - grow g t B l e d false, snd (box B l e d) + grow g t B l e d true).
(** apply_bndry_fn_, bvals.cpp 67-79: a physical boundary at this face of the block. *)
Definition applies (g : grid) (l : loc) (d : nat) (hi : bool) : bool :=
  at_face g l d (if hi then 1 else -1) && match gbc g d hi with BOther => true | _ => false end.
(** The cells a boundary function writes there: one layer, 451-533. *)
Definition wall_range (B : bsz) (l : loc) (e : nblock) (d : nat) (hi : bool) (d' : nat) : rangez :=
  if Nat.eqb d' d then if hi then (ce_ B d + 1, ce_ B d + 1) else (cs_ B d - 1, cs_ B d - 1) else box B l e d'.
(** ProlongateGhostCells 612-634: the fine cells of the ghost zone. *)
Definition fine_range (B : bsz) (l : loc) (e : nblock) (d : nat) : rangez :=
  if actv B d then ((fst (box B l e d) - cs_ B d) * 2 + s_ B d, (snd (box B l e d) - cs_ B d) * 2 + s_ B d + 1) else (s_ B d, e_ B d).

Section Values.
Context {A P : Type}.
Definition inrange (r : nat -> rangez) (k j i : Z) : bool :=
  Z.leb (fst (r 0%nat)) i && Z.leb i (snd (r 0%nat)) && (Z.leb (fst (r 1%nat)) j && Z.leb j (snd (r 1%nat))) && (Z.leb (fst (r 2%nat)) k && Z.leb k (snd (r 2%nat))).
(** A loop over a region that sets every cell of it. *)
Definition write {X : Type} (r : nat -> rangez) (f v : arr4 (A := X)) : arr4 (A := X) := fun n k j i => if inrange r k j i then f n k j i else v n k j i.
Definition pointwise {X Y : Type} (f : Z -> Z -> Z -> X -> Y) (v : arr4 (A := X)) : arr4 (A := Y) := fun n k j i => f k j i (v n k j i).
Variable Rs : arr4 (A := A) -> arr4 (A := A).
Variable c2p : Z -> Z -> Z -> A -> P.
Variable p2c : Z -> Z -> Z -> P -> A.
Variable Pr : arr4 (A := P) -> arr4 (A := P).
Variable bc : nat -> bool -> arr4 (A := P) -> arr4 (A := P).

(** The arrays of a block: conserved and primitive variables, and both in the coarse buffer. *)
Record state := mkSt { cons : arr4 (A := A); prim : arr4 (A := P); ccons : arr4 (A := A); cprim : arr4 (A := P) }.

(** LoadBoundaryBufferToCoarser, cc/bvals_cc.cpp 318-327, leaves the restricted values in the coarse buffer. *)
Definition SendCoarse (B : bsz) (l : loc) (es : list nblock) (u cu : arr4 (A := A)) : arr4 (A := A) :=
  fold_left (fun c e => if Nat.ltb (level (n_loc e)) (level l) then write (load_coarser B e) (Rs u) c else c) es cu.
(** Step 1, 171-186. *)
Definition RestrictGhosts (g : grid) (t : tree) (B : bsz) (l : loc) (e : nblock) (u cu : arr4 (A := A)) : arr4 (A := A) :=
  fold_left (fun c (o : dirt) => let '(n1, n2, n3) := o in
    if Z.eqb (Z.abs n1 + Z.abs n2 + Z.abs n3) 0 || negb (Z.eqb (nblevel g t l o) (Z.of_nat (level l))) then c else write (same_range B e o) (Rs u) c) (ndirs B e) cu.
(** Step 2: conversion, then the boundary functions in this order. *)
Definition faces : list (nat * bool) := [(0%nat, false); (0%nat, true); (1%nat, false); (1%nat, true); (2%nat, false); (2%nat, true)].
Definition ApplyWalls (g : grid) (B : bsz) (l : loc) (e : nblock) (fs : list (nat * bool)) (cw : arr4 (A := P)) : arr4 (A := P) :=
  fold_left (fun c (f : nat * bool) => let (d, hi) := f in if Z.eqb (ox e d) 0 && actv B d && applies g l d hi then write (wall_range B l e d hi) (bc d hi c) c else c) fs cw.
(** One coarser neighbour, 145-255; step 3 is ProlongateGhostCells. *)
Definition Prolongate1 (g : grid) (t : tree) (B : bsz) (l : loc) (st : state) (e : nblock) : state :=
  if Nat.ltb (level (n_loc e)) (level l) then
    let cu := RestrictGhosts g t B l e (cons st) (ccons st) in
    let cw := ApplyWalls g B l e faces (write (grown g t B l e) (pointwise c2p cu) (cprim st)) in
    let w := write (fine_range B l e) (Pr cw) (prim st) in
    mkSt (write (fine_range B l e) (pointwise p2c w) (cons st)) w cu cw
  else st.
Definition ProlongateBoundaries (g : grid) (t : tree) (B : bsz) (l : loc) (es : list nblock) (st : state) : state := fold_left (Prolongate1 g t B l) es st.
End Values.

(** The steps of one block in a stage (time_integrator.cpp 994-1000, 1080-1105: SEND_HYD and SETB_HYD, then PROLONG; sending and setting touch different cells of the coarse buffer, the model sends first): [V b], [R b] are the values and the restriction of the other blocks. *)
Definition GhostZones {A P : Type} (c2p : Z -> Z -> Z -> A -> P) p2c Pr bc (g : grid) (ml : bool) (t : tree) (B : bsz) (V : loc -> arr4 (A := A)) (R : loc -> arr4 (A := A) -> arr4 (A := A)) (l : loc) (es : list nblock) (st : state (A := A) (P := P)) : option state :=
  match SetBoundaries g ml t B 0 0 V R l es (cons st, SendCoarse (R l) B l es (cons st) (ccons st)) with
  | None => None
  | Some (u, cu) => Some (ProlongateBoundaries (R l) c2p p2c Pr bc g t B l es (mkSt u (prim st) cu (cprim st)))
  end.
