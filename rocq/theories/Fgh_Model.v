(** Ghost zones of magnetic fields: FaceCenteredBoundaryVariable, src/bvals/fc/bvals_fc.cpp.
    A field is one array with the direction of the face as first index: x1f, x2f, x3f are components 0, 1, 2.  A message is the list of its values in loop order.
    Not modelled: poles (nb.polar, PolarBoundarySingleAzimuthalBlock, PolarFieldBoundaryAverage) and shearing boundaries. *)
From Coq Require Import List Arith ZArith Bool.
From Verif Require Import Loc Tags_Model Tree_Model Nbr_Model Buf_Model Gho_Model.
Import ListNotations.
Local Open Scope Z_scope.

Definition not_face (e : nblock) : bool := match n_type e with face => false | _ => true end.
(** The limits of direction [d] in the loop over component [c]; other directions than that of the face are as for cells (the code repeats them for each component). *)
(** LoadBoundaryBufferSameLevel, 344-397. *)
Definition fload_same (B : bsz) (ml : bool) (e : nblock) (c d : nat) : rangez :=
  if Nat.eqb d c then
    let r := if negb (actv B d) then (s_ B d, e_ B d)
             else if Z.eqb (ox e d) 0 then (s_ B d, e_ B d + 1)
             else if Z.ltb 0 (ox e d) then (e_ B d - ng B + 1, e_ B d) else (s_ B d + 1, s_ B d + ng B) in
    if ml && not_face e then (if Z.ltb (ox e d) 0 then fst r - 1 else fst r, if Z.ltb 0 (ox e d) then snd r + 1 else snd r) else r
  else load_same B e d.
(** LoadBoundaryBufferToCoarser, 403-470, in the coarse buffer. *)
Definition fload_coarser (B : bsz) (e : nblock) (c d : nat) : rangez :=
  if Nat.eqb d c then
    let cn := ng B in
    let r := if negb (actv B d) then (cs_ B d, ce_ B d)
             else if Z.eqb (ox e d) 0 then (cs_ B d, ce_ B d + 1)
             else if Z.ltb 0 (ox e d) then (ce_ B d - cn + 1, ce_ B d) else (cs_ B d + 1, cs_ B d + cn) in
    if not_face e then (if Z.ltb (ox e d) 0 then fst r - 1 else fst r, if Z.ltb 0 (ox e d) then snd r + 1 else snd r) else r
  else load_coarser B e d.
(** LoadBoundaryBufferToFiner, 476-575. *)
Definition fload_finer (B : bsz) (e : nblock) (c d : nat) : rangez :=
  if Nat.eqb d c then
    if Z.eqb (ox e d) 0 then
      if actv B d then
        if Z.eqb (fsel e d) 1 then (s_ B d + (nx_ B d / 2 - cng B), e_ B d + 1) else (s_ B d, e_ B d + 1 - (nx_ B d / 2 - cng B))
      else (s_ B d, e_ B d)
    else if Z.ltb 0 (ox e d) then (e_ B d + 1 - cng B, e_ B d + 1) else (s_ B d, s_ B d + cng B)
  else load_finer B e d.
(** SetBoundarySameLevel, 583-684. *)
Definition fset_same (B : bsz) (ml : bool) (e : nblock) (c d : nat) : rangez :=
  if Nat.eqb d c then
    let r := if negb (actv B d) then (s_ B d, e_ B d)
             else if Z.eqb (ox e d) 0 then (s_ B d, e_ B d + 1)
             else if Z.ltb 0 (ox e d) then (e_ B d + 2, e_ B d + ng B + 1) else (s_ B d - ng B, s_ B d - 1) in
    if ml && not_face e then (if Z.ltb 0 (ox e d) then fst r - 1 else fst r, if Z.ltb (ox e d) 0 then snd r + 1 else snd r) else r
  else set_same B e d.
(** SetBoundaryFromCoarser, 690-806, into the coarse buffer of the block at [l]. *)
Definition fset_coarser (B : bsz) (l : loc) (e : nblock) (c d : nat) : rangez :=
  if Nat.eqb d c then
    if Z.eqb (ox e d) 0 then
      if actv B d then if Z.even (lx l d) then (cs_ B d, ce_ B d + 1 + cng B) else (cs_ B d - cng B, ce_ B d + 1) else (cs_ B d, ce_ B d)
    else if Z.ltb 0 (ox e d) then (ce_ B d + 1, ce_ B d + 1 + cng B) else (cs_ B d - cng B, cs_ B d)
  else set_coarser B l e d.
(** SetBoundaryFromFiner, 813-971. *)
Definition fset_finer (B : bsz) (e : nblock) (c d : nat) : rangez :=
  if Nat.eqb d c then
    let r := if Z.eqb (ox e d) 0 then
               if actv B d then if Z.eqb (fsel e d) 1 then (s_ B d + nx_ B d / 2, e_ B d + 1) else (s_ B d, e_ B d + 1 - nx_ B d / 2) else (s_ B d, e_ B d)
             else if Z.ltb 0 (ox e d) then (e_ B d + 2, e_ B d + ng B + 1) else (s_ B d - ng B, s_ B d - 1) in
    if not_face e then (if Z.ltb 0 (ox e d) then fst r - 1 else fst r, if Z.ltb (ox e d) 0 then snd r + 1 else snd r) else r
  else set_finer B e d.

Section Values.
Context {A : Type}.
Local Notation arr4 := (arr4 (A := A)).
(** The three components one after the other in one buffer. *)
Definition FPack (v : arr4) (r : nat -> nat -> rangez) : list A := flat_map (fun c => Pack v (region (Z.of_nat c) (Z.of_nat c) (r c))) [0; 1; 2]%nat.
(** In a direction of one cell the second face gets a copy of the first: 641-645 and 676-682, 760-764 and 799-804, 925-929 and 964-970. *)
Definition inr_ (r : rangez) (z : Z) : bool := Z.leb (fst r) z && Z.leb z (snd r).
Definition second_face (B : bsz) (c : nat) (r : nat -> rangez) (v : arr4) : arr4 := fun n k j i =>
  let '(k', j', i') := match c with 0%nat => (k, j, i - 1) | 1%nat => (k, j - 1, i) | _ => (k - 1, j, i) end in
  if negb (actv B c) && Z.eqb n (Z.of_nat c) && inr_ (r 2%nat) k' && inr_ (r 1%nat) j' && inr_ (r 0%nat) i' then v n k' j' i' else v n k j i.
Definition FUnpack1 (B : bsz) (r : nat -> nat -> rangez) (c : nat) (mv : list A * arr4) : list A * arr4 :=
  let ps := region (Z.of_nat c) (Z.of_nat c) (r c) in (skipn (length ps) (fst mv), second_face B c (r c) (Unpack ps (fst mv) (snd mv))).
Definition FUnpack (B : bsz) (r : nat -> nat -> rangez) (msg : list A) (v : arr4) : arr4 := snd (FUnpack1 B r 2 (FUnpack1 B r 1 (FUnpack1 B r 0 (msg, v)))).
(** What a block of level [lev] loads for a neighbour, bvals_var.cpp 219-224; [restricted] is what RestrictFieldX1, X2, X3 (C38) compute from the block's field. *)
Definition FLoad (B : bsz) (ml : bool) (lev : nat) (v restricted : arr4) (e : nblock) : list A :=
  if Nat.eqb (level (n_loc e)) lev then FPack v (fload_same B ml e)
  else if Nat.ltb (level (n_loc e)) lev then FPack restricted (fload_coarser B e)
  else FPack v (fload_finer B e).
(** BoundaryVariable::SetBoundaries, bvals_var.cpp 280-289, one neighbour; the state is the field and its coarse buffer. *)
Definition FSet1 (B : bsz) (ml : bool) (l : loc) (e : nblock) (msg : list A) (st : arr4 * arr4) : arr4 * arr4 :=
  let (var, cbuf) := st in
  if Nat.eqb (level (n_loc e)) (level l) then (FUnpack B (fset_same B ml e) msg var, cbuf)
  else if Nat.ltb (level (n_loc e)) (level l) then (var, FUnpack B (fset_coarser B l e) msg cbuf)
  else (FUnpack B (fset_finer B e) msg var, cbuf).
(** What arrives in the buffer of entry [e], as for cell-centred variables (Gho_Model). *)
Definition farriving (g : grid) (ml : bool) (t : tree) (B : bsz) (V : loc -> arr4) (R : loc -> arr4 -> arr4) (l : loc) (e : nblock) : option (list A) :=
  match SearchAndSetNeighbors g ml t (n_loc e) with
  | None => None
  | Some ns => match find (targets l (n_bufid e)) ns with
               | None => None
               | Some e' => Some (FLoad B ml (level (n_loc e)) (V (n_loc e)) (R (n_loc e) (V (n_loc e))) e')
               end
  end.
(** SetBoundaries, 978-985, for the entries [es]. *)
Fixpoint SetFaceBoundaries (g : grid) (ml : bool) (t : tree) (B : bsz) (V : loc -> arr4) (R : loc -> arr4 -> arr4) (l : loc) (es : list nblock) (st : arr4 * arr4) : option (arr4 * arr4) :=
  match es with
  | [] => Some st
  | e :: es => match farriving g ml t B V R l e with
               | None => None
               | Some msg => SetFaceBoundaries g ml t B V R l es (FSet1 B ml l e msg st)
               end
  end.
End Values.

(** The sizes of a message by its kind, computed in SetupPersistentMPI 1219-1262: same level, to a coarser block, to a finer block. *)
Definition pick (o a b : Z) : Z := if Z.eqb o 0 then a else b.
Definition grown_by (B : bsz) (edge : bool) (o n : Z) : Z := if edge && negb (Z.eqb o 0) then n / ng B * (ng B + 1) else n.
Definition fsz_same (B : bsz) (ml edge : bool) (o1 o2 o3 : Z) : Z :=
  let size1 := pick o1 (bn1 B + 1) (ng B) * pick o2 (bn2 B) (ng B) * pick o3 (bn3 B) (ng B) in
  let size2 := pick o1 (bn1 B) (ng B) * pick o2 (bn2 B + f2 B) (ng B) * pick o3 (bn3 B) (ng B) in
  let size3 := pick o1 (bn1 B) (ng B) * pick o2 (bn2 B) (ng B) * pick o3 (bn3 B + f3 B) (ng B) in
  if ml then grown_by B edge o1 size1 + grown_by B edge o2 size2 + grown_by B edge o3 size3 else size1 + size2 + size3.
Definition fsz_coarser (B : bsz) (edge : bool) (o1 o2 o3 : Z) : Z :=
  let h1 := (bn1 B + 1) / 2 in let h2 := (bn2 B + 1) / 2 in let h3 := (bn3 B + 1) / 2 in
  grown_by B edge o1 (pick o1 (h1 + 1) (ng B) * pick o2 h2 (ng B) * pick o3 h3 (ng B))
  + grown_by B edge o2 (pick o1 h1 (ng B) * pick o2 (h2 + f2 B) (ng B) * pick o3 h3 (ng B))
  + grown_by B edge o3 (pick o1 h1 (ng B) * pick o2 h2 (ng B) * pick o3 (h3 + f3 B) (ng B)).
Definition fsz_finer (B : bsz) (o1 o2 o3 : Z) : Z :=
  let h1 := (bn1 B + 1) / 2 + cng B in let h2 := (bn2 B + 1) / 2 + cng B * f2 B in let h3 := (bn3 B + 1) / 2 + cng B * f3 B in
  pick o1 (h1 + 1) (cng B + 1) * pick o2 h2 (cng B) * pick o3 h3 (cng B)
  + pick o1 h1 (cng B) * pick o2 (h2 + f2 B) (cng B + 1) * pick o3 h3 (cng B)
  + pick o1 h1 (cng B) * pick o2 h2 (cng B) * pick o3 (h3 + f3 B) (cng B + 1).
(** ssize and rsize of a block of level [lev], 1263-1268. *)
Definition fc_ssize (B : bsz) (ml : bool) (lev : nat) (e : nblock) : Z :=
  if Nat.eqb (level (n_loc e)) lev then fsz_same B ml (not_face e) (n_o1 e) (n_o2 e) (n_o3 e)
  else if Nat.ltb (level (n_loc e)) lev then fsz_coarser B (not_face e) (n_o1 e) (n_o2 e) (n_o3 e) else fsz_finer B (n_o1 e) (n_o2 e) (n_o3 e).
Definition fc_rsize (B : bsz) (ml : bool) (lev : nat) (e : nblock) : Z :=
  if Nat.eqb (level (n_loc e)) lev then fsz_same B ml (not_face e) (n_o1 e) (n_o2 e) (n_o3 e)
  else if Nat.ltb (level (n_loc e)) lev then fsz_finer B (n_o1 e) (n_o2 e) (n_o3 e) else fsz_coarser B (not_face e) (n_o1 e) (n_o2 e) (n_o3 e).
(** ComputeVariableBufferSize, 235-297: the allocated size of the buffers for direction (o1, o2, o3), an edge or corner if [edge]. *)
Definition ComputeFaceBufferSize (B : bsz) (ml edge : bool) (o1 o2 o3 : Z) : Z :=
  if ml then Z.max (fsz_same B ml edge o1 o2 o3) (Z.max (fsz_finer B o1 o2 o3) (fsz_coarser B edge o1 o2 o3)) else fsz_same B ml edge o1 o2 o3.
