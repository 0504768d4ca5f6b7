(** Ghost zones of cell-centred variables: BoundaryVariable, src/bvals/bvals_var.cpp, and CellCenteredBoundaryVariable, src/bvals/cc/bvals_cc.cpp.
    The packing of a region into a buffer (BufferUtility, C25) appears as the list of its values in loop order.
    Not modelled: poles (nb.polar, PolarBoundarySingleAzimuthalBlock) and shearing boundaries. *)
From Coq Require Import List Arith ZArith Bool.
From Verif Require Import Loc Tags_Model Tree_Model Nbr_Model Buf_Model.
Import ListNotations.
Local Open Scope Z_scope.

(** The indices of a block by direction (meshblock.cpp 60-110, in Buf_Model): first and last own cell, the same in the coarse buffer, number of cells, "nx > 1" (x1 always counts). *)
Definition s_ (B : bsz) (d : nat) : Z := match d with 0%nat => is_ B | 1%nat => js_ B | _ => ks_ B end.
Definition e_ (B : bsz) (d : nat) : Z := match d with 0%nat => ie_ B | 1%nat => je_ B | _ => ke_ B end.
Definition cs_ (B : bsz) (d : nat) : Z := match d with 0%nat => cis_ B | 1%nat => cjs_ B | _ => cks_ B end.
Definition ce_ (B : bsz) (d : nat) : Z := match d with 0%nat => cie_ B | 1%nat => cje_ B | _ => cke_ B end.
Definition nx_ (B : bsz) (d : nat) : Z := match d with 0%nat => bn1 B | 1%nat => bn2 B | _ => bn3 B end.
Definition actv (B : bsz) (d : nat) : bool := match d with 0%nat => true | 1%nat => act (bn2 B) | _ => act (bn3 B) end.
Definition lx (l : loc) (d : nat) : Z := match d with 0%nat => lx1 l | 1%nat => lx2 l | _ => lx3 l end.
(** nb.ni.ox1 .. and the index (fi1 or fi2) that selects the half in a direction, bvals_cc.cpp 352-373, 486-521. *)
Definition ox (e : nblock) (d : nat) : Z := match d with 0%nat => n_o1 e | 1%nat => n_o2 e | _ => n_o3 e end.
Definition fsel (e : nblock) (d : nat) : Z :=
  match d with
  | 0%nat => n_f1 e
  | 1%nat => if Z.eqb (n_o1 e) 0 then n_f2 e else n_f1 e
  | _ => if negb (Z.eqb (n_o1 e) 0) && negb (Z.eqb (n_o2 e) 0) then n_f1 e else n_f2 e
  end.

Definition rangez := (Z * Z)%type.
(** LoadBoundaryBufferSameLevel, 294-299. *)
Definition load_same (B : bsz) (e : nblock) (d : nat) : rangez :=
  (if Z.ltb 0 (ox e d) then e_ B d - ng B + 1 else s_ B d, if Z.ltb (ox e d) 0 then s_ B d + ng B - 1 else e_ B d).
(** LoadBoundaryBufferToCoarser, 318-323, in the coarse buffer. *)
Definition load_coarser (B : bsz) (e : nblock) (d : nat) : rangez :=
  let cn := ng B - 1 in (if Z.ltb 0 (ox e d) then ce_ B d - cn else cs_ B d, if Z.ltb (ox e d) 0 then cs_ B d + cn else ce_ B d).
(** LoadBoundaryBufferToFiner, 343-373. *)
Definition load_finer (B : bsz) (e : nblock) (d : nat) : rangez :=
  let cn := cng B - 1 in
  let s := if Z.ltb 0 (ox e d) then e_ B d - cn else s_ B d in
  let t := if Z.ltb (ox e d) 0 then s_ B d + cn else e_ B d in
  if Z.eqb (ox e d) 0 && actv B d then
    if Z.eqb (fsel e d) 1 then (s + (nx_ B d / 2 - cng B), t) else (s, t - (nx_ B d / 2 - cng B))
  else (s, t).
(** SetBoundarySameLevel, 391-399. *)
Definition set_same (B : bsz) (e : nblock) (d : nat) : rangez :=
  if Z.eqb (ox e d) 0 then (s_ B d, e_ B d) else if Z.ltb 0 (ox e d) then (e_ B d + 1, e_ B d + ng B) else (s_ B d - ng B, s_ B d - 1).
(** SetBoundaryFromCoarser, 436-466, into the coarse buffer of the block at [l]. *)
Definition set_coarser (B : bsz) (l : loc) (e : nblock) (d : nat) : rangez :=
  if Z.eqb (ox e d) 0 then
    if actv B d then if Z.even (lx l d) then (cs_ B d, ce_ B d + cng B) else (cs_ B d - cng B, ce_ B d) else (cs_ B d, ce_ B d)
  else if Z.ltb 0 (ox e d) then (ce_ B d + 1, ce_ B d + cng B) else (cs_ B d - cng B, cs_ B d - 1).
(** SetBoundaryFromFiner, 499-536. *)
Definition set_finer (B : bsz) (e : nblock) (d : nat) : rangez :=
  if Z.eqb (ox e d) 0 then
    if actv B d then if Z.eqb (fsel e d) 1 then (s_ B d + nx_ B d / 2, e_ B d) else (s_ B d, e_ B d - nx_ B d / 2) else (s_ B d, e_ B d)
  else if Z.ltb 0 (ox e d) then (e_ B d + 1, e_ B d + ng B) else (s_ B d - ng B, s_ B d - 1).

Section Values.
Context {A : Type}.
(** An array of a variable with components n, at (n,k,j,i). *)
Definition arr4 := Z -> Z -> Z -> Z -> A.
Definition ints (r : rangez) : list Z := map (fun n => fst r + Z.of_nat n) (seq 0 (Z.to_nat (snd r - fst r + 1))).
(** The positions of a region in loop order; PackData, UnpackData. *)
Definition region (nl nu : Z) (r : nat -> rangez) : list (Z * Z * Z * Z) :=
  flat_map (fun n => flat_map (fun k => flat_map (fun j => map (fun i => (n, k, j, i)) (ints (r 0%nat))) (ints (r 1%nat))) (ints (r 2%nat))) (ints (nl, nu)).
Definition get (v : arr4) (p : Z * Z * Z * Z) : A := let '(n, k, j, i) := p in v n k j i.
Definition put (v : arr4) (p : Z * Z * Z * Z) (x : A) : arr4 := let '(n, k, j, i) := p in
  fun n' k' j' i' => if Z.eqb n' n && Z.eqb k' k && Z.eqb j' j && Z.eqb i' i then x else v n' k' j' i'.
Definition Pack (v : arr4) (ps : list (Z * Z * Z * Z)) : list A := map (get v) ps.
Fixpoint Unpack (ps : list (Z * Z * Z * Z)) (msg : list A) (v : arr4) : arr4 :=
  match ps, msg with p :: ps, x :: msg => Unpack ps msg (put v p x) | _, _ => v end.

(** What a block of level [lev] loads for one of its neighbours, bvals_var.cpp 219-224.  [restricted] is what RestrictCellCenteredValues (C38) computes from the block's values [v];
    the code stores it in the coarse buffer over the loaded region and packs that region. *)
Definition Load (B : bsz) (nl nu : Z) (lev : nat) (v restricted : arr4) (e : nblock) : list A :=
  if Nat.eqb (level (n_loc e)) lev then Pack v (region nl nu (load_same B e))
  else if Nat.ltb (level (n_loc e)) lev then Pack restricted (region nl nu (load_coarser B e))
  else Pack v (region nl nu (load_finer B e)).
(** SetBoundaries, 280-289: one neighbour; the state is the variable and its coarse buffer. *)
Definition Set1 (B : bsz) (nl nu : Z) (l : loc) (e : nblock) (msg : list A) (st : arr4 * arr4) : arr4 * arr4 :=
  let (var, cbuf) := st in
  if Nat.eqb (level (n_loc e)) (level l) then (Unpack (region nl nu (set_same B e)) msg var, cbuf)
  else if Nat.ltb (level (n_loc e)) (level l) then (var, Unpack (region nl nu (set_coarser B l e)) msg cbuf)
  else (Unpack (region nl nu (set_finer B e)) msg var, cbuf).

(** SendBoundaryBuffers 215-233 fills recv[targetid] of the destination (CopyVariableBufferSameProcess 108-119, or the message with that tag, C16): what arrives in the buffer of entry [e] of the block at [l]
    is what the neighbour loaded for an entry of its own that names this block and this buffer.  [V b] are the values of block b, [R b v] its restricted values. *)
Definition targets (l : loc) (k : nat) (e' : nblock) : bool := loc_eqb (n_loc e') l && match n_target e' with Some k' => Nat.eqb k' k | None => false end.
Definition arriving (g : grid) (ml : bool) (t : tree) (B : bsz) (nl nu : Z) (V : loc -> arr4) (R : loc -> arr4 -> arr4) (l : loc) (e : nblock) : option (list A) :=
  match SearchAndSetNeighbors g ml t (n_loc e) with
  | None => None
  | Some ns => match find (targets l (n_bufid e)) ns with
               | None => None
               | Some e' => Some (Load B nl nu (level (n_loc e)) (V (n_loc e)) (R (n_loc e) (V (n_loc e))) e')
               end
  end.
(** SetBoundaries for the entries [es]. *)
Fixpoint SetBoundaries (g : grid) (ml : bool) (t : tree) (B : bsz) (nl nu : Z) (V : loc -> arr4) (R : loc -> arr4 -> arr4) (l : loc) (es : list nblock) (st : arr4 * arr4) : option (arr4 * arr4) :=
  match es with
  | [] => Some st
  | e :: es => match arriving g ml t B nl nu V R l e with
               | None => None
               | Some msg => SetBoundaries g ml t B nl nu V R l es (Set1 B nl nu l e msg st)
               end
  end.
End Values.

(** ComputeVariableBufferSize, 239-262: the allocated number of values (times the number of components [nu] + 1). *)
Definition ComputeVariableBufferSize (B : bsz) (multilevel : bool) (nu o1 o2 o3 : Z) : Z :=
  let c2 := cng B * f2 B in let c3 := cng B * f3 B in
  let pick (o a b : Z) := if Z.eqb o 0 then a else b in
  let size := pick o1 (bn1 B) (ng B) * pick o2 (bn2 B) (ng B) * pick o3 (bn3 B) (ng B) in
  let f2c := pick o1 ((bn1 B + 1) / 2) (ng B) * pick o2 ((bn2 B + 1) / 2) (ng B) * pick o3 ((bn3 B + 1) / 2) (ng B) in
  let c2f := pick o1 ((bn1 B + 1) / 2 + cng B) (cng B) * pick o2 ((bn2 B + 1) / 2 + c2) (cng B) * pick o3 ((bn3 B + 1) / 2 + c3) (cng B) in
  (if multilevel then Z.max (Z.max size c2f) f2c else size) * (nu + 1).
(** The sizes the mesh constructor accepts, src/mesh/mesh.cpp 253-282, 340-347 and mesh_refinement.cpp 42-48 for a mesh of [dim] dimensions; xorder is read from the input. *)
Definition block_size_ok (dim : nat) (multilevel : bool) (xorder : Z) (B : bsz) : bool :=
  let all (p : Z -> bool) := p (bn1 B) && (Nat.leb dim 1 || p (bn2 B)) && (Nat.leb dim 2 || p (bn3 B)) in
  let slimit := Z.max (2 * (xorder - 1)) (ng B) in
  if multilevel then all (fun n => Z.leb slimit n) && all (fun n => Z.eqb (n mod 2) 0) && Z.eqb (ng B mod 2) 0 else all (fun n => Z.leb (ng B) n).
