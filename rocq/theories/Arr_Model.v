(** AthenaArray, src/athena_arrays.hpp.  C++ int is unbounded here; element types are not modelled (one memory cell per element). *)
From Coq Require Import List Arith ZArith Bool.
Import ListNotations.
Local Open Scope Z_scope.

(** The extents nx1_ .. nx6_ (166-170). *)
Record dims := mkD { nx1 : Z; nx2 : Z; nx3 : Z; nx4 : Z; nx5 : Z; nx6 : Z }.
(** operator() with 1 to 6 indices (121-156): the element of pdata_ that is accessed. *)
Definition at1 (D : dims) (n : Z) : Z := n.
Definition at2 (D : dims) (n i : Z) : Z := i + nx1 D * n.
Definition at3 (D : dims) (n j i : Z) : Z := i + nx1 D * (j + nx2 D * n).
Definition at4 (D : dims) (n k j i : Z) : Z := i + nx1 D * (j + nx2 D * (k + nx3 D * n)).
Definition at5 (D : dims) (m n k j i : Z) : Z := i + nx1 D * (j + nx2 D * (k + nx3 D * (n + nx4 D * m))).
Definition at6 (D : dims) (p m n k j i : Z) : Z := i + nx1 D * (j + nx2 D * (k + nx3 D * (n + nx4 D * (m + nx5 D * p)))).
(** The number of elements allocated by AllocateData (519-529) and, in the same product, by NewAthenaArray (351-441). *)
Definition size (D : dims) : Z := nx1 D * nx2 D * nx3 D * nx4 D * nx5 D * nx6 D.

(** InitWithShallowSlice (291-346): the displacement of pdata_ and the extents of the slice.  For any other [dim] the extents
    keep their old values: [None]. *)
Definition slice (D : dims) (dim indx nvar : Z) : option (Z * dims) :=
  if Z.eqb dim 6 then Some (indx * (nx1 D * nx2 D * nx3 D * nx4 D * nx5 D), mkD (nx1 D) (nx2 D) (nx3 D) (nx4 D) (nx5 D) nvar)
  else if Z.eqb dim 5 then Some (indx * (nx1 D * nx2 D * nx3 D * nx4 D), mkD (nx1 D) (nx2 D) (nx3 D) (nx4 D) nvar 1)
  else if Z.eqb dim 4 then Some (indx * (nx1 D * nx2 D * nx3 D), mkD (nx1 D) (nx2 D) (nx3 D) nvar 1 1)
  else if Z.eqb dim 3 then Some (indx * (nx1 D * nx2 D), mkD (nx1 D) (nx2 D) nvar 1 1 1)
  else if Z.eqb dim 2 then Some (indx * nx1 D, mkD (nx1 D) nvar 1 1 1 1)
  else if Z.eqb dim 1 then Some (indx, mkD nvar 1 1 1 1 1)
  else None.
(** ShallowSlice3DToPencil (536-550). *)
Definition pencil (D : dims) (k j il n : Z) : Z * dims := ((k * nx2 D + j) * nx1 D + il, mkD n 1 1 1 1 1).

(** ** Objects and storage.  pdata_ and state_ may be indeterminate: the copy and move constructors (183-199, 225-250) set them only
    if the source has data. *)
Inductive ptr := Pnull | Pto (blk : nat) (off : Z) | Pindet.
Inductive status := Sempty | Sslice | Salloc | Sindet.
Record obj := mkO { pdata : ptr; ext : dims; st : status }.
(** Storage blocks by number: [Some n] for a live block of n elements, [None] after delete[]; objects by number: [None] if
    not constructed or destroyed. *)
Record world := mkW { heap : list (option Z); objs : list (option obj) }.
Fixpoint set {A} (l : list A) (n : nat) (x : A) : list A :=
  match l, n with [], _ => [] | _ :: l, O => x :: l | y :: l, S n => y :: set l n x end.
Definition getobj (w : world) (i : nat) : option obj := match nth_error (objs w) i with Some (Some o) => Some o | _ => None end.
Definition setobj (w : world) (i : nat) (o : obj) : world := mkW (heap w) (set (objs w) i (Some o)).
Definition newobj (w : world) (o : obj) : world := mkW (heap w) (objs w ++ [Some o]).
Definition alloc (w : world) (n : Z) : nat * world := (length (heap w), mkW (heap w ++ [Some n]) (objs w)).
(** Accessing elements [0, n) behind a pointer is defined if they lie in one live block. *)
Definition accessible (w : world) (p : ptr) (n : Z) : bool :=
  Z.leb n 0 || match p with Pto b off => match nth_error (heap w) b with Some (Some m) => Z.leb 0 off && Z.leb (off + n) m | _ => false end | _ => false end.
(** DeleteAthenaArray (445-459); delete[] of anything but null or the start of a live block, or a switch on an indeterminate
    state, is undefined behaviour: [None]. *)
Definition Delete (w : world) (o : obj) : option (world * obj) :=
  match st o with
  | Sempty | Sslice => Some (w, mkO Pnull (ext o) (st o))
  | Salloc => match pdata o with
              | Pnull => Some (w, mkO Pnull (ext o) Sempty)
              | Pto b 0 => match nth_error (heap w) b with
                           | Some (Some _) => Some (mkW (set (heap w) b None) (objs w), mkO Pnull (ext o) Sempty)
                           | _ => None
                           end
              | _ => None
              end
  | Sindet => None
  end.
Definition zeroD : dims := mkD 0 0 0 0 0 0.
Definition emptyobj : obj := mkO Pnull zeroD Sempty.
Definition hasdata (p : ptr) : option bool := match p with Pnull => Some false | Pto _ _ => Some true | Pindet => None end.
Definition shift (p : ptr) (d : Z) : ptr := match p with Pto b off => Pto b (off + d) | p => p end.

Inductive op :=
| Default                                  (* AthenaArray() *)
| Sized (D : dims) (s : status)            (* AthenaArray(nx.., init) *)
| CopyC (src : nat) | MoveC (src : nat)    (* constructors *)
| CopyA (dst src : nat) | MoveA (dst src : nat)   (* assignments *)
| New (i : nat) (D : dims) | Del (i : nat) | Destroy (i : nat)
| Swap (i j : nat) | Exchange (i j : nat) | Zero (i : nat)
| Slice (i src : nat) (dim indx nvar : Z) | Pencil (i src : nat) (k j il n : Z)
| Access (i : nat) (e : Z).                (* a(...) at element e of pdata_ *)

(** One operation; [None] is undefined behaviour. *)
Definition step (w : world) (c : op) : option world :=
  match c with
  | Default => Some (newobj w emptyobj)
  | Sized D s => match s with                                                   (* 33-53, 519-529 *)
                 | Salloc => let (b, w') := alloc w (size D) in Some (newobj w' (mkO (Pto b 0) D Salloc))
                 | s => Some (newobj w (mkO Pnull D s))
                 end
  | CopyC j => match getobj w j with                                            (* 183-199 *)
               | None => None
               | Some o => match hasdata (pdata o) with
                           | None => None
                           | Some false => Some (newobj w (mkO Pindet (ext o) Sindet))
                           | Some true => if accessible w (pdata o) (size (ext o)) then let (b, w') := alloc w (size (ext o)) in Some (newobj w' (mkO (Pto b 0) (ext o) Salloc)) else None
                           end
               end
  | MoveC j => match getobj w j with                                            (* 225-250 *)
               | None => None
               | Some o => match hasdata (pdata o) with
                           | None => None
                           | Some false => Some (newobj w (mkO Pindet (ext o) Sindet))
                           | Some true => Some (newobj (setobj w j emptyobj) o)
                           end
               end
  | CopyA i j => match getobj w i, getobj w j with                              (* 204-222 *)
                 | Some o, Some s => if Nat.eqb i j then Some w
                                     else if accessible w (pdata s) (size (ext s)) && accessible w (pdata o) (size (ext s))
                                          then Some (setobj w i (mkO (pdata o) (ext s) Salloc)) else None
                 | _, _ => None
                 end
  | MoveA i j => match getobj w i, getobj w j with                              (* 253-281 *)
                 | Some o, Some s => if Nat.eqb i j then Some w
                                     else match Delete w o with
                                          | None => None
                                          | Some (w', o') => match hasdata (pdata s) with
                                                             | None => None
                                                             | Some false => Some (setobj w' i o')
                                                             | Some true => Some (setobj (setobj w' i s) j emptyobj)
                                                             end
                                          end
                 | _, _ => None
                 end
  | New i D => match getobj w i with                                            (* 351-441 *)
               | None => None
               | Some _ => let (b, w') := alloc w (size D) in Some (setobj w' i (mkO (Pto b 0) D Salloc))
               end
  | Del i => match getobj w i with
             | None => None
             | Some o => match Delete w o with None => None | Some (w', o') => Some (setobj w' i o') end
             end
  | Destroy i => match getobj w i with                                          (* 176-179 *)
                 | None => None
                 | Some o => match Delete w o with None => None | Some (w', o') => Some (mkW (heap w') (set (objs w') i None)) end
                 end
  | Swap i j => match getobj w i, getobj w j with                               (* 469-473 *)
                | Some a, Some b => Some (setobj (setobj w i (mkO (pdata b) (ext a) (st a))) j (mkO (if Nat.eqb i j then pdata b else pdata a) (ext b) (st b)))
                | _, _ => None
                end
  | Exchange i j => match getobj w i, getobj w j with                           (* 483-493 *)
                    | Some a, Some b => Some (setobj (setobj w i b) j a)
                    | _, _ => None
                    end
  | Zero i => match getobj w i with                                             (* 501-512 *)
              | None => None
              | Some o => match st o with
                          | Sempty => Some w
                          | Sindet => None
                          | _ => if accessible w (pdata o) (size (ext o)) then Some w else None
                          end
              end
  | Slice i j dim indx nvar => match getobj w i, getobj w j with
                               | Some o, Some s => match pdata s, slice (ext s) dim indx nvar with
                                                   | Pto _ _, Some (d, D) => Some (setobj w i (mkO (shift (pdata s) d) D Sslice))
                                                   | _, _ => None
                                                   end
                               | _, _ => None
                               end
  | Pencil i j k jj il n => match getobj w i, getobj w j with
                            | Some o, Some s => match pdata s with
                                                | Pto _ _ => let (d, D) := pencil (ext s) k jj il n in Some (setobj w i (mkO (shift (pdata s) d) D Sslice))
                                                | _ => None
                                                end
                            | _, _ => None
                            end
  | Access i e => match getobj w i with
                  | Some o => if Z.leb 0 e && accessible w (shift (pdata o) e) 1 then Some w else None
                  | None => None
                  end
  end.
Fixpoint run (w : world) (cs : list op) : option world :=
  match cs with [] => Some w | c :: cs => match step w c with None => None | Some w' => run w' cs end end.
Definition start : world := mkW [] [].
