(** What multidimensional arrays have to satisfy. *)
From Coq Require Import List Arith ZArith Bool.
From Verif Require Import Arr_Model.
Import ListNotations.
Local Open Scope Z_scope.

(** All index tuples with each index in its (inclusive) range, the last index running fastest. *)
Definition zrange (a b : Z) : list Z := map (fun i => a + Z.of_nat i) (seq 0 (Z.to_nat (b - a + 1))).
Fixpoint tuples (rs : list (Z * Z)) : list (list Z) :=
  match rs with [] => [[]] | (a, b) :: rs => flat_map (fun x => map (cons x) (tuples rs)) (zrange a b) end.
Definition from0 (ns : list Z) : list (Z * Z) := map (fun n => (0, n - 1)) ns.

(** Index tuple (p, m, n, k, j, i) within the extents. *)
Definition extents (D : dims) : list Z := [nx6 D; nx5 D; nx4 D; nx3 D; nx2 D; nx1 D].
Definition inrange (D : dims) (x : list Z) : Prop := Forall2 (fun i n => 0 <= i < n) x (extents D).
Definition elem (D : dims) (x : list Z) : Z := match x with [p; m; n; k; j; i] => at6 D p m n k j i | _ => -1 end.
(** [x] with [d] added to the index of dimension [dim] (dimension 1 is the last index). *)
Definition bump (dim d : Z) (x : list Z) : list Z :=
  match x with [p; m; n; k; j; i] => [if Z.eqb dim 6 then p + d else p; if Z.eqb dim 5 then m + d else m; if Z.eqb dim 4 then n + d else n;
                                      if Z.eqb dim 3 then k + d else k; if Z.eqb dim 2 then j + d else j; if Z.eqb dim 1 then i + d else i] | _ => x end.
Definition extent (D : dims) (dim : Z) : Z :=
  if Z.eqb dim 6 then nx6 D else if Z.eqb dim 5 then nx5 D else if Z.eqb dim 4 then nx4 D else if Z.eqb dim 3 then nx3 D else if Z.eqb dim 2 then nx2 D else nx1 D.

(** ** Proper use of the operations, as documented in the header: assignment and swapping need allocated arrays of equal size,
    allocation and slicing need an array that does not own storage, copies are made of arrays that hold data, slices lie inside their source,
    and elements are accessed only while the storage exists. *)
Definition owns (o : obj) : Prop := st o = Salloc.
Definition nonneg (D : dims) : Prop := 0 <= nx1 D /\ 0 <= nx2 D /\ 0 <= nx3 D /\ 0 <= nx4 D /\ 0 <= nx5 D /\ 0 <= nx6 D.
(** The elements of an array are there: its storage has not been freed. *)
Definition live (w : world) (o : obj) : Prop := exists b off m, pdata o = Pto b off /\ nth_error (heap w) b = Some (Some m) /\ 0 <= off /\ off + size (ext o) <= m.
Definition exists_ (w : world) (i : nat) (P : obj -> Prop) : Prop := exists o, nth_error (objs w) i = Some (Some o) /\ P o.
Definition proper (w : world) (c : op) : Prop :=
  match c with
  | Default => True
  | Sized D s => (s = Salloc \/ s = Sempty) /\ nonneg D
  | CopyC j => exists_ w j (live w)
  | MoveC j => exists_ w j (live w)
  | CopyA i j => exists_ w i (fun o => owns o /\ exists_ w j (fun s => live w s /\ ext s = ext o))
  | MoveA i j => exists_ w i (fun _ => exists_ w j (fun _ => True))
  | New i D => exists_ w i (fun o => ~ owns o) /\ nonneg D
  | Del i => exists_ w i (fun _ => True)
  | Destroy i => exists_ w i (fun _ => True)
  | Swap i j => exists_ w i (fun o => owns o /\ exists_ w j (fun s => owns s /\ ext s = ext o))
  | Exchange i j => exists_ w i (fun _ => exists_ w j (fun _ => True))
  | Zero i => exists_ w i (fun o => st o = Sempty \/ live w o)
  | Slice i j dim indx nvar => exists_ w i (fun o => ~ owns o) /\ exists_ w j (fun s => live w s /\ 1 <= dim <= 6 /\ 0 <= indx /\ 0 <= nvar /\ indx + nvar <= extent (ext s) dim)
  | Pencil i j k jj il n => exists_ w i (fun o => ~ owns o) /\ exists_ w j (fun s => live w s)
  | Access i e => exists_ w i (fun o => live w o /\ 0 <= e < size (ext o))
  end.
Fixpoint used_properly (w : world) (cs : list op) : Prop :=
  match cs with [] => True | c :: cs => proper w c /\ match step w c with Some w' => used_properly w' cs | None => True end end.

(** Every live block of storage belongs to exactly one array, which points to its start and has its size; every array that is
    marked as owning storage does own a live block. *)
Definition owns_block (w : world) (i : nat) (b : nat) : Prop := exists_ w i (fun o => owns o /\ pdata o = Pto b 0 /\ nth_error (heap w) b = Some (Some (size (ext o)))).
Definition ownership (w : world) : Prop :=
  (forall b n, nth_error (heap w) b = Some (Some n) -> exists i, owns_block w i b) /\
  (forall i j b, owns_block w i b -> owns_block w j b -> i = j) /\
  (forall i o, nth_error (objs w) i = Some (Some o) -> owns o -> exists b, owns_block w i b).
