(** Property theorems about multidimensional arrays (C28, C29). *)
From Coq Require Import List Arith ZArith Bool Lia.
From Verif Require Import Arr_Model Arr_Spec Arr_Proofs Arr_Proofs2.
Import ListNotations.
Local Open Scope Z_scope.

(** C28: element access is the bijection between index tuples and storage that enumerates the tuples with the last index fastest. *)
Theorem C28_indexing : forall D, nonneg D -> Z.of_nat (length (tuples (from0 (extents D)))) = size D /\
  (forall x, inrange D x -> 0 <= elem D x < size D /\ nth_error (tuples (from0 (extents D))) (Z.to_nat (elem D x)) = Some x) /\
  (forall x y, inrange D x -> inrange D y -> elem D x = elem D y -> x = y) /\
  (forall e, 0 <= e < size D -> exists x, inrange D x /\ elem D x = e).
Proof.
  intros D HD. split; [rewrite tuples_length, <- (size_count D HD); pose proof (count_nonneg (from0 (extents D))); rewrite <- (size_count D HD) in *; lia|]. split; [apply elem_nth|]. split; [apply elem_inj|]. intros e He. apply (elem_surj D e HD He).
Qed.
(** C28: access with fewer indices is access with the leading indices zero. *)
Theorem C28_fewer_indices : forall D m n k j i,
  at1 D i = elem D [0; 0; 0; 0; 0; i] /\ at2 D j i = elem D [0; 0; 0; 0; j; i] /\ at3 D k j i = elem D [0; 0; 0; k; j; i] /\ at4 D n k j i = elem D [0; 0; n; k; j; i] /\ at5 D m n k j i = elem D [0; m; n; k; j; i].
Proof. intros. apply (fewer_indices D n k j i m). Qed.
(** C28: a slice has the requested extent in its dimension, the source's extents below and one above, and its elements are the
    source's elements at the indices shifted in that dimension; a pencil's elements are those of one row. *)
Theorem C28_slices : forall D dim indx nvar, nonneg D -> 1 <= dim <= 6 -> 0 <= indx -> indx + nvar <= extent D dim ->
  exists d D', slice D dim indx nvar = Some (d, D') /\ extent D' dim = nvar /\
   (forall dim', 1 <= dim' <= 6 -> dim' < dim -> extent D' dim' = extent D dim') /\ (forall dim', 1 <= dim' <= 6 -> dim < dim' -> extent D' dim' = 1) /\
   forall x, inrange D' x -> d + elem D' x = elem D (bump dim indx x).
Proof. intros. apply slice_elem; assumption. Qed.
Theorem C28_pencils : forall D k j il n i, nx1 (snd (pencil D k j il n)) = n /\ fst (pencil D k j il n) + at1 (snd (pencil D k j il n)) i = at3 D k j (il + i).
Proof. intros. split; [reflexivity|apply pencil_elem]. Qed.

(** C29: used as documented, the operations never run into undefined behaviour (double deletion, access to freed or missing
    storage, use of indeterminate members), and at every moment each live block of storage has exactly one owner; so once
    all arrays are destroyed all storage is freed. *)
Theorem C29_ownership : forall cs, used_properly start cs -> exists w, run start cs = Some w /\ ownership w /\
  ((forall i o, nth_error (objs w) i <> Some (Some o)) -> forall b n, nth_error (heap w) b <> Some (Some n)).
Proof. intros cs U. destruct (run_proper cs start Inv_start U) as (w & E & I). exists w. split; [exact E|]. split; [apply Inv_own, I|apply all_destroyed, I]. Qed.
(** C29: a slice made inside its source is usable. *)
Theorem C29_slice_usable : forall w i j dim indx nvar w' s, nth_error (objs w) j = Some (Some s) -> i <> j -> (forall k, 1 <= k <= 6 -> 1 <= extent (ext s) k) ->
  proper w (Slice i j dim indx nvar) -> step w (Slice i j dim indx nvar) = Some w' -> exists o, nth_error (objs w') i = Some (Some o) /\ live w' o.
Proof. exact slice_live. Qed.

(** C29 fails without the documented restrictions: copying or moving from an empty array leaves the new array's pointer and
    state indeterminate, so destroying it is undefined; assigning to a slice makes it believe it owns its source's storage,
    which is then freed twice; so does swapping the storage of a slice and an owner. *)
Theorem C29_copy_of_empty_refuted : run start [Default; CopyC 0] <> None /\ run start [Default; CopyC 0; Destroy 1] = None.
Proof. split; [discriminate|reflexivity]. Qed.
Theorem C29_move_of_empty_refuted : run start [Default; MoveC 0] <> None /\ run start [Default; MoveC 0; Destroy 1] = None.
Proof. split; [discriminate|reflexivity]. Qed.
Definition two : dims := mkD 2 1 1 1 1 1.
Theorem C29_assign_to_slice_refuted : forall p, p = [Sized two Salloc; Sized two Salloc; Default; Slice 2 0 1 0 2; CopyA 2 1; Destroy 2] ->
  run start p <> None /\ run start (p ++ [Destroy 0]) = None.
Proof. intros p ->. split; [discriminate|reflexivity]. Qed.
Theorem C29_swap_slice_refuted : forall p, p = [Sized two Salloc; Default; Slice 1 0 1 1 1; Swap 0 1] ->
  run start p <> None /\ run start (p ++ [Destroy 0]) = None.
Proof. intros p ->. split; [discriminate|reflexivity]. Qed.
(** Allocating an array that already owns storage loses the old storage. *)
Theorem C29_reallocation_leaks_refuted : exists w, run start [Sized two Salloc; New 0 two; Destroy 0] = Some w /\ nth_error (heap w) 0 = Some (Some 2) /\ forall i o, nth_error (objs w) i <> Some (Some o).
Proof. eexists. split; [reflexivity|]. split; [reflexivity|]. intros [|[|i]] o H; discriminate H. Qed.

(** ** Examples *)
Definition exD : dims := mkD 5 4 3 2 1 1.
Example ex_index : nonneg exD /\ inrange exD [0; 0; 1; 2; 3; 4] /\ elem exD [0; 0; 1; 2; 3; 4] = 119 /\ size exD = 120.
Proof. repeat split; try (cbn; lia). repeat constructor; cbn; lia. Qed.
Example ex_slice : slice exD 4 1 1 = Some (60, mkD 5 4 3 1 1 1) /\ bump 4 1 [0; 0; 0; 2; 3; 4] = [0; 0; 1; 2; 3; 4].
Proof. split; reflexivity. Qed.
Definition ex_ops : list op := [Sized two Salloc; CopyC 0; Default; Slice 2 0 1 1 1; Access 2 0; CopyA 0 1; Swap 0 1; MoveA 1 0].
Definition ex_ops2 : list op := [Destroy 2; Zero 1; Exchange 0 1; Destroy 0; Destroy 1].
Ltac live_ := do 3 eexists; split; [reflexivity|]; split; [reflexivity|]; cbn; lia.
Definition ex_w : world := mkW [None; Some 2] [Some emptyobj; Some (mkO (Pto 1 0) two Salloc); Some (mkO (Pto 0 1) (mkD 1 1 1 1 1 1) Sslice)].
Example ex_used : used_properly start ex_ops /\ run start ex_ops = Some ex_w.
Proof.
  split; [|reflexivity]. unfold ex_ops. cbn [used_properly].
  split; [split; [left; reflexivity|unfold nonneg; cbn; lia]|]. cbn -[two].
  split; [eexists; split; [reflexivity|live_]|].
  split; [exact I|].
  split; [split; [eexists; split; [reflexivity|discriminate]|eexists; split; [reflexivity|split; [live_|cbn; lia]]]|].
  split; [eexists; split; [reflexivity|split; [live_|cbn; lia]]|].
  split; [eexists; split; [reflexivity|]; split; [reflexivity|]; eexists; split; [reflexivity|split; [live_|reflexivity]]|].
  split; [eexists; split; [reflexivity|]; split; [reflexivity|]; eexists; split; [reflexivity|split; reflexivity]|].
  split; [eexists; split; [reflexivity|]; eexists; split; [reflexivity|exact I]|exact I].
Qed.
Example ex_used2 : used_properly ex_w ex_ops2 /\ exists w, run ex_w ex_ops2 = Some w /\ heap w = [None; None].
Proof.
  split; [|eexists; split; reflexivity]. unfold ex_ops2, ex_w. cbn [used_properly].
  split; [eexists; split; [reflexivity|exact I]|]. cbn -[two].
  split; [eexists; split; [reflexivity|right; live_]|].
  split; [eexists; split; [reflexivity|]; eexists; split; [reflexivity|exact I]|].
  split; [eexists; split; [reflexivity|exact I]|].
  split; [eexists; split; [reflexivity|exact I]|exact I].
Qed.
Print Assumptions C28_indexing.
Print Assumptions C28_slices.
Print Assumptions C29_ownership.
