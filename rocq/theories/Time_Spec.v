(** Small specification for C35 and C36. *)
From Coq Require Import Reals List ZArith Bool.
From Verif Require Import Time_Model.
Import ListNotations.
Local Open Scope R_scope.

(** All blocks of all ranks. *)
Definition all_blocks (ranks : list (blockdt * list blockdt)) : list blockdt := flat_map (fun r => fst r :: snd r) ranks.
(** What a signal crosses in a step of length [dt] is at most the fraction [c] of the cell, in the directions the grid has. *)
Definition respects (c dt : R) (two_d three_d : bool) (x : cell) : Prop :=
  dt * s1 x <= c * w1 x /\ (two_d = true -> dt * s2 x <= c * w2 x) /\ (three_d = true -> dt * s3 x <= c * w3 x).
Definition positive_cell (x : cell) : Prop := 0 < w1 x /\ 0 < s1 x /\ 0 < w2 x /\ 0 < s2 x /\ 0 < w3 x /\ 0 < s3 x.

(** The time for which the [k]-th file from now is scheduled. *)
Definition scheduled (o : out) (k : nat) : R := next o + INR k * odt o.
(** Times of successive calls: increasing, by at most [d]. *)
Fixpoint steps_at_most (d : R) (ts : list R) : Prop :=
  match ts with [] => True | t :: ts' => match ts' with [] => True | t' :: _ => t < t' <= t + d end /\ steps_at_most d ts' end.
Fixpoint increasing (ts : list R) : Prop :=
  match ts with [] => True | t :: ts' => match ts' with [] => True | t' :: _ => t < t' end /\ increasing ts' end.
Definition times (calls : list (R * Z)) : list R := map fst calls.
(** A block's contribution: the dimensions in use, its cells, and the other limits; all widths, speeds and limits positive. *)
Record bin := mkBin { b2 : bool; b3 : bool; bcells : list cell; blim : limits }.
Definition good_block (b : bin) : Prop :=
  (forall x, In x (bcells b) -> positive_cell x) /\ (forall z, In z (parab (blim b)) -> 0 < z) /\ (forall z, In z (hall (blim b)) -> 0 < z) /\ (forall z, In z (orb (blim b)) -> 0 < z) /\
  (forall u, user (blim b) = Some u -> 0 < u) /\ (forall r, cfl_rad (blim b) = Some r -> 0 < r <= 1).
Definition block_of (M cfl : R) (sts : bool) (b : bin) : blockdt := NewBlockTimeStep M cfl sts (b2 b) (b3 b) (bcells b) (blim b).
Definition mesh_of (M cfl : R) (sts : bool) (m : list (bin * list bin)) : list (blockdt * list blockdt) := map (fun r => (block_of M cfl sts (fst r), map (block_of M cfl sts) (snd r))) m.
Definition in_mesh (b : bin) (m : list (bin * list bin)) : Prop := exists r, In r m /\ In b (fst r :: snd r).
Definition good_mesh (m : list (bin * list bin)) : Prop := m <> [] /\ forall b, in_mesh b m -> good_block b.
