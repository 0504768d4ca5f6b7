(** One adaptive refinement step, described independently of the code: the old and the new list of leaf blocks,
    in the same order along the space filling curve, are cut into matching pieces. *)
From Coq Require Import List Arith ZArith Bool.
From Verif Require Import Loc LB_Spec AMR_Model.
Import ListNotations.
Local Open Scope nat_scope.

Inductive piece :=
| Keep (l : loc)      (* a block that stays *)
| Split (l : loc)     (* a block replaced by its children *)
| Merge (l : loc).    (* children replaced by their parent l *)
Definition piece_old (dim : nat) (p : piece) : list loc :=
  match p with Keep l => [l] | Split l => [l] | Merge l => children dim l end.
Definition piece_new (dim : nat) (p : piece) : list loc :=
  match p with Keep l => [l] | Split l => children dim l | Merge l => [l] end.
Definition old_blocks (dim : nat) (ps : list piece) : list loc := flat_map (piece_old dim) ps.
Definition new_blocks (dim : nat) (ps : list piece) : list loc := flat_map (piece_new dim) ps.

(** The gid recorded in each new leaf by the tree (see Tree): the old block it comes from, or the first of them. *)
Fixpoint new2old (dim o : nat) (ps : list piece) : list nat :=
  match ps with
  | [] => []
  | Keep _ :: ps => o :: new2old dim (o + 1) ps
  | Split _ :: ps => repeat o (nleaf dim) ++ new2old dim (o + 1) ps
  | Merge _ :: ps => o :: new2old dim (o + nleaf dim) ps
  end.

(** Two blocks overlap when one contains the other. *)
Definition anc (k : nat) (l : loc) : loc :=
  mkLoc (level l - k) (lx1 l / 2 ^ Z.of_nat k) (lx2 l / 2 ^ Z.of_nat k) (lx3 l / 2 ^ Z.of_nat k).
Definition contains (a b : loc) : Prop := level a <= level b /\ a = anc (level b - level a) b.
Definition overlap (a b : loc) : Prop := contains a b \/ contains b a.
(** Blocks of a lower dimensional mesh have zero coordinates in the missing directions. *)
Definition flat (dim : nat) (l : loc) : Prop := (dim < 2 -> lx2 l = 0%Z) /\ (dim < 3 -> lx3 l = 0%Z).
(** The old blocks are those of a mesh: no two overlap. *)
Definition disjoint_blocks (dim : nat) (ls : list loc) : Prop :=
  (forall l, In l ls -> flat dim l) /\
  (forall i j a b, nth_error ls i = Some a -> nth_error ls j = Some b -> overlap a b -> i = j).

(** The situation in which a redistribution takes place: the tree has been updated as described by [ps], the old
    blocks are distributed over [nr] ranks, and the load balancer has distributed the new ones. *)
Definition redistribution (nr : nat) (ps : list piece) (a : amr) : Prop :=
  1 <= a_dim a <= 3 /\ ps <> [] /\ disjoint_blocks (a_dim a) (oldloc a) /\
  oldloc a = old_blocks (a_dim a) ps /\ newloc a = new_blocks (a_dim a) ps /\ newtoold a = new2old (a_dim a) 0 ps /\
  good_partition nr (length (oldloc a)) (ranklist a) (oldtbl a) /\
  good_partition nr (length (newloc a)) (newrank a) (newtbl a).
