(** LogicalLocation, src/athena.hpp; child locations as in MeshBlockTree::MeshBlockTree(parent, ox1, ox2, ox3),
    src/mesh/meshblock_tree.cpp 61-67.  lx1, lx2, lx3 are C++ int64 and unbounded here. *)
From Coq Require Import List Arith ZArith Bool Lia.
Import ListNotations.

Record loc := mkLoc { level : nat; lx1 : Z; lx2 : Z; lx3 : Z }.
Definition loc_eqb (a b : loc) : bool :=
  Nat.eqb (level a) (level b) && Z.eqb (lx1 a) (lx1 b) && Z.eqb (lx2 a) (lx2 b) && Z.eqb (lx3 a) (lx3 b).
Lemma loc_eqb_spec : forall a b, reflect (a = b) (loc_eqb a b).
Proof.
  intros [l a1 a2 a3] [m b1 b2 b3]. unfold loc_eqb. cbn.
  destruct (Nat.eqb_spec l m), (Z.eqb_spec a1 b1), (Z.eqb_spec a2 b2), (Z.eqb_spec a3 b3); cbn; constructor; congruence.
Qed.
Definition loc_eq_dec (a b : loc) : {a = b} + {a <> b}.
Proof. destruct (loc_eqb_spec a b); [left|right]; assumption. Defined.

(** Number of children, src/mesh/meshblock_tree.cpp 83-87 (nleaf_): 2, 4 or 8. *)
Definition nleaf (dim : nat) : nat := match dim with 1 => 2 | 2 => 4 | _ => 8 end.
(** i = n&1, j = (n>>1)&1, k = (n>>2)&1 of child index n. *)
Definition bit (n i : nat) : Z := if Nat.testbit n i then 1%Z else 0%Z.
Definition child (l : loc) (n : nat) : loc :=
  mkLoc (S (level l)) (2 * lx1 l + bit n 0) (2 * lx2 l + bit n 1) (2 * lx3 l + bit n 2).
Definition children (dim : nat) (l : loc) : list loc := map (child l) (seq 0 (nleaf dim)).
(** parent: lx >> 1 *)
Definition parent (l : loc) : loc := mkLoc (level l - 1) (lx1 l / 2) (lx2 l / 2) (lx3 l / 2).
