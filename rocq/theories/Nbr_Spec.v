(** What neighbour lists, boundary messages and refinement decisions have to satisfy. *)
From Coq Require Import List Arith NArith ZArith Bool Permutation.
From Verif Require Import Loc AMR_Spec Tags_Model Tree_Model Tree_Spec LB_Spec Nbr_Model.
Import ListNotations.
Local Open Scope nat_scope.

Definition off (e : nblock) : nat -> Z := fun d => match d with 0 => n_o1 e | 1 => n_o2 e | _ => n_o3 e end.
(** The mesh was declared multilevel if some block is refined. *)
Definition declared (g : grid) (ml : bool) (bs : list loc) : Prop := ml = false -> forall b, In b bs -> level b = groot g.
(** In direction [off e] from [a] there is a position of [a]'s size; the neighbour is the block there, one of the blocks into
    which it is split, or the coarser block that contains it. *)
Definition points_to (g : grid) (a : loc) (e : nblock) : Prop := exists m, neighbour_position g a (off e) m /\
  (n_loc e = m \/ In (n_loc e) (children (gdim g) m) \/ In m (children (gdim g) (n_loc e))).
(** Entries of two blocks that stand for the same pair, each naming the slot of the other. *)
Definition reciprocal (a b : loc) (e e' : nblock) : Prop :=
  n_loc e = b /\ n_loc e' = a /\ n_target e = Some (n_bufid e') /\ n_target e' = Some (n_bufid e) /\
  (forall d, off e' d = (- off e d)%Z) /\ n_type e' = n_type e.

(** The messages from [src] to [dst] as seen by the sender and by the receiver. *)
Definition to_rank (r : nat) (ms : list bmsg) : list (nat * nat * N * nat) :=
  map (fun m => (bm_gid m, bm_slot m, bm_tag m, bm_size m)) (filter (fun m => Nat.eqb (bm_peer m) r) ms).
Definition tags_to (r : nat) (ms : list bmsg) : list N := map bm_tag (filter (fun m => Nat.eqb (bm_peer m) r) ms).
(** Every message sent is received by the block and in the slot it is meant for, with the expected length, and its tag
    identifies it among the messages between the two ranks. *)
Definition matched (nr : nat) (sends recvs : nat -> list bmsg) : Prop := forall src dst, src < nr -> dst < nr ->
  Permutation (to_rank dst (sends src)) (to_rank src (recvs dst)) /\ NoDup (tags_to dst (sends src)).

(** What a criterion asks for: a positive value refinement, a negative one derefinement; without criterion nothing. *)
Definition wants_refine (c : option Z) : Prop := exists r, c = Some r /\ (0 < r)%Z.
Definition wants_derefine (c : option Z) : Prop := exists r, c = Some r /\ (r < 0)%Z.
(** Check [i] is the last of at least [n] (and at least one) consecutive checks that asked for derefinement. *)
Definition asked_repeatedly (n : Z) (crits : list (option Z)) (i : nat) : Prop :=
  exists k, 1 <= k <= S i /\ (n <= Z.of_nat k)%Z /\ forall j, i < j + k -> j <= i -> exists c, nth_error crits j = Some c /\ wants_derefine c.
