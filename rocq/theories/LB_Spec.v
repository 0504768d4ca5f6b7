(** What a load balance must satisfy; independent of how it is computed. *)
From Coq Require Import List Arith ZArith QArith.
Import ListNotations.
Local Open Scope nat_scope.

(** [rl] gives the rank of each block; [tbl] gives the first block and the number of blocks of each
    rank.  Every rank owns a non-empty interval of blocks and the intervals follow each other. *)
Definition good_partition (nranks nb : nat) (rl : list nat) (tbl : list (nat * nat)) : Prop :=
  length rl = nb /\ length tbl = nranks /\
  (forall b, b < nb -> nth b rl nranks < nranks) /\
  (forall b b', b <= b' -> b' < nb -> nth b rl 0 <= nth b' rl 0) /\
  (forall r, r < nranks -> exists s n, nth_error tbl r = Some (s, n) /\ 1 <= n /\ s + n <= nb /\
     forall b, b < nb -> (nth b rl nranks = r <-> s <= b < s + n)).

(** Sum of f over 0..n-1. *)
Fixpoint qsum (n : nat) (f : nat -> Q) : Q := match n with O => 0%Q | S k => (qsum k f + f k)%Q end.
Definition cost (cl : list Q) (b : nat) : Q := nth b cl 0%Q.
(** Cost of the blocks of rank r, and of the blocks of the ranks up to r. *)
Definition load (cl : list Q) (rl : list nat) (n r : nat) : Q :=
  qsum n (fun b => if Nat.eqb (nth b rl 0) r then cost cl b else 0%Q).
Definition load_upto (cl : list Q) (rl : list nat) (n r : nat) : Q :=
  qsum n (fun b => if Nat.leb (nth b rl 0) r then cost cl b else 0%Q).
(** A natural number as a rational. *)
Definition QN (n : nat) : Q := inject_Z (Z.of_nat n).
Definition positive_costs (cl : list Q) : Prop := forall c, In c cl -> (0 < c)%Q.
Definition nonneg_costs (cl : list Q) : Prop := forall c, In c cl -> (0 <= c)%Q.
