(** Small specification for C52. *)
From Coq Require Import ZArith List QArith Bool.
From Verif Require Import Ran_Model.
Import ListNotations.
Local Open Scope Z_scope.
(** The two multiplicative congruential generators that are combined (L'Ecuyer 1988): their [n]-th numbers. *)
Definition lcg (a m seed : Z) (n : nat) : Z := (a ^ Z.of_nat n * seed) mod m.
(** The documented ranges of the state. *)
Definition ranges (idum : Z) (s : static) : Prop :=
  1 <= idum < IMR1 /\ 0 <= idum2 s < IMR2 /\ 1 <= iy s <= IMM1 /\ length (iv s) = NTAB /\ Forall (fun x => 1 <= x < IMR1) (iv s).
