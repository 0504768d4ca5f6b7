(** What the slot table must list. *)
From Coq Require Import List Arith ZArith Bool.
From Verif Require Import Tags_Model.
Import ListNotations.

Definition offset_ok (o : Z) : Prop := (o = -1 \/ o = 0 \/ o = 1)%Z.
Definition active (o : Z) : nat := if Z.eqb o 0 then 0 else 1.
(** number of directions in which the neighbour is displaced *)
Definition ndisp (e : nidx) : nat := active (ox1 e) + active (ox2 e) + active (ox3 e).
(** A sub-position ranges over the two halves of a tangential direction if blocks of different levels
    can meet, and there are [dim - ndisp] tangential directions. *)
Definition sub_ok (f : Z) (halves : bool) : Prop := if halves then (f = 0 \/ f = 1)%Z else f = 0%Z.
Definition valid_slot (dim : nat) (multilevel : bool) (e : nidx) : Prop :=
  offset_ok (ox1 e) /\ offset_ok (ox2 e) /\ offset_ok (ox3 e) /\
  (dim < 2 -> ox2 e = 0%Z) /\ (dim < 3 -> ox3 e = 0%Z) /\
  (nty e = face /\ ndisp e = 1 \/ nty e = edge /\ ndisp e = 2 \/ nty e = corner /\ ndisp e = 3) /\
  sub_ok (fi1 e) (multilevel && Nat.leb (ndisp e + 1) dim) /\
  sub_ok (fi2 e) (multilevel && Nat.leb (ndisp e + 2) dim).

(** Shared-memory description of "two different messages have different tags". *)
Definition tag_args_ok (bufid phys : N) : Prop := (bufid < 64)%N /\ (phys < 32)%N.
