(** Property theorems about load balancing (C20, C21). *)
From Coq Require Import List Arith ZArith QArith Bool Lia Lqa SpecFloat.
From Verif Require Import LB_Model LB_Spec LB_Proofs LB_Proofs2.
Import ListNotations.
Local Open Scope nat_scope.

(** C20: whatever the costs and whatever the rounding of the floating point operations, a load
    balance that is returned partitions the blocks into one non-empty interval per rank. *)
Theorem C20_blocks_partitioned : forall C (a : arith C) nranks nthreads cl rl tbl, 1 <= nranks -> 1 <= nthreads ->
  CalculateLoadBalance a nranks nthreads cl = Some (rl, tbl) -> good_partition nranks (length cl) rl tbl.
Proof. exact lb_partition. Qed.
Print Assumptions C20_blocks_partitioned.

(** In exact arithmetic and with positive costs, the fatal error is raised only when there are too few blocks. *)
Theorem C20_no_fatal_error_partial : forall nranks nthreads cl, 1 <= nranks -> 1 <= nthreads -> positive_costs cl ->
  nranks * nthreads <= length cl -> exists rl tbl, CalculateLoadBalance exactQ nranks nthreads cl = Some (rl, tbl).
Proof. exact lb_no_fatal. Qed.
Print Assumptions C20_no_fatal_error_partial.

(** C20 is false as stated ("for any cost list with at least as many blocks as ranks"): zero costs, or
    positive double precision costs of very different size, raise the fatal error. *)
Theorem C20_zero_costs_refuted : exists cl, nonneg_costs cl /\ 2 * 1 <= length cl /\
  CalculateLoadBalance exactQ 2 1 cl = None.
Proof.
  exists [0; 0; 0]%Q. split; [|split; [cbn; lia|reflexivity]].
  intros c [<-|[<-|[<-|[]]]]; lra.
Qed.
Print Assumptions C20_zero_costs_refuted.
Theorem C20_rounding_refuted : exists cl, (forall c, In c cl -> SFltb (S754_zero false) c = true) /\ 2 * 1 <= length cl /\
  CalculateLoadBalance binary64 2 1 cl = None.
Proof.
  exists bad_costs. split; [|split; [cbn; lia|exact lb_float_fatal]].
  intros c [<-|[<-|[<-|[]]]]; reflexivity.
Qed.
Print Assumptions C20_rounding_refuted.

(** C21: the load of every rank r exceeds the average load of the ranks 0..r by at most the cost of one
    of its own blocks.  (For the last rank this is the average over all ranks.) *)
Theorem C21_load_bound : forall nranks nthreads cl rl tbl, 1 <= nranks -> 1 <= nthreads -> nonneg_costs cl ->
  CalculateLoadBalance exactQ nranks nthreads cl = Some (rl, tbl) ->
  forall r, r < nranks -> exists b, b < length cl /\ nth b rl 0 = r /\
    (load cl rl (length cl) r <= load_upto cl rl (length cl) r / QN (S r) + cost cl b)%Q.
Proof. exact lb_bound. Qed.
Print Assumptions C21_load_bound.

(** With equal costs every rank owns floor(nb/nranks) or floor(nb/nranks)+1 blocks. *)
Theorem C21_equal_costs : forall nranks nthreads cl c rl tbl, 1 <= nranks -> 1 <= nthreads -> (0 < c)%Q ->
  (forall x, In x cl -> (x == c)%Q) ->
  CalculateLoadBalance exactQ nranks nthreads cl = Some (rl, tbl) ->
  forall s n, In (s, n) tbl -> length cl / nranks <= n <= length cl / nranks + 1.
Proof. exact lb_equal. Qed.
Print Assumptions C21_equal_costs.

(** Concrete cases. *)
Example lb_example : CalculateLoadBalance exactQ 3 1 [1; 3; 1; 1; 4; 2; 5]%Q = Some ([0; 0; 0; 1; 1; 2; 2], [(0, 3); (3, 2); (5, 2)]).
Proof. reflexivity. Qed.
Example lb_example_equal : CalculateLoadBalance exactQ 3 1 [1; 1; 1; 1; 1; 1; 1; 1]%Q = Some ([0; 0; 1; 1; 1; 2; 2; 2], [(0, 2); (2, 3); (5, 3)]).
Proof. reflexivity. Qed.
Example lb_example_float : CalculateLoadBalance binary64 2 1 [b64 1 0; b64 1 0; b64 1 0] = Some ([0; 1; 1], [(0, 1); (1, 2)]).
Proof. vm_compute. reflexivity. Qed.
