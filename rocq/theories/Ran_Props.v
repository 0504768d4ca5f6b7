(** Property C52: the random number generator. *)
From Coq Require Import ZArith List QArith Bool Lia.
From Verif Require Import Ran_Model Ran_Spec Ran_Proofs.
Import ListNotations.
Local Open Scope Z_scope.

(** For every seed in the range and any number of calls, from any earlier state of the static variables: no overflow, no index outside the table, the state within the
    documented ranges, and every number strictly between 0 and 1. *)
Theorem C52_range : forall seed n s, - IMR1 < seed <= 0 -> length (iv s) = NTAB -> n <> O ->
  exists idum s' l, draws n seed s = Some (idum, s', l) /\ ranges idum s' /\ length l = n /\ Forall (fun q => 0 < q < 1)%Q l.
Proof.
  intros seed n s Hs Hl Hn. destruct (run seed n s Hs Hl Hn) as (s' & l & us & D & R & L & Lu & _ & C). exists (lcg IA1 IMR1 (Z.max 1 (- seed)) (n + 40)), s', l.
  split; [exact D|]. split; [exact R|]. split; [exact L|]. apply Forall_forall. intros q Hq. apply In_nth_error in Hq. destruct Hq as [k Hk].
  destruct (nth_error us k) as [i|] eqn:E; [|apply nth_error_None in E; assert (k < length l)%nat by (apply nth_error_Some; rewrite Hk; discriminate); lia].
  destruct (C k i q E Hk) as (y & -> & Hy & _). apply q_range. exact Hy.
Qed.
(** The sequence depends on the seed only. *)
Theorem C52_reproducible : forall seed n s s', - IMR1 < seed <= 0 -> length (iv s) = NTAB -> length (iv s') = NTAB -> n <> O -> draws n seed s = draws n seed s'.
Proof. exact reproducible. Qed.
(** Number [k] is the difference of a number of the first generator and number [k+1] of the second, modulo IMM1 in 1..IMM1, divided by IMR1; no number of the first generator
    is used twice (the shuffle). *)
Theorem C52_combined_generators : forall seed n s, - IMR1 < seed <= 0 -> length (iv s) = NTAB -> n <> O -> let x := Z.max 1 (- seed) in
  exists idum s' l us, draws n seed s = Some (idum, s', l) /\ length l = n /\ length us = n /\ NoDup us /\
  forall k i q, nth_error us k = Some i -> nth_error l k = Some q -> exists y, q = (inject_Z y / inject_Z IMR1)%Q /\ 1 <= y <= IMM1 /\
    (y - (lcg IA1 IMR1 x i - lcg IA2 IMR2 x (S k))) mod IMM1 = 0 /\ (9 <= i <= 40 + k)%nat.
Proof.
  intros seed n s Hs Hl Hn x. destruct (run seed n s Hs Hl Hn) as (s' & l & us & D & R & L & Lu & Nu & C). exists (lcg IA1 IMR1 x (n + 40)), s', l, us.
  split; [exact D|]. split; [exact L|]. split; [exact Lu|]. split; [exact Nu|exact C].
Qed.
(** Finding: seeds 0 and -1 give the same sequence. *)
Theorem C52_seed_zero_refuted : forall n s, draws n 0 s = draws n (-1) s \/ n = O.
Proof. intros [|n] s; [right; reflexivity|left; reflexivity]. Qed.
(** Finding: for a large seed the second generator is not reduced and the table is then read outside its bounds. *)
Theorem C52_large_seed_refuted : exists seed, - 2 ^ 63 < seed < 0 /\ draws 2 seed initial = None.
Proof. exists (-1000000000000000). split; [split; reflexivity|]. vm_compute. reflexivity. Qed.

Example ex_hyp : - IMR1 < -7 <= 0 /\ length (iv initial) = NTAB. Proof. repeat split; discriminate. Qed.
Example ex_first : exists i s l, draws 1 (-1) initial = Some (i, s, [l]) /\ (l == 612850790 # 2147483563)%Q.
Proof. eexists _, _, _. split; [vm_compute; reflexivity|]. vm_compute. reflexivity. Qed.
Print Assumptions C52_range. Print Assumptions C52_combined_generators. Print Assumptions C52_large_seed_refuted.
