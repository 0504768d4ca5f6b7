(** Bit-field lemmas for TaskID: the two 64-bit words behave as a set of task numbers. *)
From Coq Require Import List Arith ZArith NArith Bool Lia.
From Verif Require Import Tasks_Model Tasks_Spec.
Import ListNotations.

Definition has (t : taskid) (k : nat) : bool :=
  if k <=? 64 then N.testbit (fst t) (N.of_nat (k - 1)) else N.testbit (snd t) (N.of_nat (k - 65)).

Definition bnd (t : taskid) : Prop := (fst t < 2 ^ 64)%N /\ (snd t < 2 ^ 64)%N.

Lemma testbit_high (a : N) (b : N) : (a < 2 ^ 64)%N -> (64 <= b)%N -> N.testbit a b = false.
Proof.
  intros Ha Hb. destruct (N.eq_dec a 0) as [->|Hz]; [apply N.bits_0|].
  apply N.bits_above_log2. apply N.log2_lt_pow2 in Ha; [|lia]. lia.
Qed.

Lemma bits_ext (a b : N) : (a < 2 ^ 64)%N -> (b < 2 ^ 64)%N ->
  (forall k, k < 64 -> N.testbit a (N.of_nat k) = N.testbit b (N.of_nat k)) -> a = b.
Proof.
  intros Ha Hb H. apply N.bits_inj. intros k. destruct (N.lt_ge_cases k 64) as [Hk|Hk].
  - rewrite <- (N2Nat.id k). apply H. lia.
  - rewrite !testbit_high by assumption. reflexivity.
Qed.

Definition taskid_check : bool :=
  forallb (fun n =>
    match TaskID n with
    | Some t => N.ltb (fst t) (2 ^ 64) && N.ltb (snd t) (2 ^ 64) &&
                forallb (fun k => Bool.eqb (has t k) (Nat.eqb k n)) (seq 1 128)
    | None => false
    end) (seq 1 128).
Lemma taskid_check_ok : taskid_check = true.
Proof. vm_compute. reflexivity. Qed.

Lemma TaskID_spec n : 1 <= n <= 128 ->
  exists t, TaskID n = Some t /\ bnd t /\ forall k, 1 <= k <= 128 -> has t k = Nat.eqb k n.
Proof.
  intros Hn. pose proof taskid_check_ok as H. unfold taskid_check in H.
  rewrite forallb_forall in H. specialize (H n). rewrite in_seq in H.
  specialize (H ltac:(lia)). destruct (TaskID n) as [t|]; [|discriminate].
  exists t. apply andb_true_iff in H. destruct H as [H H3]. apply andb_true_iff in H.
  destruct H as [H1 H2]. apply N.ltb_lt in H1, H2. split; [reflexivity|]. split; [split; assumption|].
  intros k Hk. rewrite forallb_forall in H3. specialize (H3 k). rewrite in_seq in H3.
  specialize (H3 ltac:(lia)). apply eqb_prop in H3. exact H3.
Qed.

Lemma lor_bnd a b : (a < 2 ^ 64)%N -> (b < 2 ^ 64)%N -> (N.lor a b < 2 ^ 64)%N.
Proof.
  intros Ha Hb. destruct (N.eq_dec (N.lor a b) 0) as [->|Hz]; [reflexivity|].
  apply N.log2_lt_pow2; [lia|]. rewrite N.log2_lor.
  destruct (N.eq_dec a 0) as [->|Ha0]; destruct (N.eq_dec b 0) as [->|Hb0].
  - reflexivity.
  - apply N.log2_lt_pow2 in Hb; [|lia]. simpl N.log2 at 1. lia.
  - apply N.log2_lt_pow2 in Ha; [|lia]. simpl N.log2 at 2. lia.
  - apply N.log2_lt_pow2 in Ha; [|lia]. apply N.log2_lt_pow2 in Hb; lia.
Qed.

Lemma has_or a b k : has (tid_or a b) k = has a k || has b k.
Proof. unfold has, tid_or; simpl. destruct (k <=? 64); apply N.lor_spec. Qed.
Lemma has_setfinished a b k : has (SetFinished a b) k = has a k || has b k.
Proof. unfold has, SetFinished; simpl. destruct (k <=? 64); apply N.lor_spec. Qed.
Lemma bnd_or a b : bnd a -> bnd b -> bnd (tid_or a b).
Proof. intros [? ?] [? ?]. split; simpl; apply lor_bnd; assumption. Qed.
Lemma bnd_setfinished a b : bnd a -> bnd b -> bnd (SetFinished a b).
Proof. intros [? ?] [? ?]. split; simpl; apply lor_bnd; assumption. Qed.
Lemma has_zero k : has (0%N, 0%N) k = false.
Proof. unfold has, fst, snd. destruct (k <=? 64); apply N.bits_0. Qed.

Lemma has_lo t k : k < 64 -> has t (S k) = N.testbit (fst t) (N.of_nat k).
Proof. intros H. unfold has. replace (S k <=? 64) with true by (symmetry; apply Nat.leb_le; lia).
  f_equal. lia. Qed.
Lemma has_hi t k : k < 64 -> has t (k + 65) = N.testbit (snd t) (N.of_nat k).
Proof. intros H. unfold has. replace (k + 65 <=? 64) with false by (symmetry; apply Nat.leb_gt; lia).
  f_equal. lia. Qed.

Lemma land_bnd a b : (b < 2 ^ 64)%N -> (N.land a b < 2 ^ 64)%N.
Proof.
  intros Hb. destruct (N.eq_dec (N.land a b) 0) as [->|Hz]; [reflexivity|].
  apply N.log2_lt_pow2; [lia|]. pose proof (N.log2_land a b) as H.
  destruct (N.eq_dec b 0) as [->|Hb0]; [rewrite N.land_0_r in Hz; congruence|].
  apply N.log2_lt_pow2 in Hb; lia.
Qed.

Lemma CheckDependencies_spec F D : bnd D ->
  (CheckDependencies F D = true <-> forall k, 1 <= k <= 128 -> has D k = true -> has F k = true).
Proof.
  intros [B1 B2]. unfold CheckDependencies. rewrite andb_true_iff, !N.eqb_eq. split.
  - intros [H1 H2] k Hk HD. destruct (le_lt_dec k 64) as [L|L].
    + replace k with (S (k - 1)) in * by lia. rewrite has_lo in * by lia.
      rewrite <- H1 in HD. rewrite N.land_spec in HD. apply andb_true_iff in HD. tauto.
    + replace k with ((k - 65) + 65) in * by lia. rewrite has_hi in * by lia.
      rewrite <- H2 in HD. rewrite N.land_spec in HD. apply andb_true_iff in HD. tauto.
  - intros H. split; apply bits_ext; try apply land_bnd; try assumption.
    + intros k Hk. rewrite N.land_spec. specialize (H (S k) ltac:(lia)).
      rewrite !has_lo in H by lia. destruct (N.testbit (fst D) (N.of_nat k)).
      * rewrite H; reflexivity.
      * apply andb_false_r.
    + intros k Hk. rewrite N.land_spec. specialize (H (k + 65) ltac:(lia)).
      rewrite !has_hi in H by lia. destruct (N.testbit (snd D) (N.of_nat k)).
      * rewrite H; reflexivity.
      * apply andb_false_r.
Qed.

Lemma IsUnfinished_spec F t n : 1 <= n <= 128 -> bnd t ->
  (forall k, 1 <= k <= 128 -> has t k = Nat.eqb k n) ->
  IsUnfinished F t = negb (has F n).
Proof.
  intros Hn [B1 B2] Ht. unfold IsUnfinished.
  destruct (has F n) eqn:HF; simpl.
  - apply N.eqb_neq. intros E. apply N.lor_eq_0_iff in E. destruct E as [E1 E2].
    pose proof (Ht n Hn) as T. rewrite Nat.eqb_refl in T.
    destruct (le_lt_dec n 64) as [L|L].
    + replace n with (S (n - 1)) in * by lia. rewrite has_lo in HF, T by lia.
      assert (X : N.testbit (N.land (fst F) (fst t)) (N.of_nat (n - 1)) = true)
        by (rewrite N.land_spec, HF, T; reflexivity).
      rewrite E1, N.bits_0 in X. discriminate.
    + replace n with ((n - 65) + 65) in * by lia. rewrite has_hi in HF, T by lia.
      assert (X : N.testbit (N.land (snd F) (snd t)) (N.of_nat (n - 65)) = true)
        by (rewrite N.land_spec, HF, T; reflexivity).
      rewrite E2, N.bits_0 in X. discriminate.
  - apply N.eqb_eq. apply N.lor_eq_0_iff.
    split; apply bits_ext; try (apply land_bnd; assumption); try reflexivity;
      intros k Hk; rewrite N.land_spec, N.bits_0.
    + pose proof (Ht (S k) ltac:(lia)) as T. rewrite has_lo in T by lia. rewrite T.
      destruct (Nat.eqb_spec (S k) n) as [<-|]; [|apply andb_false_r].
      rewrite has_lo in HF by lia. rewrite HF. reflexivity.
    + pose proof (Ht (k + 65) ltac:(lia)) as T. rewrite has_hi in T by lia. rewrite T.
      destruct (Nat.eqb_spec (k + 65) n) as [<-|]; [|apply andb_false_r].
      rewrite has_hi in HF by lia. rewrite HF. reflexivity.
Qed.

Lemma or_all_spec ds : (forall d, In d ds -> 1 <= d <= 128) ->
  exists t, or_all ds = Some t /\ bnd t /\
    forall k, 1 <= k <= 128 -> (has t k = true <-> In k ds).
Proof.
  induction ds as [|d ds IH]; intros H.
  - exists (0%N, 0%N). split; [reflexivity|]. split; [split; reflexivity|].
    intros k Hk. rewrite has_zero. split; [discriminate|intros []].
  - destruct IH as (t & E & B & S0); [intros; apply H; right; assumption|].
    destruct (TaskID_spec d) as (u & E2 & B2 & S2); [apply H; left; reflexivity|].
    exists (tid_or u t). change (or_all (d :: ds)) with (match TaskID d, or_all ds with Some a, Some b => Some (tid_or a b) | _, _ => None end). rewrite E2, E. split; [reflexivity|].
    split; [apply bnd_or; assumption|]. intros k Hk. rewrite has_or, orb_true_iff, S0, S2 by lia.
    rewrite Nat.eqb_eq. simpl. intuition.
Qed.
