From Coq Require Import List Arith ZArith QArith Bool Lia Lqa Psatz.
From Verif Require Import LB_Model LB_Spec.
Import ListNotations.
Local Open Scope nat_scope.

(** ** Shape of the result. *)
Fixpoint expand (s : nat) (cnts : list nat) : list nat :=
  match cnts with [] => [] | c :: cs => repeat s c ++ expand (S s) cs end.

Lemma expand_app : forall a b s, expand s (a ++ b) = expand s a ++ expand (s + length a) b.
Proof.
  induction a as [|c a IH]; intros b s; cbn; [f_equal; lia|].
  rewrite IH, <- app_assoc. do 3 f_equal. lia.
Qed.
Lemma expand_ones : forall n s, expand s (repeat 1 n) = seq s n.
Proof. induction n as [|n IH]; intros s; cbn; [reflexivity|]. rewrite IH. reflexivity. Qed.
Lemma repeat_snoc : forall (A : Type) (x : A) n, repeat x n ++ [x] = repeat x (S n).
Proof. intros A x n. induction n as [|n IH]; cbn; [reflexivity|]. rewrite IH. reflexivity. Qed.

Lemma assign_shape : forall C (a : arith C) cl n j total target my l,
  j < n -> assign a cl n j total target my = Some l ->
  exists cnts, length cnts = S j /\ (forall c, In c cnts -> 1 <= c) /\ l = expand 0 cnts /\ length l = n.
Proof.
  intros C a cl n. induction n as [|i IH]; intros j total target my l Hj H; [lia|].
  cbn [assign] in H. destruct (Nat.eqb_spec i j) as [->|Hne].
  - injection H as <-. exists (repeat 1 (S j)). rewrite expand_ones, repeat_length. repeat split.
    + intros c Hc. apply repeat_spec in Hc. lia.
    + change (0 :: seq 1 j) with (seq 0 (S j)). apply seq_length.
  - destruct (is_zero a target); [discriminate|].
    destruct (ge a (add a my (nth i cl (zero a))) target && Nat.ltb 0 j) eqn:Eg.
    + apply andb_true_iff in Eg. destruct Eg as [_ Eg]. apply Nat.ltb_lt in Eg.
      destruct (assign a cl i (j - 1) _ _ _) as [l'|] eqn:E; [|discriminate]. cbn in H. injection H as <-.
      apply IH in E; [|lia]. destruct E as (cnts & Hl & H1 & -> & Hlen).
      exists (cnts ++ [1]). rewrite app_length. cbn [length]. repeat split; try lia.
      * intros c Hc. apply in_app_iff in Hc. destruct Hc as [Hc|[<-|[]]]; [apply H1; exact Hc|lia].
      * rewrite expand_app. cbn. rewrite Hl. do 2 f_equal. lia.
      * rewrite app_length. cbn. lia.
    + destruct (assign a cl i j _ _ _) as [l'|] eqn:E; [|discriminate]. cbn in H. injection H as <-.
      apply IH in E; [|lia]. destruct E as (cnts & Hl & H1 & -> & Hlen).
      destruct (exists_last (l:=cnts)) as (cs & c & ->); [intros ->; discriminate|].
      exists (cs ++ [S c]). rewrite app_length in *. cbn [length] in *. repeat split; try lia.
      * intros c' Hc. apply in_app_iff in Hc. destruct Hc as [Hc|[<-|[]]]; [apply H1, in_app_iff; left; exact Hc|lia].
      * rewrite !expand_app. cbn [expand]. rewrite !app_nil_r, <- app_assoc. f_equal.
        replace j with (0 + length cs) by lia. apply repeat_snoc.
      * rewrite app_length. cbn. lia.
Qed.

(** starts of consecutive intervals *)
Fixpoint starts (s : nat) (cnts : list nat) : list (nat * nat) :=
  match cnts with [] => [] | c :: cs => (s, c) :: starts (s + c) cs end.

Lemma runs_repeat : forall c i start prev rl, runs i start prev (repeat prev c ++ rl) = runs (i + c) start prev rl.
Proof.
  induction c as [|c IH]; intros i start prev rl; cbn; [f_equal; lia|].
  rewrite Nat.eqb_refl, IH. f_equal. lia.
Qed.
Lemma runs_expand : forall cnts i start prev, start <= i -> (forall c, In c cnts -> 1 <= c) ->
  runs i start prev (expand (S prev) cnts) = (start, i - start) :: starts i cnts.
Proof.
  induction cnts as [|c cnts IH]; intros i start prev Hs H1; cbn [expand starts]; [reflexivity|].
  assert (Hc : 1 <= c) by (apply H1; left; reflexivity). destruct c as [|c]; [lia|].
  cbn [repeat app runs]. destruct (Nat.eqb_spec (S prev) prev); [lia|]. f_equal.
  rewrite runs_repeat, IH; [|lia|intros; apply H1; right; assumption].
  replace (S i + c - i) with (S c) by lia. replace (i + S c) with (S i + c) by lia. reflexivity.
Qed.
Lemma tables_expand : forall cnts, cnts <> [] -> (forall c, In c cnts -> 1 <= c) ->
  tables (expand 0 cnts) = starts 0 cnts.
Proof.
  intros [|c cnts] Hn H1; [congruence|]. assert (Hc : 1 <= c) by (apply H1; left; reflexivity).
  destruct c as [|c]; [lia|]. cbn [expand repeat app tables]. rewrite runs_repeat.
  rewrite runs_expand; [|lia|intros; apply H1; right; assumption]. cbn [starts plus]. rewrite Nat.sub_0_r. reflexivity.
Qed.

Lemma length_expand : forall cnts s, length (expand s cnts) = list_sum cnts.
Proof. induction cnts as [|c cs IH]; intros s; cbn; [reflexivity|]. rewrite app_length, repeat_length, IH. reflexivity. Qed.
Lemma starts_length : forall cnts s, length (starts s cnts) = length cnts.
Proof. induction cnts; intros s; cbn; [reflexivity|]. f_equal. apply IHcnts. Qed.

Lemma sum_cons : forall c cs, list_sum (c :: cs) = c + list_sum cs.
Proof. reflexivity. Qed.
Lemma nth_rep : forall (A : Type) (x d : A) n b, b < n -> nth b (repeat x n) d = x.
Proof. intros A x d n. induction n as [|n IH]; intros [|b] H; cbn; try lia; [reflexivity|]. apply IH. lia. Qed.
Lemma expand_range : forall cnts s b d, b < list_sum cnts -> s <= nth b (expand s cnts) d < s + length cnts.
Proof.
  induction cnts as [|c cs IH]; intros s b d Hb; [cbn in Hb; lia|]. rewrite sum_cons in Hb. cbn [expand length].
  destruct (Nat.lt_ge_cases b c) as [H|H].
  - rewrite app_nth1 by (rewrite repeat_length; exact H). rewrite nth_rep by exact H. lia.
  - rewrite app_nth2 by (rewrite repeat_length; exact H). rewrite repeat_length.
    specialize (IH (S s) (b - c) d). lia.
Qed.

Lemma expand_mono : forall cnts s b b' d, b <= b' -> b' < list_sum cnts ->
  nth b (expand s cnts) d <= nth b' (expand s cnts) d.
Proof.
  induction cnts as [|c cs IH]; intros s b b' d Hb Hb'; [cbn in Hb'; lia|]. rewrite sum_cons in Hb'. cbn [expand].
  destruct (Nat.lt_ge_cases b c) as [H|H].
  - rewrite app_nth1 by (rewrite repeat_length; exact H). rewrite nth_rep by exact H.
    destruct (Nat.lt_ge_cases b' c) as [H'|H'].
    + rewrite app_nth1 by (rewrite repeat_length; exact H'). rewrite nth_rep by exact H'. lia.
    + rewrite app_nth2 by (rewrite repeat_length; exact H'). rewrite repeat_length.
      pose proof (expand_range cs (S s) (b' - c) d). lia.
  - rewrite !app_nth2 by (rewrite repeat_length; lia). rewrite !repeat_length. apply IH; lia.
Qed.

Lemma expand_owner : forall cnts s t r d, (forall c, In c cnts -> 1 <= c) -> r < length cnts -> d < s \/ s + length cnts <= d ->
  exists st n, nth_error (starts t cnts) r = Some (st, n) /\ 1 <= n /\
    forall b, b < list_sum cnts -> (nth b (expand s cnts) d = s + r <-> st <= t + b < st + n).
Proof.
  induction cnts as [|c cs IH]; intros s t r d H1 Hr Hd; cbn [length] in *; [lia|].
  assert (Hc : 1 <= c) by (apply H1; left; reflexivity).
  destruct r as [|r].
  - exists t, c. split; [reflexivity|]. split; [exact Hc|]. intros b Hb. rewrite sum_cons in Hb. cbn [expand].
    destruct (Nat.lt_ge_cases b c) as [H|H].
    + rewrite app_nth1 by (rewrite repeat_length; exact H). rewrite nth_rep by exact H. lia.
    + rewrite app_nth2 by (rewrite repeat_length; exact H). rewrite repeat_length.
      pose proof (expand_range cs (S s) (b - c) d). lia.
  - destruct (IH (S s) (t + c) r d) as (st & n & E & Hn & Hown); [intros; apply H1; right; assumption|lia|lia|].
    exists st, n. split; [exact E|]. split; [exact Hn|]. intros b Hb. rewrite sum_cons in Hb.
    cbn [expand].
    assert (Hst : t + c <= st).
    { clear -E. revert t c r E. induction cs as [|c' cs IH]; intros t c r E; [destruct r; discriminate|].
      destruct r as [|r]; cbn in E; [injection E as <- <-; lia|]. apply (IH (t + c) c') in E. lia. }
    destruct (Nat.lt_ge_cases b c) as [H|H].
    + rewrite app_nth1 by (rewrite repeat_length; exact H). rewrite nth_rep by exact H. lia.
    + rewrite app_nth2 by (rewrite repeat_length; exact H). rewrite repeat_length.
      specialize (Hown (b - c)). replace (s + S r) with (S s + r) by lia. rewrite Hown by lia. lia.
Qed.

Lemma starts_bound : forall cnts t r st n, nth_error (starts t cnts) r = Some (st, n) -> st + n <= t + list_sum cnts.
Proof.
  induction cnts as [|c cs IH]; intros t r st n E; [destruct r; discriminate|]. rewrite sum_cons.
  destruct r as [|r]; cbn [starts nth_error] in E; [injection E as <- <-; lia|]. apply IH in E. lia.
Qed.
Theorem lb_partition : forall C (a : arith C) nranks nthreads cl rl tbl, 1 <= nranks -> 1 <= nthreads ->
  CalculateLoadBalance a nranks nthreads cl = Some (rl, tbl) -> good_partition nranks (length cl) rl tbl.
Proof.
  intros C a nranks nthreads cl rl tbl Hr Ht H. unfold CalculateLoadBalance in H.
  destruct (assign a cl (length cl) (nranks - 1) _ _ _) as [l|] eqn:E; [|discriminate].
  destruct (Nat.ltb_spec (length cl) (nranks * nthreads)) as [|Hge]; [discriminate|]. injection H as <- <-.
  assert (Hnb : nranks <= length cl) by nia.
  apply assign_shape in E; [|lia]. destruct E as (cnts & Hl & H1 & -> & Hlen).
  assert (Hsum : list_sum cnts = length cl) by (rewrite <- (length_expand cnts 0); exact Hlen).
  split; [exact Hlen|]. rewrite tables_expand; [|intros ->; cbn in Hl; lia|exact H1].
  split; [rewrite starts_length; lia|]. split; [|split].
  - intros b Hb. pose proof (expand_range cnts 0 b nranks). lia.
  - intros b b' Hb Hb'. apply expand_mono; lia.
  - intros r Hlt. destruct (expand_owner cnts 0 0 r nranks) as (s & n & E & Hn & Hown); [exact H1|lia|right; lia|].
    exists s, n. split; [exact E|]. split; [exact Hn|]. split.
    { pose proof (starts_bound cnts 0 r s n E). lia. }
    intros b Hb. rewrite (Hown b) by lia. lia.
Qed.
