(** Exact arithmetic: absence of the fatal error and load bounds. *)
From Coq Require Import List Arith ZArith QArith Bool Lia Lqa Psatz SpecFloat.
From Verif Require Import LB_Model LB_Spec LB_Proofs.
Import ListNotations.
Local Open Scope nat_scope.

Lemma QN_S : forall n, (QN (S n) == QN n + 1)%Q.
Proof. intros n. unfold QN. rewrite Nat2Z.inj_succ. unfold Z.succ. rewrite inject_Z_plus. reflexivity. Qed.
Lemma QN_pos : forall n, 1 <= n -> (0 < QN n)%Q.
Proof. intros n H. unfold QN. change 0%Q with (inject_Z 0). rewrite <- Zlt_Qlt. lia. Qed.
Lemma QN_nonneg : forall n, (0 <= QN n)%Q.
Proof. intros n. unfold QN. change 0%Q with (inject_Z 0). rewrite <- Zle_Qle. lia. Qed.
Lemma QN_le : forall a b, (QN a <= QN b)%Q <-> a <= b.
Proof. intros a b. unfold QN. rewrite <- Zle_Qle. lia. Qed.
Lemma QN_mul : forall a b, (QN (a * b) == QN a * QN b)%Q.
Proof. intros. unfold QN. rewrite Nat2Z.inj_mul, inject_Z_mult. reflexivity. Qed.
Lemma QN_add : forall a b, (QN (a + b) == QN a + QN b)%Q.
Proof. intros. unfold QN. rewrite Nat2Z.inj_add, inject_Z_plus. reflexivity. Qed.

Lemma divn_mul : forall x n, 1 <= n -> (divn exactQ x n * QN n == x)%Q.
Proof. intros x n H. cbn. pose proof (QN_pos n H). unfold QN in *. field. lra. Qed.

(** Sums of costs. *)
Definition csum (cl : list Q) (n : nat) : Q := qsum n (cost cl).
Lemma sum_up_acc : forall cl acc, (sum_up exactQ cl acc == acc + sum_up exactQ cl 0)%Q.
Proof.
  induction cl as [|c cl IH]; intros acc; cbn [sum_up]; [lra|].
  rewrite (IH (add exactQ acc c)), (IH (add exactQ 0%Q c)). cbn. lra.
Qed.
Lemma qsum_shift : forall n f, (qsum (S n) f == f 0%nat + qsum n (fun k => f (S k)))%Q.
Proof.
  induction n as [|n IH]; intros f; [cbn; lra|].
  change (qsum (S (S n)) f) with (qsum (S n) f + f (S n))%Q. rewrite IH. cbn [qsum]. lra.
Qed.
Lemma total_csum : forall cl, (total_cost exactQ cl == csum cl (length cl))%Q.
Proof.
  unfold total_cost, csum. cbn [zero exactQ].
  induction cl as [|c cl IH]; [reflexivity|]. cbn [sum_up length]. rewrite sum_up_acc, IH, qsum_shift.
  unfold cost at 2. cbn [nth]. change (qsum (length cl) (fun k => cost (c :: cl) (S k))) with (qsum (length cl) (cost cl)).
  cbn. lra.
Qed.

Lemma cost_nonneg : forall cl b, nonneg_costs cl -> (0 <= cost cl b)%Q.
Proof.
  intros cl b H. unfold cost. destruct (Nat.lt_ge_cases b (length cl)) as [Hb|Hb].
  - apply H, nth_In, Hb.
  - rewrite nth_overflow by exact Hb. lra.
Qed.
Lemma qsum_nonneg : forall n f, (forall k, (0 <= f k)%Q) -> (0 <= qsum n f)%Q.
Proof. induction n as [|n IH]; intros f H; cbn [qsum]; [lra|]. specialize (IH f H). specialize (H n). lra. Qed.
Lemma csum_nonneg : forall cl n, nonneg_costs cl -> (0 <= csum cl n)%Q.
Proof. intros. apply qsum_nonneg. intros k. apply cost_nonneg. assumption. Qed.

Lemma ge_exact : forall x y, ge exactQ x y = true <-> (y <= x)%Q.
Proof. intros. cbn. apply Qle_bool_iff. Qed.
Lemma ge_exact_false : forall x y, ge exactQ x y = false -> (x < y)%Q.
Proof.
  intros x y H. destruct (Qlt_le_dec x y) as [|E]; [assumption|]. apply ge_exact in E. congruence.
Qed.

(** *** No fatal error with positive costs. *)
Lemma assign_total : forall cl n j total target my, positive_costs cl -> j < n -> n <= length cl ->
  (total == csum cl n + my)%Q -> (0 <= my)%Q -> (target * QN (S j) == total)%Q ->
  exists l, assign exactQ cl n j total target my = Some l.
Proof.
  intros cl n. induction n as [|i IH]; intros j total target my Hp Hj Hn Ht Hm Htg; [lia|].
  cbn [assign]. destruct (Nat.eqb_spec i j); [eexists; reflexivity|].
  assert (Hnn : nonneg_costs cl) by (intros c Hc; apply Qlt_le_weak, Hp, Hc).
  assert (Hci : (0 < cost cl i)%Q) by (apply Hp, nth_In; lia).
  pose proof (csum_nonneg cl i Hnn) as Hci'.
  assert (HS : (csum cl (S i) == csum cl i + cost cl i)%Q) by reflexivity.
  assert (Hz : is_zero exactQ target = false).
  { cbn. destruct (Qeq_bool target 0) eqn:E; [|reflexivity]. apply Qeq_bool_iff in E. rewrite E in Htg. lra. }
  rewrite Hz. change (nth i cl (zero exactQ)) with (cost cl i).
  destruct (ge exactQ (add exactQ my (cost cl i)) target && Nat.ltb 0 j) eqn:Eg.
  - apply andb_true_iff in Eg. destruct Eg as [_ Eg]. apply Nat.ltb_lt in Eg.
    destruct (IH (j - 1) (sub exactQ total (add exactQ my (cost cl i)))
                (divn exactQ (sub exactQ total (add exactQ my (cost cl i))) j) (zero exactQ) Hp) as [l E]; try lia.
    + cbn. rewrite Ht, HS. lra.
    + cbn. lra.
    + replace (S (j - 1)) with j by lia. apply divn_mul. lia.
    + cbn [exactQ sub add divn zero] in E |- *. rewrite E. eexists; reflexivity.
  - destruct (IH j total target (add exactQ my (cost cl i)) Hp) as [l E]; try lia.
    + cbn. rewrite Ht, HS. lra.
    + cbn. lra.
    + exact Htg.
    + rewrite E. eexists; reflexivity.
Qed.

Theorem lb_no_fatal : forall nranks nthreads cl, 1 <= nranks -> 1 <= nthreads -> positive_costs cl ->
  nranks * nthreads <= length cl -> exists rl tbl, CalculateLoadBalance exactQ nranks nthreads cl = Some (rl, tbl).
Proof.
  intros nranks nthreads cl Hr Ht Hp Hn. unfold CalculateLoadBalance.
  destruct (assign_total cl (length cl) (nranks - 1) (total_cost exactQ cl)
              (divn exactQ (total_cost exactQ cl) nranks) (zero exactQ) Hp) as [l E]; try nia.
  - rewrite total_csum. cbn. lra.
  - cbn. lra.
  - replace (S (nranks - 1)) with nranks by lia. apply divn_mul. lia.
  - rewrite E. destruct (Nat.ltb_spec (length cl) (nranks * nthreads)); [lia|]. eexists _, _. reflexivity.
Qed.

(** *** Load bound. *)
Lemma qsum_ext : forall n f g, (forall k, k < n -> (f k == g k)%Q) -> (qsum n f == qsum n g)%Q.
Proof.
  induction n as [|n IH]; intros f g H; cbn [qsum]; [reflexivity|]. rewrite (IH f g), (H n); [reflexivity|lia|].
  intros; apply H; lia.
Qed.
Lemma qsum_zero : forall n f, (forall k, k < n -> (f k == 0)%Q) -> (qsum n f == 0)%Q.
Proof.
  induction n as [|n IH]; intros f H; cbn [qsum]; [reflexivity|]. rewrite (IH f), (H n); [lra|lia|].
  intros; apply H; lia.
Qed.
Lemma qsum_single : forall n f b, b < n -> (forall k, k < n -> k <> b -> (f k == 0)%Q) -> (qsum n f == f b)%Q.
Proof.
  induction n as [|n IH]; intros f b Hb H; [lia|]. cbn [qsum].
  destruct (Nat.eq_dec b n) as [->|Hne].
  - rewrite qsum_zero; [lra|]. intros; apply H; lia.
  - rewrite (IH f b), (H n); [lra|lia|lia|lia|]. intros; apply H; lia.
Qed.

Lemma load_snoc : forall cl l n j r, length l = n ->
  (load cl (l ++ [j]) (S n) r == load cl l n r + (if Nat.eqb j r then cost cl n else 0))%Q.
Proof.
  intros cl l n j r Hl. unfold load. cbn [qsum].
  assert (E1 : nth n (l ++ [j]) 0 = j) by (rewrite app_nth2, Hl, Nat.sub_diag; [reflexivity|lia]).
  rewrite E1.
  rewrite (qsum_ext n _ (fun b => if Nat.eqb (nth b l 0) r then cost cl b else 0%Q)); [reflexivity|].
  intros k Hk. rewrite app_nth1 by lia. reflexivity.
Qed.
Lemma load_upto_snoc : forall cl l n j r, length l = n -> r < j ->
  (load_upto cl (l ++ [j]) (S n) r == load_upto cl l n r)%Q.
Proof.
  intros cl l n j r Hl Hr. unfold load_upto. cbn [qsum].
  assert (E1 : nth n (l ++ [j]) 0 = j) by (rewrite app_nth2, Hl, Nat.sub_diag; [reflexivity|lia]).
  rewrite E1. destruct (Nat.leb_spec j r); [lia|].
  rewrite (qsum_ext n _ (fun b => if Nat.leb (nth b l 0) r then cost cl b else 0%Q)); [lra|].
  intros k Hk. rewrite app_nth1 by lia. reflexivity.
Qed.
Lemma shape_le : forall C (a : arith C) cl n j total target my l b,
  j < n -> assign a cl n j total target my = Some l -> b < n -> nth b l 0 <= j.
Proof.
  intros C a cl n j total target my l b Hj H Hb.
  apply assign_shape in H; [|exact Hj]. destruct H as (cnts & Hl & _ & -> & Hlen).
  rewrite length_expand in Hlen. pose proof (expand_range cnts 0 b 0). lia.
Qed.
Lemma load_upto_all : forall cl l n r, (forall b, b < n -> nth b l 0 <= r) -> (load_upto cl l n r == csum cl n)%Q.
Proof.
  intros cl l n r H. unfold load_upto, csum. apply qsum_ext. intros k Hk. specialize (H k Hk).
  apply Nat.leb_le in H. rewrite H. reflexivity.
Qed.
Lemma load_none : forall cl l n r, (forall b, b < n -> nth b l 0 < r) -> (load cl l n r == 0)%Q.
Proof.
  intros cl l n r H. apply qsum_zero. intros k Hk. specialize (H k Hk).
  destruct (Nat.eqb_spec (nth k l 0) r); [lia|reflexivity].
Qed.
Lemma load_seq : forall cl n r, r < n -> (load cl (seq 0 n) n r == cost cl r)%Q.
Proof.
  intros cl n r Hr. unfold load. rewrite (qsum_single n _ r Hr).
  - rewrite seq_nth by exact Hr. rewrite Nat.eqb_refl. reflexivity.
  - intros k Hk Hne. rewrite seq_nth by exact Hk. destruct (Nat.eqb_spec (0 + k) r); [lia|reflexivity].
Qed.

Lemma assign_bound : forall cl, nonneg_costs cl -> forall n j total target my l, j < n ->
  (total == csum cl n + my)%Q -> (0 <= my)%Q -> (my <= target)%Q -> (target * QN (S j) == total)%Q ->
  assign exactQ cl n j total target my = Some l ->
  (exists b, b < n /\ nth b l 0 = j /\ (my + load cl l n j - cost cl b <= target)%Q) /\
  (forall r, r < j -> exists b, b < n /\ nth b l 0 = r /\
     ((load cl l n r - cost cl b) * QN (S r) <= load_upto cl l n r)%Q).
Proof.
  intros cl Hnn n. induction n as [|i IH]; intros j total target my l Hj Ht Hm Hmt Htg H; [lia|].
  pose proof H as Hcopy.
  cbn [assign] in H. destruct (Nat.eqb_spec i j) as [->|Hne].
  - injection H as <-. change (0 :: seq 1 j) with (seq 0 (S j)). split.
    + exists j. split; [lia|]. split; [rewrite seq_nth; lia|]. rewrite load_seq by lia. lra.
    + intros r Hr. exists r. split; [lia|]. split; [rewrite seq_nth; lia|]. rewrite load_seq by lia.
      assert (0 <= load_upto cl (seq 0 (S j)) (S j) r)%Q.
      { apply qsum_nonneg. intros k. pose proof (cost_nonneg cl k Hnn). destruct (Nat.leb _ _); lra. }
      assert (E : ((cost cl r - cost cl r) * QN (S r) == 0)%Q) by ring. rewrite E. assumption.
  - destruct (is_zero exactQ target) eqn:Ez; [discriminate|].
    change (nth i cl (zero exactQ)) with (cost cl i) in H.
    pose proof (cost_nonneg cl i Hnn) as Hci. pose proof (csum_nonneg cl i Hnn) as Hcs.
    assert (HS : (csum cl (S i) == csum cl i + cost cl i)%Q) by reflexivity.
    destruct (ge exactQ (add exactQ my (cost cl i)) target && Nat.ltb 0 j) eqn:Eg.
    + apply andb_true_iff in Eg. destruct Eg as [Eg Ej]. apply Nat.ltb_lt in Ej. apply ge_exact in Eg.
      set (tot' := sub exactQ total (add exactQ my (cost cl i))) in *.
      destruct (assign exactQ cl i (j - 1) tot' (divn exactQ tot' j) (zero exactQ)) as [l'|] eqn:E; [|discriminate].
      cbn [option_map] in H. injection H as <-.
      assert (Htot : (tot' == csum cl i)%Q) by (unfold tot'; cbn; rewrite Ht, HS; ring).
      pose proof (divn_mul tot' j Ej) as Hd.
      set (tg' := divn exactQ tot' j) in *. clearbody tg'. clearbody tot'.
      assert (Hlen : length l' = i) by (apply assign_shape in E; [destruct E as (? & _ & _ & _ & E); exact E|lia]).
      assert (Hle : forall b, b < i -> nth b l' 0 <= j - 1) by (intros b Hb; eapply shape_le; [|exact E|exact Hb]; lia).
      destruct (IH (j - 1) tot' tg' (zero exactQ) l') as [HA HB]; try assumption; try lia.
      * rewrite Htot. cbn. ring.
      * cbn. lra.
      * cbn [zero exactQ]. pose proof (QN_pos j Ej). rewrite Htot in Hd. nra.
      * replace (S (j - 1)) with j by lia. exact Hd.
      * split.
        -- exists i. split; [lia|]. split; [rewrite app_nth2, Hlen, Nat.sub_diag; [reflexivity|lia]|].
           rewrite load_snoc by exact Hlen. rewrite Nat.eqb_refl.
           rewrite (load_none cl l' i j) by (intros b Hb; specialize (Hle b Hb); lia). lra.
        -- intros r Hr. destruct (Nat.eq_dec r (j - 1)) as [->|Hrj].
           ++ destruct HA as (b & Hb & Hnb & HA). exists b. split; [lia|].
              split; [rewrite app_nth1 by lia; exact Hnb|].
              rewrite load_snoc, load_upto_snoc by (try exact Hlen; lia).
              destruct (Nat.eqb_spec j (j - 1)); [lia|].
              rewrite load_upto_all by exact Hle. replace (S (j - 1)) with j by lia.
              cbn [zero exactQ] in HA. rewrite Htot in Hd. pose proof (QN_pos j Ej). nra.
           ++ destruct (HB r) as (b & Hb & Hnb & HBr); [lia|]. exists b. split; [lia|].
              split; [rewrite app_nth1 by lia; exact Hnb|].
              rewrite load_snoc, load_upto_snoc by (try exact Hlen; lia).
              destruct (Nat.eqb_spec j r); [lia|].
              assert (E0 : (load cl l' i r + 0 - cost cl b == load cl l' i r - cost cl b)%Q) by ring. rewrite E0. exact HBr.
    + set (my' := add exactQ my (cost cl i)) in *.
      destruct (assign exactQ cl i j total target my') as [l'|] eqn:E; [|discriminate].
      cbn [option_map] in H. injection H as <-.
      assert (Hmy : (my' == my + cost cl i)%Q) by reflexivity.
      assert (Hlen : length l' = i) by (apply assign_shape in E; [destruct E as (? & _ & _ & _ & E); exact E|lia]).
      destruct (IH j total target my' l') as [HA HB]; try assumption; try lia.
      * rewrite Ht, HS, Hmy. ring.
      * lra.
      * apply andb_false_iff in Eg. destruct Eg as [Eg|Eg]; [apply ge_exact_false in Eg; lra|].
        apply Nat.ltb_ge in Eg. assert (j = 0) by lia. subst j. rewrite QN_S in Htg.
        change (QN 0) with 0%Q in Htg. lra.
      * split.
        -- destruct HA as (b & Hb & Hnb & HA). exists b. split; [lia|]. split; [rewrite app_nth1 by lia; exact Hnb|].
           rewrite load_snoc by exact Hlen. rewrite Nat.eqb_refl. lra.
        -- intros r Hr. destruct (HB r Hr) as (b & Hb & Hnb & HBr). exists b. split; [lia|].
           split; [rewrite app_nth1 by lia; exact Hnb|].
           rewrite load_snoc, load_upto_snoc by (try exact Hlen; lia).
           destruct (Nat.eqb_spec j r); [lia|].
           assert (E0 : (load cl l' i r + 0 - cost cl b == load cl l' i r - cost cl b)%Q) by ring. rewrite E0. exact HBr.
Qed.

Theorem lb_bound : forall nranks nthreads cl rl tbl, 1 <= nranks -> 1 <= nthreads -> nonneg_costs cl ->
  CalculateLoadBalance exactQ nranks nthreads cl = Some (rl, tbl) ->
  forall r, r < nranks -> exists b, b < length cl /\ nth b rl 0 = r /\
    (load cl rl (length cl) r <= load_upto cl rl (length cl) r / QN (S r) + cost cl b)%Q.
Proof.
  intros nranks nthreads cl rl tbl Hr Hth Hnn H r Hlt. unfold CalculateLoadBalance in H.
  destruct (assign exactQ cl (length cl) (nranks - 1) _ _ _) as [l|] eqn:E; [|discriminate].
  destruct (Nat.ltb_spec (length cl) (nranks * nthreads)) as [|Hge]; [discriminate|]. injection H as <- <-.
  assert (Hnb : nranks <= length cl) by nia.
  pose proof (QN_pos nranks Hr) as Hpos.
  pose proof (divn_mul (total_cost exactQ cl) nranks Hr) as Hd.
  pose proof (csum_nonneg cl (length cl) Hnn) as Hcs.
  pose proof (total_csum cl) as Htot.
  set (tg := divn exactQ (total_cost exactQ cl) nranks) in *. clearbody tg.
  set (tot := total_cost exactQ cl) in *. clearbody tot.
  destruct (assign_bound cl Hnn (length cl) (nranks - 1) tot tg
              (zero exactQ) l) as [HA HB]; try assumption; try lia.
  - rewrite Htot. cbn. ring.
  - cbn. lra.
  - cbn [zero exactQ]. rewrite Htot in Hd. nra.
  - replace (S (nranks - 1)) with nranks by lia. exact Hd.
  - pose proof (QN_pos (S r) ltac:(lia)) as Hpr.
    assert (Hfin : forall b, ((load cl l (length cl) r - cost cl b) * QN (S r) <= load_upto cl l (length cl) r)%Q ->
       (load cl l (length cl) r <= load_upto cl l (length cl) r / QN (S r) + cost cl b)%Q).
    { intros b Hb. apply Qle_shift_div_l in Hb; [|exact Hpr]. lra. }
    destruct (Nat.eq_dec r (nranks - 1)) as [->|Hne].
    + destruct HA as (b & Hb & Hn & HA). exists b. split; [exact Hb|]. split; [exact Hn|]. apply Hfin.
      rewrite load_upto_all by (intros b' Hb'; eapply shape_le; [|exact E|exact Hb']; lia).
      replace (S (nranks - 1)) with nranks in * by lia. cbn [zero exactQ] in HA. rewrite Htot in Hd. nra.
    + destruct (HB r) as (b & Hb & Hn & HBr); [lia|]. exists b. split; [exact Hb|]. split; [exact Hn|]. apply Hfin, HBr.
Qed.

(** *** Equal costs. *)
Lemma assign_equal : forall cl c, (0 < c)%Q -> (forall b, b < length cl -> (cost cl b == c)%Q) ->
  forall n j total target my m l, j < n -> n <= length cl ->
  (my == QN m * c)%Q -> (total == QN (n + m) * c)%Q -> (target * QN (S j) == total)%Q ->
  (m = 0 \/ j = 0 \/ m * S j < n + m) ->
  assign exactQ cl n j total target my = Some l ->
  exists cnts k, l = expand 0 (cnts ++ [k]) /\ length cnts = j /\
    (forall x, In x ((k + m) :: cnts) -> (n + m) / S j <= x <= (n + m) / S j + 1).
Proof.
  intros cl c Hc Hcl n. induction n as [|i IH]; intros j total target my m l Hj Hn Hmy Ht Htg Hm H; [lia|].
  cbn [assign] in H. destruct (Nat.eqb_spec i j) as [->|Hne].
  - injection H as <-. exists (repeat 1 j), 1. split.
    + rewrite repeat_snoc, expand_ones. reflexivity.
    + split; [apply repeat_length|]. intros x Hx.
      assert (Hx' : x = 1 + m \/ (x = 1 /\ 0 < j)).
      { destruct Hx as [<-|Hx]; [left; lia|]. right. pose proof (repeat_spec _ _ _ Hx). split; [assumption|].
        destruct j; [destruct Hx|lia]. }
      destruct Hm as [->|[->|Hm]].
      * rewrite Nat.add_0_r in *. rewrite Nat.div_same by lia. lia.
      * cbn [plus]. rewrite Nat.div_1_r. destruct Hx' as [->|[_ ?]]; lia.
      * assert (Hm1 : m = 0 \/ j = 0 \/ m = 1) by nia.
        destruct Hm1 as [->|[->| ->]].
        -- rewrite Nat.add_0_r in *. rewrite Nat.div_same by lia. lia.
        -- cbn [plus]. rewrite Nat.div_1_r. destruct Hx' as [->|[_ ?]]; lia.
        -- destruct (Nat.eq_dec j 0) as [->|Hj0].
           { cbn [plus]. rewrite Nat.div_1_r. destruct Hx' as [->|[_ ?]]; lia. }
           assert (Hq : (S j + 1) / S j = 1).
           { symmetry. apply (Nat.div_unique (S j + 1) (S j) 1 1); lia. }
           rewrite Hq. lia.
  - destruct (is_zero exactQ target) eqn:Ez; [discriminate|].
    change (nth i cl (zero exactQ)) with (cost cl i) in H.
    assert (Hci : (cost cl i == c)%Q) by (apply Hcl; lia).
    set (my' := add exactQ my (cost cl i)) in *.
    assert (Hmy' : (my' == QN (S m) * c)%Q) by (unfold my'; cbn; rewrite Hmy, Hci, QN_S; ring).
    clearbody my'.
    assert (Hcmp : (target <= my')%Q <-> S i + m <= S m * S j).
    { rewrite Hmy'. pose proof (QN_pos (S j) ltac:(lia)) as Hp.
      rewrite <- QN_le, QN_mul. split; intros Hx.
      - assert (Hy : (target * QN (S j) <= (QN (S m) * c) * QN (S j))%Q) by (apply Qmult_le_compat_r; [exact Hx|lra]).
        rewrite Htg, Ht in Hy. apply (Qmult_le_r _ _ c Hc). lra.
      - apply (Qmult_le_r _ _ (QN (S j)) Hp). rewrite Htg, Ht.
        apply (Qmult_le_compat_r _ _ c) in Hx; [|lra]. lra. }
    destruct (ge exactQ my' target && Nat.ltb 0 j) eqn:Eg.
    + apply andb_true_iff in Eg. destruct Eg as [Eg Ej]. apply Nat.ltb_lt in Ej. apply ge_exact, Hcmp in Eg.
      set (tot' := sub exactQ total my') in *.
      destruct (assign exactQ cl i (j - 1) tot' (divn exactQ tot' j) (zero exactQ)) as [l'|] eqn:E; [|discriminate].
      cbn [option_map] in H. injection H as <-.
      destruct (IH (j - 1) tot' (divn exactQ tot' j) (zero exactQ) 0 l') as (cnts & k & -> & Hlc & Hall); try assumption; try lia.
      * change (0 == QN 0 * c)%Q. change (QN 0) with 0%Q. ring.
      * change (total - my' == QN (i + 0) * c)%Q. rewrite Ht, Hmy', !QN_add, !QN_S. change (QN 0) with 0%Q. ring.
      * replace (S (j - 1)) with j by lia. apply divn_mul. lia.
      * exists (cnts ++ [k]), 1. split.
        -- rewrite (expand_app (cnts ++ [k]) [1]). cbn [expand repeat app]. rewrite app_length. cbn [length].
           do 2 f_equal. lia.
        -- rewrite app_length. cbn [length]. split; [lia|].
           replace (S (j - 1)) with j in Hall by lia.
           set (q := (S i + m) / S j).
           assert (Hdm : S i + m = S j * q + (S i + m) mod S j) by (apply Nat.div_mod; lia).
           pose proof (Nat.mod_upper_bound (S i + m) (S j) ltac:(lia)) as Hmod.
           set (s := (S i + m) mod S j) in *.
           assert (Hqm : (s = 0 /\ S m = q) \/ (0 < s /\ S m = S q)).
           { destruct (Nat.eq_dec s 0) as [Hs0|Hs0].
             - left. split; [exact Hs0|]. destruct Hm as [->|[?|Hm]]; [|lia|]; nia.
             - right. split; [lia|]. destruct Hm as [->|[?|Hm]]; [|lia|]; nia. }
           assert (Hq' : i / j = q).
           { symmetry. destruct Hqm as [[Hs0 Hq0]|[Hs0 Hq0]].
             - apply (Nat.div_unique i j q 0); nia.
             - apply (Nat.div_unique i j q (s - 1)); nia. }
           rewrite !Nat.add_0_r, Hq' in Hall. intros x [<-|Hx].
           ++ lia.
           ++ apply in_app_iff in Hx. apply Hall. cbn. destruct Hx as [Hx|[<-|[]]]; [right; exact Hx|left; reflexivity].
    + destruct (assign exactQ cl i j total target my') as [l'|] eqn:E; [|discriminate].
      cbn [option_map] in H. injection H as <-.
      destruct (IH j total target my' (S m) l') as (cnts & k & -> & Hlc & Hall); try assumption; try lia.
      * replace (i + S m) with (S i + m) by lia. exact Ht.
      * apply andb_false_iff in Eg. destruct Eg as [Eg|Eg].
        -- right. right. destruct (Nat.lt_ge_cases (S m * S j) (i + S m)) as [Hlt|Hge]; [exact Hlt|].
           assert (target <= my')%Q by (apply Hcmp; lia). apply ge_exact_false in Eg. lra.
        -- apply Nat.ltb_ge in Eg. right. left. lia.
      * exists cnts, (S k). split.
        -- rewrite !expand_app. cbn [expand]. rewrite !app_nil_r, <- app_assoc. f_equal.
           replace j with (0 + length cnts) by lia. apply repeat_snoc.
        -- split; [exact Hlc|]. replace (i + S m) with (S i + m) in Hall by lia.
           replace (S k + m) with (k + S m) by lia. exact Hall.
Qed.

Theorem lb_equal : forall nranks nthreads cl c rl tbl, 1 <= nranks -> 1 <= nthreads -> (0 < c)%Q ->
  (forall x, In x cl -> (x == c)%Q) ->
  CalculateLoadBalance exactQ nranks nthreads cl = Some (rl, tbl) ->
  forall s n, In (s, n) tbl -> length cl / nranks <= n <= length cl / nranks + 1.
Proof.
  intros nranks nthreads cl c rl tbl Hr Hth Hc Hcl H s n Hin. unfold CalculateLoadBalance in H.
  destruct (assign exactQ cl (length cl) (nranks - 1) _ _ _) as [l|] eqn:E; [|discriminate].
  destruct (Nat.ltb_spec (length cl) (nranks * nthreads)) as [|Hge]; [discriminate|]. injection H as <- <-.
  assert (Hnb : nranks <= length cl) by nia.
  assert (Hcost : forall b, b < length cl -> (cost cl b == c)%Q) by (intros b Hb; apply Hcl, nth_In, Hb).
  pose proof E as Esh. apply assign_shape in Esh; [|lia]. destruct Esh as (cnts0 & Hl0 & H10 & El0 & _).
  destruct (assign_equal cl c Hc Hcost (length cl) (nranks - 1) (total_cost exactQ cl) (divn exactQ (total_cost exactQ cl) nranks)
              (zero exactQ) 0 l) as (cnts & k & -> & Hlc & Hall); try assumption; try lia.
  - change (0 == QN 0 * c)%Q. change (QN 0) with 0%Q. ring.
  - rewrite total_csum, Nat.add_0_r. unfold csum. clear -Hcost.
    assert (G : forall n, n <= length cl -> (qsum n (cost cl) == QN n * c)%Q).
    { induction n as [|n IH]; intros Hn; [change (0 == 0 * c)%Q; ring|]. cbn [qsum]. rewrite IH, Hcost, QN_S by lia. ring. }
    apply G. lia.
  - replace (S (nranks - 1)) with nranks by lia. apply divn_mul. lia.
  - rewrite !Nat.add_0_r in Hall. replace (S (nranks - 1)) with nranks in Hall by lia.
    assert (H1 : forall x, In x (cnts ++ [k]) -> 1 <= x).
    { intros x Hx. assert (1 <= length cl / nranks) by (apply Nat.div_le_lower_bound; lia).
      assert (length cl / nranks <= x) by (apply Hall; apply in_app_iff in Hx; cbn; destruct Hx as [Hx|[<-|[]]]; auto). lia. }
    rewrite tables_expand in Hin; [|destruct cnts; discriminate|exact H1].
    assert (Hn : In n (cnts ++ [k])).
    { clear -Hin. revert Hin. generalize 0. induction (cnts ++ [k]) as [|x xs IH]; intros t Hin; [destruct Hin|].
      cbn in Hin. destruct Hin as [Hin|Hin]; [injection Hin as _ <-; left; reflexivity|right; eapply IH; exact Hin]. }
    apply Hall. apply in_app_iff in Hn. cbn. destruct Hn as [Hn|[<-|[]]]; auto.
Qed.

(** *** Rounding can trigger the fatal error. *)
Definition b64 (m : Z) (e : Z) : spec_float := binary_normalize 53 1024 m e false.
Definition bad_costs : list spec_float := [b64 1 (-70); b64 1 (-70); b64 1 0].
Lemma lb_float_fatal : CalculateLoadBalance binary64 2 1 bad_costs = None.
Proof. vm_compute. reflexivity. Qed.
