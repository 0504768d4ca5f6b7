(** Proofs for the random number generator. *)
From Coq Require Import ZArith List QArith Bool Lia Znumtheory.
From Verif Require Import Ran_Model Ran_Spec.
Import ListNotations.
Local Open Scope Z_scope.

Lemma i64_ok : forall x, - 9223372036854775808 <= x < 9223372036854775808 -> i64 x = Some x.
Proof.
  intros x H. unfold i64. change (- 2 ^ 63) with (- 9223372036854775808). change (2 ^ 63) with 9223372036854775808.
  rewrite (proj2 (Z.leb_le _ _)) by lia. rewrite (proj2 (Z.ltb_lt _ _)) by lia. reflexivity.
Qed.
Lemma schrage_ok : forall ia iq ir im x, 0 < ia < 50000 -> 0 < iq < 60000 -> 0 <= ir < 20000 -> im = ia * iq + ir -> 0 <= x < 3000000000 -> (x / iq) * ir < im ->
  schrage ia iq ir im x = Some ((ia * x) mod im).
Proof.
  intros ia iq ir im x Ha Hq Hr Him Hx Hk. unfold schrage. cbv zeta. rewrite Z.quot_div_nonneg by lia. set (k := x / iq) in *.
  assert (E : x = iq * k + x mod iq) by (apply Z.div_mod; lia). pose proof (Z.mod_pos_bound x iq ltac:(lia)) as B. set (d := x mod iq) in *.
  assert (Hk0 : 0 <= k) by (apply Z.div_pos; lia). assert (Hk1 : k <= 3000000000) by nia.
  unfold mul, sub, add. assert (M1 : 0 <= k * iq <= 3000000000) by nia. rewrite i64_ok by lia. cbn [bind]. replace (x - k * iq) with d by nia. rewrite i64_ok by lia. cbn [bind].
  assert (M2 : 0 <= ia * d <= ia * (iq - 1)) by nia. assert (M2' : ia * (iq - 1) < im) by nia. assert (M2'' : im < 50000 * 60000 + 20000) by (pose proof (Z.mul_le_mono_nonneg ia 50000 iq 60000 ltac:(lia) ltac:(lia) ltac:(lia) ltac:(lia)); lia). rewrite i64_ok by lia. cbn [bind].
  assert (M3 : 0 <= k * ir) by nia. rewrite i64_ok by lia. cbn [bind]. rewrite i64_ok by lia. cbn [bind].
  assert (E2 : ia * x = ia * d - k * ir + k * im) by (rewrite Him; rewrite E at 1; ring).
  destruct (Z.ltb (ia * d - k * ir) 0) eqn:L; [apply Z.ltb_lt in L|apply Z.ltb_ge in L].
  - rewrite i64_ok by lia. f_equal. apply (Z.mod_unique _ _ (k - 1)); [lia|]. rewrite E2. ring.
  - f_equal. apply (Z.mod_unique _ _ k); [lia|]. rewrite E2. ring.
Qed.
Lemma step1 : forall x, 0 <= x < IMR1 -> schrage IA1 IQ1 IR1 IMR1 x = Some ((IA1 * x) mod IMR1).
Proof.
  intros x Hx. unfold IMR1 in Hx. apply schrage_ok; try (unfold IA1, IQ1, IR1; lia); [reflexivity|].
  assert (x / IQ1 < 40015) by (unfold IQ1; apply Z.div_lt_upper_bound; lia). unfold IR1, IMR1. lia.
Qed.
Lemma step2 : forall x, 0 <= x < IMR1 -> schrage IA2 IQ2 IR2 IMR2 x = Some ((IA2 * x) mod IMR2).
Proof.
  intros x Hx. unfold IMR1 in Hx. apply schrage_ok; try (unfold IA2, IQ2, IR2; lia); [reflexivity|].
  assert (x / IQ2 < 40693) by (unfold IQ2; apply Z.div_lt_upper_bound; lia). unfold IR2, IMR2. lia.
Qed.
Lemma coprime : rel_prime IMR1 IA1. Proof. apply Zgcd_1_rel_prime. reflexivity. Qed.
Lemma never_zero : forall x, 1 <= x < IMR1 -> 1 <= (IA1 * x) mod IMR1 < IMR1.
Proof.
  intros x Hx. pose proof (Z.mod_pos_bound (IA1 * x) IMR1 ltac:(reflexivity)) as B.
  destruct (Z.eq_dec ((IA1 * x) mod IMR1) 0) as [E|E]; [exfalso|lia].
  apply Z.mod_divide in E; [|discriminate]. apply Gauss in E; [|exact coprime]. apply Z.divide_pos_le in E; lia.
Qed.
Lemma lcg_S : forall a m s n, m <> 0 -> (a * lcg a m s n) mod m = lcg a m s (S n).
Proof.
  intros a m s n Hm. unfold lcg. rewrite Z.mul_mod_idemp_r by exact Hm. f_equal. rewrite Nat2Z.inj_succ, Z.pow_succ_r by lia. ring.
Qed.
Lemma lcg_0 : forall a m s, 0 <= s < m -> lcg a m s 0 = s. Proof. intros a m s H. unfold lcg. change (a ^ Z.of_nat 0) with 1. rewrite Z.mul_1_l. apply Z.mod_small. exact H. Qed.

Lemma set_ok : forall l j x, (j < length l)%nat -> exists l', set l j x = Some l' /\ length l' = length l /\ nth_error l' j = Some x /\ (forall i, i <> j -> nth_error l' i = nth_error l i) /\ (forall P, Forall P l -> P x -> Forall P l').
Proof.
  induction l as [|a l IH]; intros j x H; [cbn in H; lia|]. destruct j as [|j]; cbn [set].
  - exists (x :: l). repeat split. { intros [|i] Hi; [contradiction|reflexivity]. } intros P HP Hx. inversion HP; constructor; assumption.
  - destruct (IH j x) as (l' & E & H1 & H2 & H3 & H4); [cbn in H; lia|]. rewrite E. exists (a :: l'). split; [reflexivity|]. split; [cbn; lia|]. split; [exact H2|].
    split; [intros [|i] Hi; [reflexivity|apply H3; lia]|]. intros P HP Hx. inversion HP; constructor; auto.
Qed.
(** The table after the warm-up: entry j is the number 40 - j of the first generator. *)
Lemma warm_ok : forall n seed x l, 1 <= seed < IMR1 -> (n <= 40)%nat -> length l = NTAB -> x = lcg IA1 IMR1 seed (40 - n) -> 1 <= x < IMR1 ->
  exists l', warm n x l = Some (lcg IA1 IMR1 seed 40, l') /\ length l' = NTAB /\
    forall j, nth_error l' j = if Nat.ltb j (Nat.min n NTAB) then Some (lcg IA1 IMR1 seed (40 - j)) else nth_error l j.
Proof.
  induction n as [|j IH]; intros seed x l Hs Hn Hl Hx Hr; cbn [warm].
  - exists l. split; [rewrite Hx; reflexivity|]. split; [exact Hl|]. intros j. reflexivity.
  - rewrite step1 by lia. cbn [bind]. assert (Ex : (IA1 * x) mod IMR1 = lcg IA1 IMR1 seed (40 - j)).
    { rewrite Hx, lcg_S by discriminate. f_equal. lia. }
    pose proof (never_zero x Hr) as Hr'. rewrite Ex in *. destruct (Nat.ltb j NTAB) eqn:E.
    + apply Nat.ltb_lt in E. destruct (set_ok l j (lcg IA1 IMR1 seed (40 - j))) as (l1 & E1 & L1 & N1 & N2 & _); [lia|]. rewrite E1. cbn [bind].
      destruct (IH seed (lcg IA1 IMR1 seed (40 - j)) l1 Hs) as (l' & W & L' & N'); [lia|lia|reflexivity|exact Hr'|]. exists l'. split; [exact W|]. split; [exact L'|].
      intros i. rewrite N'. unfold NTAB in *. destruct (Nat.ltb_spec i (Nat.min j 32)); destruct (Nat.ltb_spec i (Nat.min (S j) 32)); try reflexivity; try lia.
      * assert (i = j) by lia. subst i. exact N1.
      * apply N2. lia.
    + apply Nat.ltb_ge in E. cbn [bind]. destruct (IH seed (lcg IA1 IMR1 seed (40 - j)) l Hs) as (l' & W & L' & N'); [lia|exact Hl|reflexivity|exact Hr'|].
      exists l'. split; [exact W|]. split; [exact L'|]. intros i. rewrite N'. unfold NTAB in *. destruct (Nat.ltb_spec i (Nat.min j 32)); destruct (Nat.ltb_spec i (Nat.min (S j) 32)); try reflexivity; lia.
Qed.
Lemma lcg_range : forall seed n, 1 <= seed < IMR1 -> 1 <= lcg IA1 IMR1 seed n < IMR1.
Proof. intros seed n H. induction n as [|n IH]; [rewrite lcg_0; lia|]. rewrite <- lcg_S by discriminate. apply never_zero. exact IH. Qed.
Lemma nth_all : forall (P : Z -> Prop) l, (forall j x, nth_error l j = Some x -> P x) -> Forall P l.
Proof. induction l as [|a l IH]; intros H; constructor; [apply (H O); reflexivity|apply IH; intros j x E; apply (H (S j)); exact E]. Qed.

Lemma init_ok : forall seed s, - IMR1 < seed <= 0 -> length (iv s) = NTAB ->
  let x := Z.max 1 (- seed) in exists l, init seed s = Some (lcg IA1 IMR1 x 40, mkSt x (lcg IA1 IMR1 x 40) l) /\
   length l = NTAB /\ (forall j, (j < NTAB)%nat -> nth_error l j = Some (lcg IA1 IMR1 x (40 - j))).
Proof.
  intros seed s H Hl x. unfold init. rewrite (proj2 (Z.leb_le _ _)) by lia. unfold IMR1 in H. rewrite i64_ok by lia. cbn [bind].
  assert ((if Z.ltb (- seed) 1 then 1 else - seed) = x) as -> by (unfold x; destruct (Z.ltb_spec (- seed) 1); lia).
  assert (Hx : 1 <= x < IMR1) by (unfold x, IMR1; lia).
  destruct (warm_ok 40 x x (iv s) Hx) as (l & W & L & N); [lia|exact Hl|symmetry; apply lcg_0; lia|exact Hx|]. change (NTAB + 8)%nat with 40%nat. rewrite W. cbn [bind fst snd].
  assert (N' : forall j, (j < NTAB)%nat -> nth_error l j = Some (lcg IA1 IMR1 x (40 - j))).
  { intros j Hj. rewrite N. change (Nat.min 40 NTAB) with NTAB. apply Nat.ltb_lt in Hj. rewrite Hj. reflexivity. }
  unfold get. rewrite N' by (unfold NTAB; lia). cbn [bind]. exists l. split; [reflexivity|]. split; [exact L|exact N'].
Qed.

(** A state in which a call without initialisation is safe: the ranges, and the second generator possibly still at the seed. *)
Definition safe (idum : Z) (s : static) : Prop :=
  1 <= idum < IMR1 /\ 0 <= idum2 s < IMR1 /\ 1 <= iy s <= IMM1 /\ length (iv s) = NTAB /\ Forall (fun x => 1 <= x < IMR1) (iv s).
Lemma ndiv : NDIV = 67108862. Proof. reflexivity. Qed.
Lemma call_ok : forall idum s, safe idum s -> exists j v y l,
  j = Z.to_nat (iy s / NDIV) /\ nth_error (iv s) j = Some v /\ set (iv s) j ((IA1 * idum) mod IMR1) = Some l /\
  y = (v - (IA2 * idum2 s) mod IMR2) + (if Z.ltb (v - (IA2 * idum2 s) mod IMR2) 1 then IMM1 else 0) /\
  ran2 idum s = Some ((IA1 * idum) mod IMR1, mkSt ((IA2 * idum2 s) mod IMR2) y l, (inject_Z y / inject_Z IMR1)%Q) /\
  ranges ((IA1 * idum) mod IMR1) (mkSt ((IA2 * idum2 s) mod IMR2) y l).
Proof.
  intros idum s [H1 [H2 [H3 [H4 H5]]]]. pose proof (never_zero idum H1) as N. pose proof (Z.mod_pos_bound (IA2 * idum2 s) IMR2 ltac:(reflexivity)) as B.
  set (x1 := (IA1 * idum) mod IMR1) in *. set (x2 := (IA2 * idum2 s) mod IMR2) in *.
  assert (J : 0 <= iy s / NDIV < 32). { rewrite ndiv. unfold IMM1, IMR1 in H3. split; [apply Z.div_pos; lia|apply Z.div_lt_upper_bound; lia]. }
  set (j := Z.to_nat (iy s / NDIV)). assert (Hj : (j < length (iv s))%nat) by (rewrite H4; unfold j, NTAB; lia).
  destruct (nth_error (iv s) j) as [v|] eqn:Ev; [|apply nth_error_None in Ev; lia]. assert (Hv : 1 <= v < IMR1). { rewrite Forall_forall in H5. apply H5. eapply nth_error_In. exact Ev. }
  destruct (set_ok (iv s) j x1 Hj) as (l & E1 & L1 & _ & _ & F1).
  set (y := (v - x2) + (if Z.ltb (v - x2) 1 then IMM1 else 0)). 
  assert (Hy : 1 <= y <= IMM1) by (unfold y, IMM1; unfold IMR1 in *; unfold IMR2 in B; destruct (Z.ltb_spec (v - x2) 1); lia).
  assert (D : - 2147483399 <= v - x2 < 2147483563) by (unfold IMR1 in Hv; unfold IMR2 in B; lia).
  assert (Hi : 1 <= idum) by lia.
  exists j, v, y, l. split; [reflexivity|]. split; [exact Ev|]. split; [exact E1|]. split; [reflexivity|]. split.
  - unfold ran2, init. rewrite (proj2 (Z.leb_gt _ _)) by lia. cbn [bind fst snd]. rewrite step1 by (unfold IMR1 in *; lia). cbn [bind]. fold x1.
    rewrite step2 by exact H2. cbn [bind]. fold x2. rewrite Z.quot_div_nonneg by (rewrite ?ndiv; lia). unfold index. rewrite (proj2 (Z.ltb_ge _ _)) by lia. cbn [bind]. fold j.
    unfold get. rewrite Ev. cbn [bind]. unfold sub. rewrite i64_ok by lia. cbn [bind]. rewrite E1. cbn [bind].
    assert ((if Z.ltb (v - x2) 1 then add (v - x2) IMM1 else Some (v - x2)) = Some y) as ->.
    { unfold y. destruct (Z.ltb (v - x2) 1) eqn:L; [apply Z.ltb_lt in L; unfold add; rewrite i64_ok by (unfold IMM1, IMR1; lia); reflexivity|f_equal; ring]. }
    cbn [bind]. cbv zeta. assert (Qle_bool (inject_Z y / inject_Z IMR1) RNMX = true) as ->; [|reflexivity].
    apply Qle_bool_iff. unfold RNMX. apply Qle_shift_div_r; [reflexivity|]. unfold Qle, Qmult, Qminus, Qplus, Qopp, inject_Z. unfold IMM1, IMR1 in *. cbn [Qnum Qden]. lia.
  - unfold ranges. cbn [idum2 iy iv]. split; [exact N|]. split; [exact B|]. split; [exact Hy|]. split; [lia|]. apply F1; [exact H5|exact N].
Qed.
Lemma ranges_safe : forall i s, ranges i s -> safe i s. Proof. intros i s [H1 [H2 H3]]. unfold IMR2 in H2. unfold safe. split; [exact H1|]. split; [unfold IMR1; lia|exact H3]. Qed.
Lemma q_range : forall y, 1 <= y <= IMM1 -> (0 < inject_Z y / inject_Z IMR1 < 1)%Q.
Proof.
  intros y Hy. split; [apply Qlt_shift_div_l; [reflexivity|]|apply Qlt_shift_div_r; [reflexivity|]]; unfold Qlt, Qmult, inject_Z, IMR1; cbn [Qnum Qden]; unfold IMM1, IMR1 in Hy; lia.
Qed.
(** Any number of calls from a state in which table entry [j] is the number [nth j idx] of the first generator. *)
Section Run.
Variable a : Z.
Hypothesis Ha : 1 <= a < IMR1.
Notation g1 := (lcg IA1 IMR1 a).
Notation g2 := (lcg IA2 IMR2 a).
Lemma set_map : forall idx j b l, (j < length idx)%nat -> set (map g1 idx) j (g1 b) = Some l -> exists i before after, idx = before ++ i :: after /\ length before = j /\ l = map g1 (before ++ b :: after).
Proof.
  induction idx as [|i idx IH]; intros j b l H E; [cbn in H; lia|]. destruct j as [|j]; cbn [set map] in E.
  - injection E; intros <-. exists i, [], idx. repeat split.
  - destruct (set (map g1 idx) j (g1 b)) as [l1|] eqn:E1; [|discriminate E]. injection E; intros <-. destruct (IH j b l1) as (i' & bf & af & H1 & H2 & H3); [cbn in H; lia|exact E1|].
    exists i', (i :: bf), af. split; [cbn; rewrite H1; reflexivity|]. split; [cbn; lia|]. rewrite H3. reflexivity.
Qed.
Lemma draws_ok : forall n b idum s idx e, safe idum s -> idum = g1 b -> idum2 s mod IMR2 = g2 e -> iv s = map g1 idx -> NoDup idx -> (forall i, In i idx -> (9 <= i <= b)%nat) ->
  exists s' l us, draws n idum s = Some (g1 (n + b), s', l) /\ safe (g1 (n + b)) s' /\ (n <> O -> ranges (g1 (n + b)) s') /\ length l = n /\ length us = n /\
  NoDup us /\ (forall k, In k us -> In k idx \/ (b < k)%nat) /\
  forall k i q, nth_error us k = Some i -> nth_error l k = Some q -> exists y, q = (inject_Z y / inject_Z IMR1)%Q /\ 1 <= y <= IMM1 /\ (y - (g1 i - g2 (S k + e))) mod IMM1 = 0 /\ (9 <= i <= b + k)%nat.
Proof.
  induction n as [|n IH]; intros b idum s idx e Hs Ea Ec Ei Nd Hb; cbn [draws].
  - exists s, [], []. cbn [Nat.add]. rewrite <- Ea. split; [reflexivity|]. split; [exact Hs|]. split; [intros H; contradiction|]. split; [reflexivity|]. split; [reflexivity|]. split; [constructor|]. split; [intros k []|]. intros [|k] i q H; discriminate H.
  - destruct (call_ok idum s Hs) as (j & v & y & l & Ej & Ev & El & Ey & E & R). rewrite E. cbn [bind].
    assert (E1 : (IA1 * idum) mod IMR1 = g1 (S b)) by (rewrite Ea; apply lcg_S; discriminate).
    assert (E2 : (IA2 * idum2 s) mod IMR2 = g2 (S e)). { rewrite <- Z.mul_mod_idemp_r by discriminate. rewrite Ec. apply lcg_S. discriminate. }
    assert (Hj : (j < length idx)%nat). { rewrite <- (map_length g1), <- Ei. apply nth_error_Some. rewrite Ev. discriminate. }
    rewrite Ei in El. rewrite E1 in El. destruct (set_map idx j (S b) l Hj El) as (i & bf & af & X1 & X2 & X3).
    assert (Evi : v = g1 i). { rewrite Ei, X1, map_app, nth_error_app2 in Ev by (rewrite map_length; lia). rewrite map_length, X2, Nat.sub_diag in Ev. injection Ev; intros <-. reflexivity. }
    assert (Hi : In i idx) by (rewrite X1; apply in_elt).
    assert (Nd2 : NoDup (bf ++ S b :: af)).
    { rewrite X1 in Nd. apply NoDup_remove in Nd. destruct Nd as [N1 N2]. apply (NoDup_Add (a := S b) (l := bf ++ af)); [apply Add_app|]. split; [exact N1|].
      intros H. assert (In (S b) idx) by (rewrite X1; apply in_or_app; apply in_app_or in H; destruct H; [left; assumption|right; right; assumption]). specialize (Hb _ H0). lia. }
    rewrite E1 in R, E. rewrite E2 in R, E, Ey. assert (E2' : idum2 (mkSt (g2 (S e)) y l) mod IMR2 = g2 (S e)). { cbn [idum2]. unfold lcg. apply Z.mod_mod. discriminate. }
    destruct (IH (S b) _ _ (bf ++ S b :: af) (S e) (ranges_safe _ _ R) eq_refl E2' X3 Nd2) as (s' & l' & us & D & S' & R' & L & Lu & Nu & Fu & C).
    { intros k Hk. apply in_app_or in Hk. destruct Hk as [Hk|[<-|Hk]]; [|specialize (Hb _ Hi); lia|]; assert (Hk' : In k idx) by (rewrite X1; apply in_or_app; auto with datatypes); specialize (Hb _ Hk'); lia. }
    rewrite E1, E2, D. cbn [bind]. replace (S n + b)%nat with (n + S b)%nat by lia.
    exists s', ((inject_Z y / inject_Z IMR1)%Q :: l'), (i :: us). split; [reflexivity|]. split; [exact S'|]. split.
    { intros _. destruct n as [|n]; [|apply R'; discriminate]. cbn [draws] in D. injection D; intros _ <-. exact R. }
    split; [cbn [length]; lia|]. split; [cbn [length]; lia|]. split; [|split].
    + constructor; [|exact Nu]. intros H. destruct (Fu i H) as [F|F]; [|specialize (Hb _ Hi); lia]. apply (NoDup_remove_2 bf af i); [rewrite <- X1; exact Nd|]. apply in_app_or in F. apply in_or_app. destruct F as [F|[F|F]]; [left; exact F|specialize (Hb _ Hi); lia|right; exact F].
    + intros k [<-|Hk]; [left; exact Hi|]. destruct (Fu k Hk) as [F|F]; [|right; lia]. apply in_app_or in F. destruct F as [F|[F|F]]; [left; rewrite X1; apply in_or_app; left; exact F|right; lia|left; rewrite X1; apply in_or_app; right; right; exact F].
    + intros [|k] i0 q Hu Hq; cbn [nth_error] in Hu, Hq.
      * injection Hu; intros <-. injection Hq; intros <-. exists y. split; [reflexivity|]. split; [apply R|]. split; [|specialize (Hb _ Hi); lia]. rewrite Ey, Evi. change (1 + e)%nat with (S e).
        destruct (Z.ltb (g1 i - g2 (S e)) 1).
        -- replace (g1 i - g2 (S e) + IMM1 - (g1 i - g2 (S e))) with IMM1 by ring. apply Z.mod_same. discriminate.
        -- replace (g1 i - g2 (S e) + 0 - (g1 i - g2 (S e))) with 0 by ring. reflexivity.
      * destruct (C k i0 q Hu Hq) as (y0 & C1 & C2 & C3 & C4). exists y0. split; [exact C1|]. split; [exact C2|]. split; [|lia]. replace (S (S k) + e)%nat with (S k + S e)%nat by lia. exact C3.
Qed.
End Run.
Lemma nth_map : forall (A B : Type) (f : nat -> B) (l : list B) n, length l = n -> (forall j, (j < n)%nat -> nth_error l j = Some (f j)) -> l = map f (seq 0 n).
Proof.
  intros A B f l. revert f. induction l as [|x l IH]; intros f n Hn H; cbn [length] in Hn; subst n; [reflexivity|]. cbn [seq map]. f_equal.
  - specialize (H O ltac:(cbn; lia)). injection H; intros <-. reflexivity.
  - rewrite <- seq_shift, map_map. apply (IH (fun j => f (S j)) (length l) eq_refl). intros j Hj. apply (H (S j)). cbn. lia.
Qed.
Lemma run : forall seed n s, - IMR1 < seed <= 0 -> length (iv s) = NTAB -> n <> O -> let x := Z.max 1 (- seed) in
  exists s' l us, draws n seed s = Some (lcg IA1 IMR1 x (n + 40), s', l) /\ ranges (lcg IA1 IMR1 x (n + 40)) s' /\ length l = n /\ length us = n /\ NoDup us /\
  forall k i q, nth_error us k = Some i -> nth_error l k = Some q -> exists y, q = (inject_Z y / inject_Z IMR1)%Q /\ 1 <= y <= IMM1 /\ (y - (lcg IA1 IMR1 x i - lcg IA2 IMR2 x (S k))) mod IMM1 = 0 /\ (9 <= i <= 40 + k)%nat.
Proof.
  intros seed n s Hs Hl Hn x. destruct (init_ok seed s Hs Hl) as (l & I & L & N). fold x in I, N. assert (Hx : 1 <= x < IMR1) by (unfold x, IMR1 in *; lia).
  pose proof (lcg_range x 40 Hx) as R40.
  assert (EI : forall m, m <> O -> draws m seed s = draws m (lcg IA1 IMR1 x 40) (mkSt x (lcg IA1 IMR1 x 40) l)).
  { intros [|m] Hm; [contradiction|]. cbn [draws]. f_equal. unfold ran2 at 1. rewrite I. unfold ran2, init. rewrite (proj2 (Z.leb_gt _ _)) by lia. reflexivity. }
  rewrite (EI n Hn).
  assert (Em : l = map (lcg IA1 IMR1 x) (map (fun j => (40 - j)%nat) (seq 0 32))). { rewrite map_map. apply (nth_map nat); assumption. }
  destruct (draws_ok x n 40 (lcg IA1 IMR1 x 40) (mkSt x (lcg IA1 IMR1 x 40) l) (map (fun j => (40 - j)%nat) (seq 0 32)) 0) as (s' & q & us & D & S' & R' & L1 & L2 & Nu & _ & C).
  - split; [exact R40|]. cbn [idum2 iy iv]. split; [lia|]. split; [unfold IMM1; lia|]. split; [exact L|]. rewrite Em. apply Forall_forall. intros z Hz. apply in_map_iff in Hz. destruct Hz as [k [<- _]]. apply lcg_range. exact Hx.
  - reflexivity.
  - cbn [idum2]. unfold lcg. change (IA2 ^ Z.of_nat 0) with 1. rewrite Z.mul_1_l. reflexivity.
  - exact Em.
  - apply (NoDup_map_inv (fun j => (40 - j)%nat)). exact (seq_NoDup 32 0).
  - intros i Hi. apply in_map_iff in Hi. destruct Hi as [j [<- Hj]]. apply in_seq in Hj. lia.
  - exists s', q, us. split; [exact D|]. split; [apply R'; exact Hn|]. split; [exact L1|]. split; [exact L2|]. split; [exact Nu|]. intros k i z Hu Hz. destruct (C k i z Hu Hz) as (y & C1 & C2 & C3 & C4). exists y. rewrite Nat.add_0_r in C3. split; [exact C1|]. split; [exact C2|]. split; [exact C3|exact C4].
Qed.
Lemma reproducible : forall seed n s s', - IMR1 < seed <= 0 -> length (iv s) = NTAB -> length (iv s') = NTAB -> n <> O -> draws n seed s = draws n seed s'.
Proof.
  intros seed n s s' Hs Hl Hl' Hn. destruct n as [|n]; [contradiction|]. cbn [draws]. f_equal. unfold ran2.
  destruct (init_ok seed s Hs Hl) as (l & I & L & N). destruct (init_ok seed s' Hs Hl') as (l' & I' & L' & N'). rewrite I, I'.
  assert (l = l') as ->; [|reflexivity]. rewrite (nth_map nat _ _ l NTAB L N). symmetry. apply (nth_map nat); assumption.
Qed.
