(** The inverse mapping. *)
From Coq Require Import Reals Lra Bool List Arith Lia Psatz.
From Verif Require Import Time_Model Mf_Model Mf_Spec Mf_Proofs Mf_Proofs2.
Local Open Scope R_scope.

Lemma countb_le k f : (countb k f <= k)%nat.
Proof. induction k as [ | k IH]; cbn [countb]; [lia | destruct (f k); lia]. Qed.
Lemma countb_none k f : (forall i, (i < k)%nat -> f i = false) -> countb k f = O.
Proof. induction k as [ | k IH]; intros H; cbn [countb]; [reflexivity | ]. rewrite IH by auto with arith. rewrite H by lia. reflexivity. Qed.
Lemma count_up k f : (forall i, (S i < k)%nat -> f i = true -> f (S i) = true) -> forall i, (i < k)%nat -> f i = true <-> (k - countb k f <= i)%nat.
Proof.
  induction k as [ | k IH]; intros H i Hi; [lia | ]. cbn [countb]. destruct (f k) eqn:Fk.
  - replace (S k - (countb k f + 1))%nat with (k - countb k f)%nat by lia. destruct (Nat.eq_dec i k) as [-> | N].
    + split; intros; [lia | exact Fk].
    + apply IH; [intros j Hj; apply H; lia | lia].
  - assert (A : forall d j, (j + d = k)%nat -> f j = false).
    { induction d as [ | d ID]; intros j Hj; [replace j with k by lia; exact Fk | ]. destruct (f j) eqn:Fj; [ | reflexivity].
      rewrite <- (ID (S j) ltac:(lia)). symmetry. apply H; [lia | exact Fj]. }
    rewrite (countb_none k f) by (intros j Hj; apply (A (k - j)%nat); lia). rewrite (A (k - i)%nat i) by lia. split; [discriminate | lia].
Qed.
Lemma countb_beyond n k f : (k <= n)%nat -> (forall i, (k <= i < n)%nat -> f i = false) -> countb n f = countb k f.
Proof.
  induction n as [ | n IH]; intros H Z; [replace k with O by lia; reflexivity | ]. destruct (Nat.eq_dec k (S n)) as [-> | N]; [reflexivity | ].
  cbn [countb]. rewrite Z by lia. rewrite IH; [lia | lia | intros; apply Z; lia].
Qed.
Lemma sumn_beyond n k f : (k <= n)%nat -> (forall i, (k <= i < n)%nat -> f i = 0) -> sumn n f = sumn k f.
Proof.
  induction n as [ | n IH]; intros H Z; [replace k with O by lia; reflexivity | ]. destruct (Nat.eq_dec k (S n)) as [-> | N]; [reflexivity | ].
  cbn [sumn]. rewrite Z by lia. rewrite IH; [ring | lia | intros; apply Z; lia].
Qed.
Lemma sumn_first n f : sumn (S n) f = f O + sumn n (fun i => f (S i)).
Proof. induction n as [ | n IH]; [cbn [sumn]; ring | ]. change (sumn (S (S n)) f) with (sumn (S n) f + f (S n)). rewrite IH. cbn [sumn]. ring. Qed.
Lemma sumn_rev m f : sumn (S m) f = sumn (S m) (fun j => f (m - j)%nat).
Proof.
  induction m as [ | m IH]; [reflexivity | ]. rewrite sumn_first. rewrite (sumn_first (S m) (fun j => f (S m - j)%nat)) .
  rewrite Nat.sub_0_r. change (sumn (S m) (fun i => f (S m - S i)%nat)) with (sumn (S m) (fun i => f (m - i)%nat)). rewrite <- IH.
  rewrite <- sumn_first. cbn [sumn]. ring.
Qed.

Section Inverse.
Variables (n : nat) (rows : nat -> row).
Hypothesis Hstart : forall i, (i < n)%nat -> start (rows i) = i.
Hypothesis Hstop : forall i, (i < n)%nat -> (i <= stop (rows i))%nat.
Hypothesis Hmono : forall i, (S i < n)%nat -> (stop (rows i) <= stop (rows (S i)))%nat.
Lemma mapped_iff m i : (m < n)%nat -> (i <= m)%nat -> (m <= stop (rows i))%nat <-> (S m - map_count n rows m <= i)%nat.
Proof.
  intros Hm Hi. unfold map_count. rewrite (countb_beyond n (S m)).
  - rewrite <- count_up; [ | | lia].
    + rewrite Hstart by lia. replace (Nat.leb i m) with true by (symmetry; apply Nat.leb_le; exact Hi). cbn [andb]. rewrite Nat.leb_le. reflexivity.
    + intros j Hj. rewrite !Hstart by lia. rewrite !andb_true_iff, !Nat.leb_le. intros [_ Q]. split; [lia | ]. pose proof (Hmono j ltac:(lia)). lia.
  - lia.
  - intros j Hj. rewrite Hstart by lia. replace (Nat.leb j m) with false by (symmetry; apply Nat.leb_gt; lia). reflexivity.
Qed.
Lemma count_pos m : (m < n)%nat -> (1 <= map_count n rows m <= S m)%nat.
Proof.
  intros Hm. assert (A : (S m - map_count n rows m <= m)%nat) by (apply mapped_iff; [exact Hm | lia | apply Hstop; exact Hm]).
  split; [lia | ]. unfold map_count. rewrite (countb_beyond n (S m)); [apply countb_le | lia | ].
  intros j Hj. rewrite Hstart by lia. replace (Nat.leb j m) with false by (symmetry; apply Nat.leb_gt; lia). reflexivity.
Qed.
Lemma map_row x m : (m < n)%nat ->
  MapIrcmFrequency n rows x m = map_matrix rows m 0 * x m + sumn (map_count n rows m - 1) (fun j => map_matrix rows m (S j) * x (m - S j)%nat).
Proof.
  intros Hm. pose proof (count_pos m Hm) as [C1 C2]. rewrite map_coef.
  rewrite (sumn_beyond n (S m)); [ | lia | ].
  2: { intros i Hi. unfold coef. rewrite Hstart by lia. replace (Nat.leb i m) with false by (symmetry; apply Nat.leb_gt; lia). cbn [andb]. ring. }
  rewrite sumn_rev. rewrite (sumn_beyond (S m) (map_count n rows m)); [ | exact C2 | ].
  2: { intros j Hj. unfold coef. destruct (Nat.leb_spec m (stop (rows (m - j)%nat))) as [Q | Q]; [ | rewrite andb_false_r; ring].
       pose proof (proj1 (mapped_iff m (m - j) Hm ltac:(lia)) Q). lia. }
  replace (map_count n rows m) with (S (map_count n rows m - 1)) at 1 by lia. rewrite sumn_first. rewrite Nat.sub_0_r.
  assert (E : forall d, (d <= m)%nat -> coef (rows (m - d)%nat) m = map_matrix rows m d).
  { intros d Hd. unfold coef, map_matrix. replace (Nat.leb d m) with true by (symmetry; apply Nat.leb_le; exact Hd). reflexivity. }
  rewrite <- (E O) by lia. rewrite Nat.sub_0_r. f_equal; [ring | ]. apply sumn_ext. intros j Hj. rewrite <- E by lia. ring.
Qed.
Hypothesis Hdiag : forall i, (i < n)%nat -> map_matrix rows i 0 <> 0.
Lemma nth0_app_l x v i : (i < length x)%nat -> nth0 (x ++ v :: nil) i = nth0 x i.
Proof. intros. unfold nth0. apply app_nth1. assumption. Qed.
Lemma nth0_app_r x v k : length x = k -> nth0 (x ++ v :: nil) k = v.
Proof. intros <-. unfold nth0. rewrite app_nth2 by lia. rewrite Nat.sub_diag. reflexivity. Qed.
Lemma solve_sound inp k : (k <= n)%nat -> forall x, solve_up (map_count n rows) (map_matrix rows) inp k = Some x ->
  length x = k /\ forall m, (m < k)%nat -> MapIrcmFrequency n rows (nth0 x) m = inp m.
Proof.
  induction k as [ | k IH]; intros Hk x H; cbn [solve_up] in H; [injection H as <-; split; [reflexivity | lia] | ].
  destruct (solve_up (map_count n rows) (map_matrix rows) inp k) as [y | ]; [ | discriminate]. destruct (IH ltac:(lia) y eq_refl) as [L So].
  assert (C0 : k = O -> (map_count n rows k - 1 = 0)%nat). { intros ->. pose proof (count_pos O ltac:(lia)). lia. }
  set (s := match k with O => inp O | S _ => inp k - sumn (map_count n rows k - 1) (fun j => map_matrix rows k (S j) * nth0 y (k - S j)) end) in *.
  assert (Es : s = inp k - sumn (map_count n rows k - 1) (fun j => map_matrix rows k (S j) * nth0 y (k - S j))).
  { unfold s. destruct k; [ | reflexivity]. rewrite (C0 eq_refl). cbn [sumn]. ring. }
  assert (Ex : x = y ++ s / map_matrix rows k 0 :: nil). { destruct k; [injection H as <-; reflexivity | ]. destruct (ltR _ 0) in H; [discriminate | injection H as <-; reflexivity]. }
  clearbody s. subst x. split; [rewrite app_length; cbn [length]; lia | ]. intros m Hm. rewrite map_row by lia. pose proof (count_pos m ltac:(lia)) as [_ C2].
  rewrite (sumn_ext _ _ (fun j => map_matrix rows m (S j) * nth0 y (m - S j)%nat)).
  2: { intros j Hj. rewrite nth0_app_l by lia. reflexivity. }
  destruct (Nat.eq_dec m k) as [-> | N].
  - rewrite nth0_app_r by exact L. rewrite Es. pose proof (Hdiag k ltac:(lia)). field. assumption.
  - rewrite nth0_app_l by lia. rewrite <- map_row by lia. apply So. lia.
Qed.
(** The image of non-negative radiation is recovered. *)
Lemma solve_complete y k : (k <= n)%nat -> (forall i, (i < n)%nat -> 0 <= y i) ->
  solve_up (map_count n rows) (map_matrix rows) (MapIrcmFrequency n rows y) k = Some (map y (seq 0 k)).
Proof.
  intros Hk Hy. induction k as [ | k IH]; [reflexivity | ]. cbn [solve_up]. rewrite IH by lia.
  assert (N : forall i, (i < k)%nat -> nth0 (map y (seq 0 k)) i = y i).
  { intros i Hi. unfold nth0. rewrite (nth_indep _ 0 (y O)) by (rewrite map_length, seq_length; exact Hi). rewrite map_nth. rewrite seq_nth by exact Hi. reflexivity. }
  assert (C0 : k = O -> (map_count n rows k - 1 = 0)%nat). { intros ->. pose proof (count_pos O ltac:(lia)). lia. }
  pose proof (count_pos k ltac:(lia)) as [_ C2].
  set (s := match k with O => MapIrcmFrequency n rows y O | S _ => MapIrcmFrequency n rows y k - sumn (map_count n rows k - 1) (fun j => map_matrix rows k (S j) * nth0 (map y (seq 0 k)) (k - S j)) end).
  assert (Es : s = map_matrix rows k 0 * y k).
  { transitivity (MapIrcmFrequency n rows y k - sumn (map_count n rows k - 1) (fun j => map_matrix rows k (S j) * nth0 (map y (seq 0 k)) (k - S j))).
    - unfold s. destruct k; [ | reflexivity]. rewrite (C0 eq_refl). cbn [sumn]. ring.
    - rewrite (sumn_ext _ _ (fun j => map_matrix rows k (S j) * y (k - S j)%nat)) by (intros j Hj; rewrite N by lia; reflexivity). rewrite map_row by lia. ring. }
  clearbody s. subst s. pose proof (Hdiag k ltac:(lia)) as D. assert (V : map_matrix rows k 0 * y k / map_matrix rows k 0 = y k) by (field; exact D). rewrite V.
  replace (map y (seq 0 (S k))) with (map y (seq 0 k) ++ y k :: nil) by (rewrite seq_S, map_app; reflexivity).
  destruct k; [reflexivity | ]. replace (ltR (y (S k)) 0) with false by (symmetry; apply ltR_false; apply Hy; lia). reflexivity.
Qed.
End Inverse.

Lemma diagonal_spec rows n : diagonal rows n = Ok true -> forall i, (i < n)%nat -> (start (rows i) <= i)%nat /\ TINY_NUMBER <= ratio (rows i) (i - start (rows i)).
Proof.
  induction n as [ | n IH]; intros H i Hi; [lia | ]. cbn [diagonal] in H. destruct (diagonal rows n) as [[ | ] | | ]; try discriminate.
  destruct (Nat.ltb_spec n (start (rows n))); [discriminate | ]. destruct (ltR _ _) eqn:C in H; [discriminate | ]. apply ltR_false in C.
  destruct (Nat.eq_dec i n) as [-> | N]; [split; assumption | apply IH; [reflexivity | lia]].
Qed.
(** The hypotheses hold for the rows of an upward shift whose diagonal passes the test. *)
Lemma up_rows planck effective n nmax nu e ir face rows :
  grid n nu -> grid n e -> (forall i, (i < n)%nat -> nu i <= e i) ->
  splitting planck effective n nmax true nu e ir face = Ok rows -> diagonal rows n = Ok true ->
  (forall i, (i < n)%nat -> start (rows i) = i) /\ (forall i, (i < n)%nat -> (i <= stop (rows i))%nat) /\
  (forall i, (S i < n)%nat -> (stop (rows i) <= stop (rows (S i)))%nat) /\ (forall i, (i < n)%nat -> map_matrix rows i 0 <> 0).
Proof.
  intros Gn Ge Hup Hr Hd. pose proof (diagonal_spec rows n Hd) as D. pose proof tiny_pos as T.
  destruct (rows_eq planck effective n nmax true nu e ir face rows Hr) as [N2 Er].
  assert (La : rows (n - 1)%nat = last_up n). { rewrite Er. replace (Nat.ltb (n - 1) (n - 1)) with false by (symmetry; apply Nat.ltb_irrefl). reflexivity. }
  assert (B : forall i, (i < n - 1)%nat -> exists r, start (rows i) = i /\ stop (rows i) = r /\ (i <= r)%nat /\ (r < n)%nat /\ ((i < r)%nat -> nu r < e (S i)) /\ ((S r = n)%nat \/ e (S i) <= nu (S r))).
  { intros i Hi. pose proof (D i ltac:(lia)) as [D1 _].
    assert (Ei : rows i = row_up n nu (e i) (e (S i)) (face i) (face (S i)) i). { rewrite Er. replace (Nat.ltb i (n - 1)) with true by (symmetry; apply Nat.ltb_lt; exact Hi). reflexivity. }
    rewrite Ei in *. unfold row_up in *. cbn [start stop] in *.
    pose proof (up_spec n nu (e i) n i ltac:(lia) ltac:(lia)) as (A1 & A2 & A3). assert (El : up n n nu (e i) i = i) by lia. rewrite El in *.
    pose proof (up_spec n nu (e (S i)) n i ltac:(lia) ltac:(lia)) as (B1 & B2 & B3). exists (up n n nu (e (S i)) i). repeat split; try lia; [exact B3 | ]. destruct B2 as [B2 | B2]; [left; lia | right; exact B2]. }
  assert (St : forall i, (i < n)%nat -> start (rows i) = i).
  { intros i Hi. destruct (Nat.eq_dec i (n - 1)) as [-> | N]; [rewrite La; reflexivity | ]. destruct (B i ltac:(lia)) as (r & A & _). exact A. }
  assert (Sp : forall i, (i < n)%nat -> (i <= stop (rows i))%nat).
  { intros i Hi. destruct (Nat.eq_dec i (n - 1)) as [-> | N]; [rewrite La; cbn [last_up stop]; lia | ]. destruct (B i ltac:(lia)) as (r & _ & -> & C & _). exact C. }
  split; [exact St | split; [exact Sp | split]].
  - intros i Hi. destruct (B i ltac:(lia)) as (r & _ & Er1 & R1 & R2 & R3 & R4). rewrite Er1.
    destruct (Nat.eq_dec (S i) (n - 1)) as [E | N]; [rewrite E, La; cbn [last_up stop]; lia | ].
    destruct (B (S i) ltac:(lia)) as (r' & _ & Er2 & Q1 & Q2 & Q3 & Q4). rewrite Er2. destruct (le_lt_dec r r') as [L | L]; [exact L | exfalso].
    destruct Q4 as [Q4 | Q4]; [lia | ]. pose proof (R3 ltac:(lia)) as X. pose proof (grid_mono n nu Gn (S r') r ltac:(lia) R2). pose proof (proj2 Ge (S i) ltac:(lia)). lra.
  - intros i Hi. unfold map_matrix. rewrite Nat.sub_0_r. pose proof (D i Hi) as [_ D2]. rewrite (St i Hi) in *. pose proof (Sp i Hi).
    replace (Nat.leb 0 i && (Nat.leb i i && Nat.leb i (stop (rows i)))) with true by (symmetry; rewrite !andb_true_iff, !Nat.leb_le; lia). lra.
Qed.
