(** The families of the angular grids with up to six levels and the grid in the angles zeta and psi. *)
From Coq Require Import Reals List Bool Arith Lra Lia.
From Verif Require Import Lud_Model Lud_Spec Lud_Proofs Lud_Proofs2 Lud_Props Ang_Model Ang_Spec Ang_Proofs.
Import ListNotations.
Local Open Scope R_scope.

Definition from_rows (rows : list (list R)) (i j : nat) : R := nth j (nth i rows []) 0.
Lemma below1 i : (i < 1)%nat -> i = 0%nat. Proof. lia. Qed.
Ltac cases_lt H := match type of H with (?i < S ?n)%nat => destruct (Nat.eq_dec i n) as [->|?N]; [clear H|assert (i < n)%nat by lia; clear H N; try (exfalso; lia)] end.
Ltac all_lt i n := lazymatch n with O => exfalso; lia | S ?m => destruct (Nat.eq_dec i m) as [->|]; [|all_lt i m] end.
(** The sum of all entries of wtmp2. *)
Lemma wtmp2_sum nmu : (2 <= nmu)%nat -> total (nmu - 1) (wtmp2 nmu) = 2 * INR (nmu - 1) / 3.
Proof.
  intros H. destruct (Nat.eq_dec nmu 2) as [->|N].
  - change (2 - 1)%nat with 1%nat. cbn [total]. unfold wtmp2. change ((2 <? 2)%nat && (0 =? 2 - 2)%nat) with false. cbv iota. cbn [w2 mu2tmp]. change (2 * 2 - 1)%nat with 3%nat.
    replace (4 * (1 / (3 * INR 3))) with (2 / 3 * (2 / 3)) by (simpl; field). rewrite sqrt_square by lra. simpl. field.
  - replace (nmu - 1)%nat with (S (nmu - 2)) at 1 by lia. cbn [total]. unfold wtmp2 at 2. destruct (Nat.ltb_spec 2 nmu); [|lia]. rewrite Nat.eqb_refl. cbn [andb].
    assert (E : wsum2 nmu = total (nmu - 2) (wtmp2 nmu)); [|rewrite E; ring]. unfold wsum2.
    rewrite (total_ext (nmu - 2) _ (fun i => sqrt (w2 nmu i))). 2:{ intros k K. unfold wtmp2. destruct (Nat.eqb_spec k (nmu - 2)); [lia|]. rewrite andb_false_r. reflexivity. }
    replace (nmu - 2)%nat with (S (nmu - 3)) by lia. induction (nmu - 3)%nat; [simpl; ring|]. rewrite seq_S, fold_left_app, IHn. simpl. ring.
Qed.
Definition octant_ok (nmu : nat) (w : list R) : Prop :=
  let c := combine (triples nmu) w in add_up c (fun '(_, x) => x) = 1 /\ forall p, (p < 3)%nat -> add_up c (fun '(t, x) => x * mu2tmp nmu (at3 t p)) = 1 / 3.

Lemma triples_2 : triples 2 = [(0, 0, 1)%nat; (0, 1, 0)%nat; (1, 0, 0)%nat]. Proof. reflexivity. Qed.
Lemma labels_2 : labels 2 = [0; 0; 0]%nat. Proof. reflexivity. Qed.
Definition counts_2 : list (list R) := [[2]].
Definition inverse_2 : list (list R) := [[1 / 2]].
Lemma count_2 i f : (i < 1)%nat -> (f < 1)%nat -> INR (count (triples 2) (labels 2) i f) = from_rows counts_2 i f.
Proof. intros Hi Hf. rewrite triples_2, labels_2. all_lt i 1%nat; all_lt f 1%nat; unfold from_rows, counts_2; simpl; lra. Qed.
Lemma inverse_2_ok : inverse 1 (fun i f => INR (count (triples 2) (labels 2) i f)) (from_rows inverse_2).
Proof.
  intros i j Hi Hj. unfold product. rewrite (total_ext 1 (fun k => _ * from_rows inverse_2 k j) (fun k => from_rows counts_2 i k * from_rows inverse_2 k j)) by (intros; rewrite count_2 by auto; reflexivity).
  rewrite (total_ext 1 (fun k => from_rows inverse_2 i k * _) (fun k => from_rows inverse_2 i k * from_rows counts_2 k j)) by (intros; rewrite count_2 by auto; reflexivity).
  all_lt i 1%nat; all_lt j 1%nat; cbn [total from_rows nth counts_2 inverse_2 one Nat.eqb]; unfold from_rows, counts_2, inverse_2, one; cbn [nth Nat.eqb]; split; lra.
Qed.
Lemma weights_2 indx0 : exists w, octant_weights 2 indx0 = Some w /\ octant_ok 2 w.
Proof.
  destruct (octant_weights_from 2 indx0 (from_rows inverse_2) ltac:(lia) eq_refl inverse_2_ok) as [wpf [E H]]. eexists. split; [exact E|].
  pose proof (wtmp2_sum 2 ltac:(lia)) as W. change (2 - 1)%nat with 1%nat in *. cbn [total] in W. simpl INR in W.
  assert (H' : forall i, (i < 1)%nat -> total 1 (fun f => from_rows counts_2 i f * wpf f) = wtmp 2 i). { intros i Hi. rewrite <- H by auto. apply total_ext. intros f Hf. rewrite count_2 by auto. reflexivity. }
  clear H E.
  assert (H0 := H' 0%nat ltac:(lia)). unfold from_rows, counts_2 in H0. cbn [total nth wtmp] in H0.
  assert (MU : forall k, mu2tmp 2 k = 1 / 9 + INR k * (2 / 3)). { intros k. rewrite mu2_closed. unfold deltamu. cbn [mu2tmp]. change (2 * 2 - 1)%nat with 3%nat. simpl INR at 1 3. field. }
  unfold octant_ok. rewrite triples_2, labels_2. cbv zeta. split; [|intros p Hp; all_lt p 3%nat]; cbn [map combine add_up fold_right at3]; rewrite ?MU; simpl INR; unfold wtmp in *; lra.
Qed.

Lemma triples_3 : triples 3 = [(0, 0, 2)%nat; (0, 1, 1)%nat; (0, 2, 0)%nat; (1, 0, 1)%nat; (1, 1, 0)%nat; (2, 0, 0)%nat]. Proof. reflexivity. Qed.
Lemma labels_3 : labels 3 = [0; 1; 0; 1; 1; 0]%nat. Proof. reflexivity. Qed.
Definition counts_3 : list (list R) := [[2; 1]; [0; 2]].
Definition inverse_3 : list (list R) := [[1 / 2; - (1 / 4)]; [0 / 1; 1 / 2]].
Lemma count_3 i f : (i < 2)%nat -> (f < 2)%nat -> INR (count (triples 3) (labels 3) i f) = from_rows counts_3 i f.
Proof. intros Hi Hf. rewrite triples_3, labels_3. all_lt i 2%nat; all_lt f 2%nat; unfold from_rows, counts_3; simpl; lra. Qed.
Lemma inverse_3_ok : inverse 2 (fun i f => INR (count (triples 3) (labels 3) i f)) (from_rows inverse_3).
Proof.
  intros i j Hi Hj. unfold product. rewrite (total_ext 2 (fun k => _ * from_rows inverse_3 k j) (fun k => from_rows counts_3 i k * from_rows inverse_3 k j)) by (intros; rewrite count_3 by auto; reflexivity).
  rewrite (total_ext 2 (fun k => from_rows inverse_3 i k * _) (fun k => from_rows inverse_3 i k * from_rows counts_3 k j)) by (intros; rewrite count_3 by auto; reflexivity).
  all_lt i 2%nat; all_lt j 2%nat; cbn [total from_rows nth counts_3 inverse_3 one Nat.eqb]; unfold from_rows, counts_3, inverse_3, one; cbn [nth Nat.eqb]; split; lra.
Qed.
Lemma weights_3 indx0 : exists w, octant_weights 3 indx0 = Some w /\ octant_ok 3 w.
Proof.
  destruct (octant_weights_from 3 indx0 (from_rows inverse_3) ltac:(lia) eq_refl inverse_3_ok) as [wpf [E H]]. eexists. split; [exact E|].
  pose proof (wtmp2_sum 3 ltac:(lia)) as W. change (3 - 1)%nat with 2%nat in *. cbn [total] in W. simpl INR in W.
  assert (H' : forall i, (i < 2)%nat -> total 2 (fun f => from_rows counts_3 i f * wpf f) = wtmp 3 i). { intros i Hi. rewrite <- H by auto. apply total_ext. intros f Hf. rewrite count_3 by auto. reflexivity. }
  clear H E.
  assert (H0 := H' 0%nat ltac:(lia)). unfold from_rows, counts_3 in H0. cbn [total nth wtmp] in H0.
  assert (H1 := H' 1%nat ltac:(lia)). unfold from_rows, counts_3 in H1. cbn [total nth wtmp] in H1.
  assert (MU : forall k, mu2tmp 3 k = 1 / 15 + INR k * (2 / 5)). { intros k. rewrite mu2_closed. unfold deltamu. cbn [mu2tmp]. change (2 * 3 - 1)%nat with 5%nat. simpl INR at 1 3. field. }
  unfold octant_ok. rewrite triples_3, labels_3. cbv zeta. split; [|intros p Hp; all_lt p 3%nat]; cbn [map combine add_up fold_right at3]; rewrite ?MU; simpl INR; unfold wtmp in *; lra.
Qed.

Lemma triples_4 : triples 4 = [(0, 0, 3)%nat; (0, 1, 2)%nat; (0, 2, 1)%nat; (0, 3, 0)%nat; (1, 0, 2)%nat; (1, 1, 1)%nat; (1, 2, 0)%nat; (2, 0, 1)%nat; (2, 1, 0)%nat; (3, 0, 0)%nat]. Proof. reflexivity. Qed.
Lemma labels_4 : labels 4 = [0; 1; 1; 0; 1; 2; 1; 1; 1; 0]%nat. Proof. reflexivity. Qed.
Definition counts_4 : list (list R) := [[2; 2; 0]; [0; 2; 1]; [0; 2; 0]].
Definition inverse_4 : list (list R) := [[1 / 2; 0 / 1; - (1 / 2)]; [0 / 1; 0 / 1; 1 / 2]; [0 / 1; 1 / 1; - (1 / 1)]].
Lemma count_4 i f : (i < 3)%nat -> (f < 3)%nat -> INR (count (triples 4) (labels 4) i f) = from_rows counts_4 i f.
Proof. intros Hi Hf. rewrite triples_4, labels_4. all_lt i 3%nat; all_lt f 3%nat; unfold from_rows, counts_4; simpl; lra. Qed.
Lemma inverse_4_ok : inverse 3 (fun i f => INR (count (triples 4) (labels 4) i f)) (from_rows inverse_4).
Proof.
  intros i j Hi Hj. unfold product. rewrite (total_ext 3 (fun k => _ * from_rows inverse_4 k j) (fun k => from_rows counts_4 i k * from_rows inverse_4 k j)) by (intros; rewrite count_4 by auto; reflexivity).
  rewrite (total_ext 3 (fun k => from_rows inverse_4 i k * _) (fun k => from_rows inverse_4 i k * from_rows counts_4 k j)) by (intros; rewrite count_4 by auto; reflexivity).
  all_lt i 3%nat; all_lt j 3%nat; cbn [total from_rows nth counts_4 inverse_4 one Nat.eqb]; unfold from_rows, counts_4, inverse_4, one; cbn [nth Nat.eqb]; split; lra.
Qed.
Lemma weights_4 indx0 : exists w, octant_weights 4 indx0 = Some w /\ octant_ok 4 w.
Proof.
  destruct (octant_weights_from 4 indx0 (from_rows inverse_4) ltac:(lia) eq_refl inverse_4_ok) as [wpf [E H]]. eexists. split; [exact E|].
  pose proof (wtmp2_sum 4 ltac:(lia)) as W. change (4 - 1)%nat with 3%nat in *. cbn [total] in W. simpl INR in W.
  assert (H' : forall i, (i < 3)%nat -> total 3 (fun f => from_rows counts_4 i f * wpf f) = wtmp 4 i). { intros i Hi. rewrite <- H by auto. apply total_ext. intros f Hf. rewrite count_4 by auto. reflexivity. }
  clear H E.
  assert (H0 := H' 0%nat ltac:(lia)). unfold from_rows, counts_4 in H0. cbn [total nth wtmp] in H0.
  assert (H1 := H' 1%nat ltac:(lia)). unfold from_rows, counts_4 in H1. cbn [total nth wtmp] in H1.
  assert (H2 := H' 2%nat ltac:(lia)). unfold from_rows, counts_4 in H2. cbn [total nth wtmp] in H2.
  assert (MU : forall k, mu2tmp 4 k = 1 / 21 + INR k * (2 / 7)). { intros k. rewrite mu2_closed. unfold deltamu. cbn [mu2tmp]. change (2 * 4 - 1)%nat with 7%nat. simpl INR at 1 3. field. }
  unfold octant_ok. rewrite triples_4, labels_4. cbv zeta. split; [|intros p Hp; all_lt p 3%nat]; cbn [map combine add_up fold_right at3]; rewrite ?MU; simpl INR; unfold wtmp in *; lra.
Qed.

Lemma triples_5 : triples 5 = [(0, 0, 4)%nat; (0, 1, 3)%nat; (0, 2, 2)%nat; (0, 3, 1)%nat; (0, 4, 0)%nat; (1, 0, 3)%nat; (1, 1, 2)%nat; (1, 2, 1)%nat; (1, 3, 0)%nat; (2, 0, 2)%nat; (2, 1, 1)%nat; (2, 2, 0)%nat; (3, 0, 1)%nat; (3, 1, 0)%nat; (4, 0, 0)%nat]. Proof. reflexivity. Qed.
Lemma labels_5 : labels 5 = [0; 1; 2; 1; 0; 1; 3; 3; 1; 2; 3; 2; 1; 1; 0]%nat. Proof. reflexivity. Qed.
Definition counts_5 : list (list R) := [[2; 2; 1; 0]; [0; 2; 0; 2]; [0; 0; 2; 1]; [0; 2; 0; 0]].
Definition inverse_5 : list (list R) := [[1 / 2; 1 / 8; - (1 / 4); - (5 / 8)]; [0 / 1; 0 / 1; 0 / 1; 1 / 2]; [0 / 1; - (1 / 4); 1 / 2; 1 / 4]; [0 / 1; 1 / 2; 0 / 1; - (1 / 2)]].
Lemma count_5 i f : (i < 4)%nat -> (f < 4)%nat -> INR (count (triples 5) (labels 5) i f) = from_rows counts_5 i f.
Proof. intros Hi Hf. rewrite triples_5, labels_5. all_lt i 4%nat; all_lt f 4%nat; unfold from_rows, counts_5; simpl; lra. Qed.
Lemma inverse_5_ok : inverse 4 (fun i f => INR (count (triples 5) (labels 5) i f)) (from_rows inverse_5).
Proof.
  intros i j Hi Hj. unfold product. rewrite (total_ext 4 (fun k => _ * from_rows inverse_5 k j) (fun k => from_rows counts_5 i k * from_rows inverse_5 k j)) by (intros; rewrite count_5 by auto; reflexivity).
  rewrite (total_ext 4 (fun k => from_rows inverse_5 i k * _) (fun k => from_rows inverse_5 i k * from_rows counts_5 k j)) by (intros; rewrite count_5 by auto; reflexivity).
  all_lt i 4%nat; all_lt j 4%nat; cbn [total from_rows nth counts_5 inverse_5 one Nat.eqb]; unfold from_rows, counts_5, inverse_5, one; cbn [nth Nat.eqb]; split; lra.
Qed.
Lemma weights_5 indx0 : exists w, octant_weights 5 indx0 = Some w /\ octant_ok 5 w.
Proof.
  destruct (octant_weights_from 5 indx0 (from_rows inverse_5) ltac:(lia) eq_refl inverse_5_ok) as [wpf [E H]]. eexists. split; [exact E|].
  pose proof (wtmp2_sum 5 ltac:(lia)) as W. change (5 - 1)%nat with 4%nat in *. cbn [total] in W. simpl INR in W.
  assert (H' : forall i, (i < 4)%nat -> total 4 (fun f => from_rows counts_5 i f * wpf f) = wtmp 5 i). { intros i Hi. rewrite <- H by auto. apply total_ext. intros f Hf. rewrite count_5 by auto. reflexivity. }
  clear H E.
  assert (H0 := H' 0%nat ltac:(lia)). unfold from_rows, counts_5 in H0. cbn [total nth wtmp] in H0.
  assert (H1 := H' 1%nat ltac:(lia)). unfold from_rows, counts_5 in H1. cbn [total nth wtmp] in H1.
  assert (H2 := H' 2%nat ltac:(lia)). unfold from_rows, counts_5 in H2. cbn [total nth wtmp] in H2.
  assert (H3 := H' 3%nat ltac:(lia)). unfold from_rows, counts_5 in H3. cbn [total nth wtmp] in H3.
  assert (MU : forall k, mu2tmp 5 k = 1 / 27 + INR k * (2 / 9)). { intros k. rewrite mu2_closed. unfold deltamu. cbn [mu2tmp]. change (2 * 5 - 1)%nat with 9%nat. simpl INR at 1 3. field. }
  unfold octant_ok. rewrite triples_5, labels_5. cbv zeta. split; [|intros p Hp; all_lt p 3%nat]; cbn [map combine add_up fold_right at3]; rewrite ?MU; simpl INR; unfold wtmp in *; lra.
Qed.

Lemma triples_6 : triples 6 = [(0, 0, 5)%nat; (0, 1, 4)%nat; (0, 2, 3)%nat; (0, 3, 2)%nat; (0, 4, 1)%nat; (0, 5, 0)%nat; (1, 0, 4)%nat; (1, 1, 3)%nat; (1, 2, 2)%nat; (1, 3, 1)%nat; (1, 4, 0)%nat; (2, 0, 3)%nat; (2, 1, 2)%nat; (2, 2, 1)%nat; (2, 3, 0)%nat; (3, 0, 2)%nat; (3, 1, 1)%nat; (3, 2, 0)%nat; (4, 0, 1)%nat; (4, 1, 0)%nat; (5, 0, 0)%nat]. Proof. reflexivity. Qed.
Lemma labels_6 : labels 6 = [0; 1; 2; 2; 1; 0; 1; 3; 4; 3; 1; 2; 4; 4; 2; 2; 3; 2; 1; 1; 0]%nat. Proof. reflexivity. Qed.
Definition counts_6 : list (list R) := [[2; 2; 2; 0; 0]; [0; 2; 0; 2; 1]; [0; 0; 2; 0; 2]; [0; 0; 2; 1; 0]; [0; 2; 0; 0; 0]].
Definition inverse_6 : list (list R) := [[1 / 2; 1 / 5; - (1 / 10); - (2 / 5); - (7 / 10)]; [0 / 1; 0 / 1; 0 / 1; 0 / 1; 1 / 2]; [0 / 1; - (1 / 5); 1 / 10; 2 / 5; 1 / 5]; [0 / 1; 2 / 5; - (1 / 5); 1 / 5; - (2 / 5)]; [0 / 1; 1 / 5; 2 / 5; - (2 / 5); - (1 / 5)]].
Lemma count_6 i f : (i < 5)%nat -> (f < 5)%nat -> INR (count (triples 6) (labels 6) i f) = from_rows counts_6 i f.
Proof. intros Hi Hf. rewrite triples_6, labels_6. all_lt i 5%nat; all_lt f 5%nat; unfold from_rows, counts_6; simpl; lra. Qed.
Lemma inverse_6_ok : inverse 5 (fun i f => INR (count (triples 6) (labels 6) i f)) (from_rows inverse_6).
Proof.
  intros i j Hi Hj. unfold product. rewrite (total_ext 5 (fun k => _ * from_rows inverse_6 k j) (fun k => from_rows counts_6 i k * from_rows inverse_6 k j)) by (intros; rewrite count_6 by auto; reflexivity).
  rewrite (total_ext 5 (fun k => from_rows inverse_6 i k * _) (fun k => from_rows inverse_6 i k * from_rows counts_6 k j)) by (intros; rewrite count_6 by auto; reflexivity).
  all_lt i 5%nat; all_lt j 5%nat; cbn [total from_rows nth counts_6 inverse_6 one Nat.eqb]; unfold from_rows, counts_6, inverse_6, one; cbn [nth Nat.eqb]; split; lra.
Qed.
Lemma weights_6 indx0 : exists w, octant_weights 6 indx0 = Some w /\ octant_ok 6 w.
Proof.
  destruct (octant_weights_from 6 indx0 (from_rows inverse_6) ltac:(lia) eq_refl inverse_6_ok) as [wpf [E H]]. eexists. split; [exact E|].
  pose proof (wtmp2_sum 6 ltac:(lia)) as W. change (6 - 1)%nat with 5%nat in *. cbn [total] in W. simpl INR in W.
  assert (H' : forall i, (i < 5)%nat -> total 5 (fun f => from_rows counts_6 i f * wpf f) = wtmp 6 i). { intros i Hi. rewrite <- H by auto. apply total_ext. intros f Hf. rewrite count_6 by auto. reflexivity. }
  clear H E.
  assert (H0 := H' 0%nat ltac:(lia)). unfold from_rows, counts_6 in H0. cbn [total nth wtmp] in H0.
  assert (H1 := H' 1%nat ltac:(lia)). unfold from_rows, counts_6 in H1. cbn [total nth wtmp] in H1.
  assert (H2 := H' 2%nat ltac:(lia)). unfold from_rows, counts_6 in H2. cbn [total nth wtmp] in H2.
  assert (H3 := H' 3%nat ltac:(lia)). unfold from_rows, counts_6 in H3. cbn [total nth wtmp] in H3.
  assert (H4 := H' 4%nat ltac:(lia)). unfold from_rows, counts_6 in H4. cbn [total nth wtmp] in H4.
  assert (MU : forall k, mu2tmp 6 k = 1 / 33 + INR k * (2 / 11)). { intros k. rewrite mu2_closed. unfold deltamu. cbn [mu2tmp]. change (2 * 6 - 1)%nat with 11%nat. simpl INR at 1 3. field. }
  unfold octant_ok. rewrite triples_6, labels_6. cbv zeta. split; [|intros p Hp; all_lt p 3%nat]; cbn [map combine add_up fold_right at3]; rewrite ?MU; simpl INR; unfold wtmp in *; lra.
Qed.
