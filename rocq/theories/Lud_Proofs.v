(** Proofs about the linear solver: sums, triangular systems, one column of the decomposition. *)
From Coq Require Import Reals List Bool Arith Lra Lia.
From Verif Require Import Time_Model Time_Proofs Lud_Model Lud_Spec.
Import ListNotations.
Local Open Scope R_scope.

Lemma total_ext n f g : (forall k, (k < n)%nat -> f k = g k) -> total n f = total n g.
Proof. induction n; intros H; simpl; auto. rewrite IHn by (intros; apply H; lia). rewrite H by lia. reflexivity. Qed.
Lemma total_zero n f : (forall k, (k < n)%nat -> f k = 0) -> total n f = 0.
Proof. induction n; intros H; simpl; auto. rewrite IHn by (intros; apply H; lia). rewrite H by lia. ring. Qed.
Lemma total_plus n f g : total n (fun k => f k + g k) = total n f + total n g.
Proof. induction n; simpl; [ring|]. rewrite IHn. ring. Qed.
Lemma total_scal n c f : total n (fun k => c * f k) = c * total n f.
Proof. induction n; simpl; [ring|]. rewrite IHn. ring. Qed.
Lemma total_swap m n (f : nat -> nat -> R) : total m (fun i => total n (f i)) = total n (fun j => total m (fun i => f i j)).
Proof. induction m; simpl. - symmetry. apply total_zero. auto. - rewrite IHm. rewrite <- total_plus. reflexivity. Qed.
Lemma total_split m n f : (m <= n)%nat -> (forall k, (m <= k < n)%nat -> f k = 0) -> total n f = total m f.
Proof. intros H Z. induction n. - replace m with 0%nat by lia. reflexivity. - destruct (Nat.eq_dec m (S n)) as [->|N]; auto. simpl. rewrite IHn by (try lia; intros; apply Z; lia). rewrite (Z n) by lia. ring. Qed.
Lemma fold_minus f l m s : fold_left (fun s j => s - f j) (seq l m) s = s - (total (l + m) f - total l f).
Proof.
  revert s. induction m; intros s. - simpl. rewrite Nat.add_0_r. ring.
  - rewrite seq_S, fold_left_app, IHm. simpl. rewrite Nat.add_succ_r. simpl. ring.
Qed.
Lemma fold_plus f n : fold_left (fun s j => s + f j) (seq 0 n) 0 = total n f.
Proof. induction n; auto. rewrite seq_S, fold_left_app, IHn. reflexivity. Qed.
Lemma reduced_total a i j m : reduced a i j m = a i j - total m (fun k => a i k * a k j).
Proof. unfold reduced. rewrite (fold_minus (fun k => a i k * a k j)). simpl. ring. Qed.
Lemma set2_same a i j v : set2 a i j v i j = v. Proof. unfold set2. rewrite !Nat.eqb_refl. reflexivity. Qed.
Lemma set2_row a i j v r c : r <> i -> set2 a i j v r c = a r c. Proof. intros H. unfold set2. rewrite (proj2 (Nat.eqb_neq r i) H). reflexivity. Qed.
Lemma set2_col a i j v r c : c <> j -> set2 a i j v r c = a r c. Proof. intros H. unfold set2. rewrite (proj2 (Nat.eqb_neq c j) H). rewrite andb_false_r. reflexivity. Qed.
Lemma set1_same {A} (b : nat -> A) i v : set1 b i v i = v. Proof. unfold set1. rewrite Nat.eqb_refl. reflexivity. Qed.
Lemma set1_other {A} (b : nat -> A) i v r : r <> i -> set1 b i v r = b r. Proof. intros H. unfold set1. rewrite (proj2 (Nat.eqb_neq r i) H). reflexivity. Qed.

(** ** One column *)
Lemma upper_spec j a : let a1 := upper_block j a in
  (forall r c, c <> j -> a1 r c = a r c) /\ (forall r, (j <= r)%nat -> a1 r j = a r j) /\ (forall r, (r < j)%nat -> a1 r j = a r j - total r (fun k => a r k * a1 k j)).
Proof.
  cbv zeta. unfold upper_block.
  assert (G : forall m, (m <= j)%nat -> let a1 := fold_left (fun a i => set2 a i j (reduced a i j i)) (seq 0 m) a in
    (forall r c, c <> j -> a1 r c = a r c) /\ (forall r, (m <= r)%nat -> a1 r j = a r j) /\ (forall r, (r < m)%nat -> a1 r j = a r j - total r (fun k => a r k * a1 k j))).
  { induction m; intros M; cbv zeta. - simpl. repeat split; auto. intros; lia.
    - specialize (IHm ltac:(lia)). cbv zeta in IHm. rewrite seq_S, fold_left_app. cbn [fold_left Nat.add]. set (b := fold_left (fun a i => set2 a i j (reduced a i j i)) (seq 0 m) a) in *. destruct IHm as [I1 [I2 I3]]. repeat split.
      + intros r c H. rewrite set2_col by auto. auto.
      + intros r H. rewrite set2_row by lia. apply I2. lia.
      + intros r H. destruct (Nat.eq_dec r m) as [->|N].
        * rewrite set2_same, reduced_total, I2 by lia. f_equal. apply total_ext. intros k K. rewrite set2_row by lia. rewrite I1 by lia. reflexivity.
        * rewrite set2_row by auto. rewrite I3 by lia. f_equal. apply total_ext. intros k K. rewrite set2_row by lia. reflexivity. }
  apply (G j). lia.
Qed.
Lemma lower_ok n j sc a im : (j < n)%nat -> (forall r, (j <= r < n)%nat -> 0 < sc r) -> exists a2 big imax, lower_block n j sc (a, 0, im) = (a2, big, imax) /\
  (forall r c, c <> j \/ (r < j)%nat -> a2 r c = a r c) /\ (forall r, (j <= r < n)%nat -> a2 r j = a r j - total j (fun k => a r k * a k j)) /\
  (j <= imax < n)%nat /\ (a2 imax j = 0 -> forall r, (j <= r < n)%nat -> a2 r j = 0).
Proof.
  intros J SC. unfold lower_block.
  assert (G : forall m, (j + m <= n)%nat -> exists a2 big imax, fold_left (fun '(a, big, imax) i => let sum := reduced a i j j in let dum := sc i * Rabs sum in
    let a := set2 a i j sum in if leR big dum then (a, dum, i) else (a, big, imax)) (seq j m) (a, 0, im) = (a2, big, imax) /\
    (forall r c, c <> j \/ (r < j)%nat \/ (j + m <= r)%nat -> a2 r c = a r c) /\ (forall r, (j <= r < j + m)%nat -> a2 r j = a r j - total j (fun k => a r k * a k j)) /\
    0 <= big /\ (m <> 0%nat -> (j <= imax < j + m)%nat /\ big = sc imax * Rabs (a2 imax j)) /\ (forall r, (j <= r < j + m)%nat -> sc r * Rabs (a2 r j) <= big)).
  { induction m; intros M. - exists a, 0, im. split; [reflexivity|]. repeat split; auto; try lra; intros; lia.
    - destruct (IHm ltac:(lia)) as [a2 [big [imax [E [I1 [I2 [I3 [I4 I5]]]]]]]]. rewrite seq_S, fold_left_app, E. cbn [fold_left]. cbv zeta.
      set (sum := reduced a2 (j + m) j j). assert (S : sum = a (j + m)%nat j - total j (fun k => a (j + m)%nat k * a k j)).
      { unfold sum. rewrite reduced_total, I1 by lia. f_equal. apply total_ext. intros k K. rewrite !I1 by lia. reflexivity. }
      assert (C1 : forall r c, c <> j \/ (r < j)%nat \/ (j + Datatypes.S m <= r)%nat -> set2 a2 (j + m) j sum r c = a r c).
      { intros r c [H|H]; [rewrite set2_col by auto|rewrite set2_row by lia]; apply I1; lia. }
      assert (C2 : forall r, (j <= r < j + Datatypes.S m)%nat -> set2 a2 (j + m) j sum r j = a r j - total j (fun k => a r k * a k j)).
      { intros r H. destruct (Nat.eq_dec r (j + m)) as [->|N]; [rewrite set2_same; exact S|]. rewrite set2_row by auto. apply I2. lia. }
      assert (P : 0 <= sc (j + m)%nat * Rabs sum) by (apply Rmult_le_pos; [apply Rlt_le, SC; lia|apply Rabs_pos]).
      destruct (leR big (sc (j + m)%nat * Rabs sum)) eqn:LE.
      + apply leR_true in LE. exists (set2 a2 (j + m) j sum), (sc (j + m)%nat * Rabs sum), (j + m)%nat. repeat split; auto; try lia.
        * rewrite set2_same. reflexivity.
        * intros r H. destruct (Nat.eq_dec r (j + m)) as [->|N]; [rewrite set2_same; lra|]. rewrite set2_row by auto. specialize (I5 r ltac:(lia)). lra.
      + apply leR_false in LE. assert (M0 : m <> 0%nat). { intros ->. simpl in E. injection E as <- <- <-. lra. }
        destruct (I4 M0) as [Q1 Q2]. exists (set2 a2 (j + m) j sum), big, imax. repeat split; auto; try lia.
        * rewrite set2_row by lia. auto.
        * intros r H. destruct (Nat.eq_dec r (j + m)) as [->|N]; [rewrite set2_same; lra|]. rewrite set2_row by auto. apply I5. lia. }
  destruct (G (n - j)%nat ltac:(lia)) as [a2 [big [imax [E [I1 [I2 [I3 [I4 I5]]]]]]]]. exists a2, big, imax. split; [exact E|]. destruct (I4 ltac:(lia)) as [Q1 Q2]. repeat split; try lia.
  - intros r c H. apply I1. lia.
  - intros r H. apply I2. lia.
  - intros Z r H. specialize (I5 r ltac:(lia)). rewrite Q2, Z, Rabs_R0, Rmult_0_r in I5. specialize (SC r H). pose proof (Rabs_pos (a2 r j)) as P.
    destruct (Req_EM_T (a2 r j) 0) as [|N]; auto. apply Rabs_pos_lt in N. nra.
Qed.
Definition sw (p q r : nat) : nat := if (r =? p)%nat then q else if (r =? q)%nat then p else r.
Lemma sw_sw p q r : sw p q (sw p q r) = r.
Proof. unfold sw. destruct (r =? p)%nat eqn:E. - apply Nat.eqb_eq in E. destruct (q =? p)%nat eqn:F; [apply Nat.eqb_eq in F; congruence|]. rewrite Nat.eqb_refl. auto. - destruct (r =? q)%nat eqn:G; [rewrite Nat.eqb_refl; apply Nat.eqb_eq in G; auto|]. rewrite E, G. reflexivity. Qed.
Lemma sw_same p r : sw p p r = r. Proof. unfold sw. destruct (r =? p)%nat eqn:E; auto. apply Nat.eqb_eq in E. auto. Qed.
Lemma sw_cases p q r : sw p q r = r /\ r <> p /\ r <> q \/ r = p /\ sw p q r = q \/ r = q /\ sw p q r = p.
Proof. unfold sw. destruct (r =? p)%nat eqn:E; [apply Nat.eqb_eq in E; auto|]. destruct (r =? q)%nat eqn:F; [apply Nat.eqb_eq in F; auto|]. apply Nat.eqb_neq in E, F. auto. Qed.
Lemma sw_sym p q r : sw p q r = sw q p r. Proof. unfold sw. destruct (r =? p)%nat eqn:E, (r =? q)%nat eqn:F; auto. apply Nat.eqb_eq in E, F. congruence. Qed.
Lemma swap_ok n p q a r c : (c < n)%nat -> (if negb (q =? p)%nat then swap_rows n p q a else a) r c = a (sw q p r) c.
Proof. intros C. destruct (q =? p)%nat eqn:E; cbn [negb]. - apply Nat.eqb_eq in E. subst. rewrite sw_same. reflexivity. - unfold swap_rows. apply Nat.ltb_lt in C. rewrite C. rewrite sw_sym. unfold sw. destruct (r =? p)%nat; auto. destruct (r =? q)%nat; auto. Qed.
Lemma divide_ok n j a : a j j <> 0 -> (forall r c, c <> j \/ (r <= j)%nat -> divide n j a r c = a r c) /\ (forall r, (j < r < n)%nat -> divide n j a r j = a r j / a j j).
Proof.
  intros H. unfold divide. replace (isZ (a j j)) with false by (unfold isZ; destruct (Req_EM_T (a j j) 0); congruence). cbv zeta. set (dum := 1 / a j j).
  assert (G : forall m, let b := fold_left (fun a i => set2 a i j (a i j * dum)) (seq (S j) m) a in (forall r c, c <> j \/ (r <= j)%nat \/ (S j + m <= r)%nat -> b r c = a r c) /\ (forall r, (j < r < S j + m)%nat -> b r j = a r j * dum)).
  { induction m; cbv zeta. - simpl. split; intros; auto; lia.
    - cbv zeta in IHm. rewrite seq_S, fold_left_app. cbn [fold_left]. set (b := fold_left _ _ _) in *. destruct IHm as [I1 I2]. split.
      + intros r c [K|K]; [rewrite set2_col by auto|rewrite set2_row by lia]; apply I1; lia.
      + intros r K. destruct (Nat.eq_dec r (S j + m)) as [->|N]; [rewrite set2_same, I1 by lia; reflexivity|]. rewrite set2_row by auto. apply I2. lia. }
  destruct (G (n - S j)%nat) as [G1 G2]. split; intros. - apply G1; lia. - rewrite G2 by lia. unfold dum. field. auto.
Qed.
