(** Proofs about the linear solver: the decomposition and the substitutions. *)
From Coq Require Import Reals List Bool Arith Lra Lia.
From Verif Require Import Time_Model Time_Proofs Lud_Model Lud_Spec Lud_Proofs.
Import ListNotations.
Local Open Scope R_scope.

(** Rows after the first j recorded interchanges. *)
Fixpoint pm (ix : nat -> nat) (j : nat) (r : nat) : nat := match j with O => r | S i => pm ix i (sw i (ix i) r) end.
Lemma pm_ext ix ix' j r : (forall i, (i < j)%nat -> ix i = ix' i) -> pm ix j r = pm ix' j r.
Proof. revert r. induction j; intros r H; simpl; auto. rewrite H by lia. apply IHj. intros. apply H. lia. Qed.
Definition good_ix (n : nat) (ix : nat -> nat) (j : nat) := forall i, (i < j)%nat -> (i <= ix i < n)%nat.
Lemma sw_lt n p q r : (p < n)%nat -> (q < n)%nat -> (r < n)%nat -> (sw p q r < n)%nat.
Proof. intros. destruct (sw_cases p q r) as [[-> _]|[[_ ->]|[_ ->]]]; auto. Qed.
Lemma pm_onto n ix j : (j <= n)%nat -> good_ix n ix j -> forall r, (r < n)%nat -> exists r', (r' < n)%nat /\ pm ix j r' = r.
Proof.
  intros J G. induction j; intros r H. - exists r. auto.
  - destruct (IHj ltac:(lia)) with (r := r) as [r' [L E]]; auto. { intros i I. apply G. lia. }
    exists (sw j (ix j) r'). split; [apply sw_lt; auto; try lia; apply G; lia|]. simpl. rewrite sw_sw. auto.
Qed.
Lemma pm_lt n ix j : (j <= n)%nat -> good_ix n ix j -> forall r, (r < n)%nat -> (pm ix j r < n)%nat.
Proof. intros J G. induction j; intros r H; simpl; auto. apply IHj; try lia. - intros i I. apply G. lia. - apply sw_lt; auto; try lia. apply G. lia. Qed.
Lemma pm_stable ix n i r : good_ix n ix (S i) -> (r < i)%nat -> pm ix (S i) r = pm ix i r.
Proof. intros G H. simpl. specialize (G i ltac:(lia)). destruct (sw_cases i (ix i) r) as [[-> _]|[[-> _]|[-> _]]]; auto; lia. Qed.

Definition LL (a : mat) (r k : nat) : R := if (k <? r)%nat then a r k else if (k =? r)%nat then 1 else 0.
Definition UU (a : mat) (k c : nat) : R := if (k <=? c)%nat then a k c else 0.
Lemma LU_form a N r c : (c < N)%nat -> total N (fun k => LL a r k * UU a k c) = total (Nat.min r (S c)) (fun k => a r k * a k c) + (if (r <=? c)%nat then a r c else 0).
Proof.
  intros C. destruct (r <=? c)%nat eqn:E.
  - apply Nat.leb_le in E. rewrite Nat.min_l by lia. rewrite (total_split (S r)) by (try lia; (intros k K; unfold LL; destruct (Nat.ltb_spec k r); [lia|]; destruct (Nat.eqb_spec k r); [lia|]; ring)).
    simpl. f_equal. + apply total_ext. intros k K. unfold LL, UU. destruct (Nat.ltb_spec k r); [|lia]. destruct (Nat.leb_spec k c); [|lia]. reflexivity.
    + unfold LL, UU. rewrite Nat.ltb_irrefl, Nat.eqb_refl. destruct (Nat.leb_spec r c); [|lia]. ring.
  - apply Nat.leb_gt in E. rewrite Nat.min_r by lia. rewrite Rplus_0_r. rewrite (total_split (S c)) by (try lia; (intros k K; unfold UU; destruct (Nat.leb_spec k c); [lia|]; ring)).
    apply total_ext. intros k K. unfold LL, UU. destruct (Nat.ltb_spec k r); [|lia]. destruct (Nat.leb_spec k c); [|lia]. reflexivity.
Qed.

(** A triangular system with a zero in the last pivot has a solution that does not vanish. *)
Lemma triangular a j : (forall k, (k < j)%nat -> a k k <> 0) -> exists x, x j = 1 /\ (forall c, (j < c)%nat -> x c = 0) /\ forall k, (k < j)%nat -> total (S j) (fun c => UU a k c * x c) = 0.
Proof.
  intros D. assert (G : forall m, (m <= j)%nat -> exists x, x j = 1 /\ (forall c, (j < c)%nat -> x c = 0) /\ forall k, (j - m <= k < j)%nat -> total (S j) (fun c => UU a k c * x c) = 0).
  { induction m; intros M. - exists (fun c => if (c =? j)%nat then 1 else 0). rewrite Nat.eqb_refl. repeat split; auto; intros; try lia. destruct (Nat.eqb_spec c j); auto; lia.
    - destruct (IHm ltac:(lia)) as [x [X1 [X2 X3]]]. set (q := (j - S m)%nat). set (x0 := set1 x q 0). set (v := - total (S j) (fun c => UU a q c * x0 c) / a q q).
      exists (set1 x q v). assert (Q : (q < j)%nat) by (unfold q; lia). repeat split.
      + rewrite set1_other by lia. auto.
      + intros c C. rewrite set1_other by lia. auto.
      + intros k K. destruct (Nat.eq_dec k q) as [->|N].
        * transitivity (total (S j) (fun c => UU a q c * x0 c) + a q q * v); [|unfold v; field; apply D; auto].
          transitivity (total (S j) (fun c => UU a q c * x0 c + (if (c =? q)%nat then a q q * v else 0))).
          { apply total_ext. intros c C. unfold x0, set1. destruct (Nat.eqb_spec c q) as [->|]; [unfold UU; rewrite Nat.leb_refl; ring|ring]. }
          rewrite total_plus. f_equal. rewrite (total_split (S q)) by (try lia; (intros i I; destruct (Nat.eqb_spec i q); auto; lia)). simpl. rewrite Nat.eqb_refl.
          rewrite total_zero; [ring|]. intros i I. destruct (Nat.eqb_spec i q); auto; lia.
        * rewrite <- (X3 k) by (unfold q in *; lia). apply total_ext. intros c C. destruct (Nat.eq_dec c q) as [->|E]; [|rewrite set1_other by auto; reflexivity].
          unfold UU. destruct (Nat.leb_spec k q); [unfold q in *; lia|ring]. }
  destruct (G j ltac:(lia)) as [x [X1 [X2 X3]]]. exists x. repeat split; auto. intros. apply X3. lia.
Qed.

Lemma no_kernel n A B x : inverse n A B -> (forall i, (i < n)%nat -> total n (fun c => A i c * x c) = 0) -> forall j, (j < n)%nat -> x j = 0.
Proof.
  intros I H j J. transitivity (total n (fun c => one j c * x c)).
  - rewrite (total_split (S j)) by (try lia; (intros i Hi; unfold one; destruct (Nat.eqb_spec j i); [lia|ring])). simpl. unfold one at 2. rewrite Nat.eqb_refl. rewrite total_zero; [ring|]. intros i Hi. unfold one. destruct (Nat.eqb_spec j i); [lia|ring].
  - transitivity (total n (fun c => total n (fun k => B j k * A k c) * x c)). { apply total_ext. intros c C. rewrite <- (proj2 (I j c J C)). reflexivity. }
    transitivity (total n (fun k => B j k * total n (fun c => A k c * x c))).
    + transitivity (total n (fun c => total n (fun k => B j k * (A k c * x c)))). { apply total_ext. intros c C. rewrite Rmult_comm, <- total_scal. apply total_ext. intros. ring. }
      rewrite total_swap. apply total_ext. intros k K. apply total_scal.
    + apply total_zero. intros k K. rewrite H by auto. ring.
Qed.

(** ** The decomposition *)
Section decomposition.
Variables (n : nat) (A B : mat).
Hypothesis HI : inverse n A B.
Record inv (j : nat) (s : lu) : Prop := {
  i_done : forall r c, (r < n)%nat -> (c < j)%nat -> A (pm (indx s) j r) c = total (Nat.min r (S c)) (fun k => la s r k * la s k c) + (if (r <=? c)%nat then la s r c else 0);
  i_todo : forall r c, (r < n)%nat -> (j <= c < n)%nat -> la s r c = A (pm (indx s) j r) c;
  i_diag : forall c, (c < j)%nat -> la s c c <> 0;
  i_scale : forall r, (r < n)%nat -> 0 < scale s r;
  i_ix : good_ix n (indx s) j }.
Lemma column_inv j s : (j < n)%nat -> inv j s -> inv (S j) (column n s j).
Proof using HI.
  intros J [I1 I2 I3 I4 I5]. unfold column.
  destruct (upper_spec j (la s)) as [U1 [U2 U3]]. set (a1 := upper_block j (la s)) in *.
  destruct (lower_ok n j (scale s) a1 (last s) J) as [a2 [big [imax [E [L1 [L2 [L3 L4]]]]]]]. { intros r H. apply I4. lia. } rewrite E. clear E.
  set (ix := set1 (indx s) j imax). set (a3 := if negb (j =? imax)%nat then swap_rows n imax j a2 else a2).
  assert (S3 : forall r c, (c < n)%nat -> a3 r c = a2 (sw j imax r) c) by (intros; apply swap_ok; auto).
  assert (O2 : forall r c, c <> j -> a2 r c = la s r c) by (intros r c H; rewrite L1 by auto; apply U1; auto).
  assert (T2 : forall r, (r < j)%nat -> a2 r j = a1 r j) by (intros r H; apply L1; auto).
  assert (C2 : forall r, (r < n)%nat -> a2 r j = A (pm (indx s) j r) j - total (Nat.min r j) (fun k => la s r k * a2 k j)).
  { intros r H. rewrite <- I2 by lia. destruct (Nat.lt_ge_cases r j) as [K|K].
    - rewrite T2, U3 by auto. rewrite Nat.min_l by lia. f_equal. apply total_ext. intros k Hk. rewrite T2 by lia. reflexivity.
    - rewrite L2, U2 by lia. rewrite Nat.min_r by lia. f_equal. apply total_ext. intros k Hk. rewrite T2, U1 by lia. reflexivity. }
  assert (PM : forall r, pm ix (S j) r = pm (indx s) j (sw j imax r)).
  { intros r. simpl. unfold ix at 2. rewrite set1_same. apply pm_ext. intros i Hi. unfold ix. apply set1_other. lia. }
  assert (SL : forall r, (r < j)%nat -> sw j imax r = r). { intros r H. destruct (sw_cases j imax r) as [[-> _]|[[-> _]|[-> _]]]; auto; lia. }
  assert (SG : forall r, (j <= r)%nat -> (j <= sw j imax r)%nat). { intros r H. destruct (sw_cases j imax r) as [[-> _]|[[_ ->]|[_ ->]]]; lia. }
  assert (SN : forall r, (r < n)%nat -> (sw j imax r < n)%nat) by (intros; apply sw_lt; lia).
  assert (MN : forall r m, (m <= j)%nat -> Nat.min (sw j imax r) m = Nat.min r m). { intros r m M. destruct (Nat.lt_ge_cases r j); [rewrite SL by auto; auto|]. specialize (SG r ltac:(lia)). lia. }
  (* pivot *)
  assert (PV : a3 j j <> 0).
  { rewrite S3 by auto. replace (sw j imax j) with imax by (unfold sw; rewrite Nat.eqb_refl; auto). intros Z. specialize (L4 Z).
    destruct (triangular a2 j) as [x [X1 [X2 X3]]]. { intros k K. rewrite O2 by lia. auto. }
    assert (R : forall r, (r < n)%nat -> total n (fun c => A (pm (indx s) j r) c * x c) = 0).
    { intros r Hr. rewrite (total_split (S j)) by (try lia; (intros c Hc; rewrite X2 by lia; ring)).
      assert (F : forall c, (c <= j)%nat -> A (pm (indx s) j r) c = total (S j) (fun k => LL a2 r k * UU a2 k c)).
      { intros c Hc. rewrite LU_form by lia. destruct (Nat.eq_dec c j) as [->|N].
        - specialize (C2 r Hr). replace (A (pm (indx s) j r) j) with (a2 r j + total (Nat.min r j) (fun k => la s r k * a2 k j)) by lra.
          destruct (Nat.leb_spec r j) as [K|K].
          + rewrite !Nat.min_l by lia. rewrite Rplus_comm. f_equal. apply total_ext. intros k Hk. rewrite (O2 r) by lia. reflexivity.
          + rewrite !Nat.min_r by lia. simpl. rewrite (L4 r) by lia. rewrite (total_ext j _ (fun k => a2 r k * a2 k j)); [ring|]. intros k Hk. rewrite (O2 r) by lia. reflexivity.
        - rewrite I1 by lia. f_equal. + apply total_ext. intros k Hk. rewrite !O2 by lia. reflexivity. + rewrite O2 by lia. reflexivity. }
      rewrite (total_ext (S j) _ (fun c => total (S j) (fun k => LL a2 r k * (UU a2 k c * x c)))).
      2:{ intros c Hc. rewrite F by lia. rewrite Rmult_comm, <- total_scal. apply total_ext. intros. ring. }
      rewrite total_swap. apply total_zero. intros k Hk. rewrite total_scal. destruct (Nat.eq_dec k j) as [->|N]; [|rewrite X3 by lia; ring].
      simpl. rewrite total_zero by (intros c Hc; unfold UU; destruct (Nat.leb_spec j c); [lia|ring]). unfold UU. rewrite Nat.leb_refl, (L4 j) by lia. ring. }
    assert (x j = 0); [|lra]. apply (no_kernel n A B x HI); auto. intros i Hi. destruct (pm_onto n (indx s) j ltac:(lia) I5 i Hi) as [r [Hr <-]]. auto. }
  destruct (divide_ok n j a3 PV) as [D1 D2]. set (a4 := divide n j a3) in *.
  assert (O4 : forall r c, (c < n)%nat -> c <> j -> a4 r c = la s (sw j imax r) c) by (intros r c H N; rewrite D1, S3 by auto; apply O2; auto).
  assert (U4 : forall r, (r <= j)%nat -> a4 r j = a3 r j) by (intros; apply D1; auto).
  assert (C3 : forall r, (r < n)%nat -> a3 r j = A (pm ix (S j) r) j - total (Nat.min r j) (fun k => a4 r k * a4 k j)).
  { intros r Hr. rewrite S3 by auto. rewrite C2 by auto. rewrite PM, MN by lia. f_equal. apply total_ext. intros k Hk. rewrite O4 by lia. f_equal. rewrite U4, S3, SL by lia. reflexivity. }
  split; cbn [la indx scale].
  - intros r c Hr Hc. destruct (Nat.eq_dec c j) as [->|N].
    + replace (A (pm ix (S j) r) j) with (a3 r j + total (Nat.min r j) (fun k => a4 r k * a4 k j)) by (rewrite (C3 r) by auto; ring).
      destruct (Nat.leb_spec r j) as [K|K].
      * rewrite !Nat.min_l by lia. rewrite U4 by auto. ring.
      * rewrite !Nat.min_r by lia. simpl. rewrite D2 by lia. rewrite U4 by auto. field. auto.
    + rewrite PM, I1 by (auto; lia). rewrite MN by lia. f_equal.
      * apply total_ext. intros k Hk. rewrite !O4 by lia. rewrite (SL k) by lia. reflexivity.
      * destruct (Nat.lt_ge_cases r j) as [K|K]; [rewrite SL by auto; destruct (r <=? c)%nat; auto; rewrite O4, SL by lia; reflexivity|]. specialize (SG r K). destruct (Nat.leb_spec (sw j imax r) c); [lia|]. destruct (Nat.leb_spec r c); [lia|]. reflexivity.
  - intros r c Hr Hc. rewrite O4 by lia. rewrite I2 by (auto; lia). rewrite PM. reflexivity.
  - intros c Hc. destruct (Nat.eq_dec c j) as [->|N]; [rewrite U4 by auto; auto|]. rewrite O4 by lia. rewrite SL by lia. apply I3. lia.
  - intros r Hr. destruct (negb (j =? imax)%nat); auto. unfold set1. destruct (r =? imax)%nat; auto.
  - intros i Hi. unfold ix, set1. destruct (Nat.eqb_spec i j) as [->|N]; [lia|]. apply I5. lia.
Qed.
Lemma row_big_ge0 (a : mat) i m : 0 <= fold_left (fun big j => if ltR big (Rabs (a i j)) then Rabs (a i j) else big) (seq 0 m) 0 /\ (fold_left (fun big j => if ltR big (Rabs (a i j)) then Rabs (a i j) else big) (seq 0 m) 0 = 0 -> forall j, (j < m)%nat -> a i j = 0).
Proof using.
  clear HI. induction m; [split; [simpl; lra|intros; lia]|]. rewrite seq_S, fold_left_app. cbn [fold_left Nat.add]. destruct IHm as [P Q]. set (b := fold_left _ _ _) in *.
  destruct (ltR b (Rabs (a i m))) eqn:E; [apply ltR_true in E|apply ltR_false in E].
  - split; [lra|intros; lra].
  - split; auto. intros Z j Hj. destruct (Nat.eq_dec j m) as [->|N]; [|apply Q; auto; lia]. pose proof (Rabs_pos (a i m)). destruct (Req_EM_T (a i m) 0) as [|N]; auto. apply Rabs_pos_lt in N. lra.
Qed.
Lemma decomposed indx0 : exists s, Ludcmp_nr n A indx0 = Some s /\ inv n s.
Proof using HI.
  unfold Ludcmp_nr, scaling. assert (P : forall i, (i < n)%nat -> 0 < row_big n A i).
  { intros i Hi. destruct (row_big_ge0 A i n) as [[P|P] Q]; auto. exfalso. symmetry in P. specialize (Q P). assert (Z : product n A B i i = 1) by (rewrite (proj1 (HI i i Hi Hi)); unfold one; rewrite Nat.eqb_refl; auto).
    unfold product in Z. rewrite total_zero in Z; [lra|]. intros k Hk. rewrite Q by auto. ring. }
  destruct (existsb (fun i => isZ (row_big n A i)) (seq 0 n)) eqn:E.
  - apply existsb_exists in E. destruct E as [i [Hi Z]]. apply in_seq in Hi. specialize (P i ltac:(lia)). unfold isZ in Z. destruct (Req_EM_T (row_big n A i) 0); [lra|discriminate].
  - eexists. split; [reflexivity|]. assert (G : forall m, (m <= n)%nat -> inv m (fold_left (column n) (seq 0 m) (mkLU A indx0 (fun i => 1 / row_big n A i) 1 0))).
    { induction m; intros M. - simpl. split; cbn [la indx scale]; intros; try lia; auto. + apply Rdiv_lt_0_compat; [lra|auto]. + intros i Hi. lia. - rewrite seq_S, fold_left_app. apply column_inv; [lia|]. apply IHm. lia. }
    apply G. auto.
Qed.

(** ** Substitutions *)
Lemma forward s b0 m : inv n s -> (m <= n)%nat -> let '(b, ii) := fold_left (forward_step (la s) (indx s)) (seq 0 m) (b0, None) in
  (forall r, (m <= r < n)%nat -> b r = b0 (pm (indx s) m r)) /\ (forall r, (r < m)%nat -> b r + total r (fun k => la s r k * b k) = b0 (pm (indx s) m r)) /\
  match ii with None => forall r, (r < m)%nat -> b r = 0 | Some l => (l < m)%nat /\ forall r, (r < l)%nat -> b r = 0 end.
Proof using.
  clear HI. intros I. induction m; intros M. - simpl. repeat split; intros; auto; lia.
  - specialize (IHm ltac:(lia)). rewrite seq_S, fold_left_app. cbn [fold_left Nat.add]. destruct (fold_left _ (seq 0 m) _) as [b ii]. destruct IHm as [F1 [F2 F3]]. unfold forward_step.
    set (a := la s) in *. set (ix := indx s) in *. pose proof (i_ix _ _ I) as G. fold ix in G. assert (Gm : (m <= ix m < n)%nat) by (apply G; lia). assert (Gs : good_ix n ix (S m)) by (intros i Hi; apply G; lia).
    set (b1 := set1 b (ix m) (b m)).
    assert (L1 : forall k, (k < m)%nat -> b1 k = b k) by (intros; apply set1_other; lia).
    assert (E : b (ix m) = b0 (pm ix (S m) m)). { rewrite F1 by lia. simpl. unfold sw. rewrite Nat.eqb_refl. reflexivity. }
    assert (Hi : forall v r, (S m <= r < n)%nat -> set1 b1 m v r = b0 (pm ix (S m) r)).
    { intros v r Hr. rewrite set1_other by lia. simpl. unfold b1. destruct (Nat.eq_dec r (ix m)) as [->|N].
      - rewrite set1_same, F1 by lia. f_equal. f_equal. unfold sw. destruct (Nat.eqb_spec (ix m) m); [lia|]. rewrite Nat.eqb_refl. reflexivity.
      - rewrite set1_other, F1 by (auto; lia). f_equal. f_equal. unfold sw. destruct (Nat.eqb_spec r m); [lia|]. destruct (Nat.eqb_spec r (ix m)); [lia|]. reflexivity. }
    assert (Lo : forall v, v + total m (fun k => a m k * b k) = b0 (pm ix (S m) m) -> forall r, (r < S m)%nat -> set1 b1 m v r + total r (fun k => a r k * set1 b1 m v k) = b0 (pm ix (S m) r)).
    { intros v V r Hr. destruct (Nat.eq_dec r m) as [->|N].
      - rewrite set1_same. rewrite <- V. f_equal. apply total_ext. intros k Hk. rewrite set1_other, L1 by lia. reflexivity.
      - rewrite set1_other, L1 by lia. rewrite (pm_stable ix n) by (auto; lia). rewrite <- F2 by lia. f_equal. apply total_ext. intros k Hk. rewrite set1_other, L1 by lia. reflexivity. }
    destruct ii as [l|].
    + destruct F3 as [Fl Fz]. split; [|split].
      * apply Hi.
      * apply Lo. rewrite (fold_minus (fun j => a m j * b1 j)). replace (l + (m - l))%nat with m by lia. rewrite (total_zero l) by (intros k Hk; rewrite L1, Fz by lia; ring).
        rewrite (total_ext m (fun j => a m j * b1 j) (fun k => a m k * b k)) by (intros k Hk; rewrite L1 by lia; reflexivity). rewrite E. ring.
      * split; [lia|]. intros r Hr. rewrite set1_other, L1 by lia. auto.
    + split; [apply Hi|split].
      * apply Lo. rewrite E. rewrite total_zero by (intros k Hk; rewrite F3 by auto; ring). ring.
      * destruct (isZ (b (ix m))) eqn:Z.
        -- unfold isZ in Z. destruct (Req_EM_T (b (ix m)) 0) as [Z0|]; [|discriminate]. intros r Hr. destruct (Nat.eq_dec r m) as [->|N]; [rewrite set1_same; auto|]. rewrite set1_other, L1 by lia. apply F3. lia.
        -- split; [lia|]. intros r Hr. rewrite set1_other, L1 by lia. auto.
Qed.
Lemma backward (a : mat) m : (m <= n)%nat -> (forall c, (c < n)%nat -> a c c <> 0) -> forall b, let x := fold_left (backward_step n a) (rev (seq 0 m)) b in
  (forall r, (m <= r)%nat -> x r = b r) /\ (forall r, (r < m)%nat -> total n (fun c => UU a r c * x c) = b r).
Proof using.
  clear HI. intros M D. induction m; intros b; cbv zeta. - simpl. split; intros; auto; lia.
  - rewrite seq_S. rewrite rev_app_distr. cbn [rev app Nat.add fold_left]. specialize (IHm ltac:(lia)). set (b' := backward_step n a b m). destruct (IHm b') as [B1 B2]. set (x := fold_left _ _ b') in *.
    assert (O : forall r, r <> m -> b' r = b r) by (intros; apply set1_other; auto). split.
    + intros r Hr. rewrite B1, O by lia. reflexivity.
    + intros r Hr. destruct (Nat.eq_dec r m) as [->|N]; [|rewrite B2, O by lia; reflexivity].
      assert (X : x m = (b m - (total n (fun j => a m j * b j) - total (S m) (fun j => a m j * b j))) / a m m).
      { rewrite B1 by auto. unfold b', backward_step. rewrite set1_same. rewrite (fold_minus (fun j => a m j * b j)). replace (S m + (n - S m))%nat with n by lia. reflexivity. }
      transitivity (a m m * x m + (total n (fun j => a m j * b j) - total (S m) (fun j => a m j * b j))); [|rewrite X; field; apply D; lia].
      assert (T : forall N, (S m <= N)%nat -> total N (fun c => UU a m c * x c) = a m m * x m + (total N (fun j => a m j * b j) - total (S m) (fun j => a m j * b j))).
      { induction N as [|N IH]; intros HN; [lia|]. destruct (Nat.eq_dec N m) as [->|E].
        - simpl. rewrite total_zero by (intros c Hc; unfold UU; destruct (Nat.leb_spec m c); [lia|ring]). unfold UU. rewrite Nat.leb_refl. ring.
        - cbn [total] in *. rewrite IH by lia. unfold UU at 1. destruct (Nat.leb_spec m N); [|lia]. rewrite (B1 N), (O N) by lia. ring. }
      apply T. lia.
Qed.
Lemma solved s b0 : inv n s -> forall i, (i < n)%nat -> total n (fun c => A i c * Lubksb_nr n (la s) (indx s) b0 c) = b0 i.
Proof using.
  clear HI. intros I i Hi. unfold Lubksb_nr. pose proof (forward s b0 n I ltac:(lia)) as F. destruct (fold_left (forward_step (la s) (indx s)) (seq 0 n) (b0, None)) as [y ii]. cbn [fst]. destruct F as [_ [F _]].
  destruct (backward (la s) n ltac:(lia)) with (b := y) as [_ X]. { intros c Hc. apply (i_diag _ _ I). auto. } set (x := fold_left _ _ y) in *.
  destruct (pm_onto n (indx s) n ltac:(lia) (i_ix _ _ I) i Hi) as [r [Hr <-]].
  rewrite (total_ext n _ (fun c => total n (fun k => LL (la s) r k * (UU (la s) k c * x c)))).
  2:{ intros c Hc. rewrite (i_done _ _ I) by auto. rewrite <- (LU_form (la s) n r c Hc). rewrite Rmult_comm, <- total_scal. apply total_ext. intros. ring. }
  rewrite total_swap. rewrite (total_ext n _ (fun k => LL (la s) r k * y k)) by (intros k Hk; rewrite total_scal, X by auto; reflexivity).
  rewrite <- F by auto. rewrite (total_split (S r)) by (try lia; (intros k Hk; unfold LL; destruct (Nat.ltb_spec k r); [lia|]; destruct (Nat.eqb_spec k r); [lia|]; ring)).
  simpl. unfold LL at 2. rewrite Nat.ltb_irrefl, Nat.eqb_refl. rewrite Rplus_comm. f_equal; [ring|]. apply total_ext. intros k Hk. unfold LL. destruct (Nat.ltb_spec k r); [reflexivity|lia].
Qed.
End decomposition.
Lemma left_from_right n A B X : inverse n A B -> (forall i j, (i < n)%nat -> (j < n)%nat -> product n A X i j = one i j) -> forall i j, (i < n)%nat -> (j < n)%nat -> X i j = B i j.
Proof.
  intros I H i j Hi Hj. apply Rminus_diag_uniq. apply (no_kernel n A B (fun r => X r j - B r j) I); auto. intros r Hr.
  transitivity (product n A X r j - product n A B r j); [|rewrite H by auto; rewrite (proj1 (I r j Hr Hj)); ring].
  unfold product. rewrite (total_ext n _ (fun c => A r c * X c j + -1 * (A r c * B c j))) by (intros; ring). rewrite total_plus, total_scal. ring.
Qed.
