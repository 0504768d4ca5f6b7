From Coq Require Import Reals ZArith List Bool Lra Lia FunctionalExtensionality Arith.
From Verif Require Import RK_Spec Fv_Model Time_Model Time_Proofs Time_Proofs2 Sts_Model Sts_Spec.
Import ListNotations.
Local Open Scope R_scope.

Lemma isR_true : forall a b, isR a b = true -> a = b.
Proof. intros a b H. unfold isR in H. destruct (Req_EM_T a b); [assumption|discriminate H]. Qed.
Lemma ave0 : forall a1 a2 a3 a4 o a b c e, ave 0 a1 a2 a3 a4 o a b c e = a1 * a + a2 * b + a3 * c + a4 * e.
Proof.
  intros. unfold ave. destruct (isR 0 1) eqn:E0; [apply isR_true in E0; lra|]. replace (isR 0 0) with true by (unfold isR; destruct (Req_EM_T 0 0); [reflexivity|lra]).
  destruct (isR a4 0) eqn:E4; cbn [negb]; [apply isR_true in E4; subst|reflexivity].
  destruct (isR a3 0) eqn:E3; cbn [negb]; [apply isR_true in E3; subst|lra].
  destruct (isR a2 0) eqn:E2; cbn [negb]; [apply isR_true in E2; subst|lra].
  destruct (isR a1 1) eqn:E1; [apply isR_true in E1; subst|]; lra.
Qed.

Lemma nth2_0 : forall A (a0 a1 : A) f, nth2 a0 a1 f 0 = a0. Proof. reflexivity. Qed.
Lemma nth2_1 : forall A (a0 a1 : A) f, nth2 a0 a1 f 1 = a1. Proof. reflexivity. Qed.
Lemma nth2_SS : forall A (a0 a1 : A) f n, nth2 a0 a1 f (S (S n)) = f (S (S n)) (nth2 a0 a1 f (S n)) (nth2 a0 a1 f n).
Proof. intros. unfold nth2. cbn [seq2]. cbn [fst snd]. reflexivity. Qed.
Lemma two_step : forall (P : nat -> Prop), P 0%nat -> P 1%nat -> (forall n, P n -> P (S n) -> P (S (S n))) -> forall n, P n.
Proof. intros P H0 H1 HS. assert (forall n, P n /\ P (S n)) as H by (induction n as [|n [A B]]; auto). intro n. apply H. Qed.

Lemma INR_ge2 : forall n, 2 <= INR (S (S n)).
Proof. intro n. rewrite !S_INR. generalize (pos_INR n). lra. Qed.
Lemma b_pos : forall j, 0 < b_of j.
Proof.
  intro j. unfold b_of. destruct (Nat.leb_spec j 2) as [H|H]; [lra|].
  assert (3 <= INR j) by (apply (le_INR 3) in H; rewrite !S_INR in H; simpl (INR 0) in H; lra).
  apply Rdiv_lt_0_compat; nra.
Qed.
Lemma b_le1 : forall j, b_of j <= 1.
Proof.
  intro j. unfold b_of. destruct (Nat.leb_spec j 2) as [H|H]; [lra|].
  assert (3 <= INR j) by (apply (le_INR 3) in H; rewrite !S_INR in H; simpl (INR 0) in H; lra).
  apply (Rmult_le_reg_r (2 * INR j * (INR j + 1))); [nra|]. unfold Rdiv. rewrite Rmult_assoc, Rinv_l by nra. nra.
Qed.
Lemma b_bfrac : forall j, (3 <= j)%nat -> b_of j = bfrac (INR j).
Proof. intros j H. unfold b_of. destruct (Nat.leb_spec j 2); [lia|]. reflexivity. Qed.
Lemma b2 : b_of 2 = bfrac 2.
Proof. unfold b_of, bfrac. cbn [Nat.leb]. field. Qed.

(** The weights of the code are those of the method. *)
Lemma coef_rkl2 : forall ns j, (2 <= j)%nat ->
  let mu := (2 * INR j - 1) / INR j * b_of j / b_of (j - 1) in
  let nu := - ((INR j - 1) / INR j) * b_of j / b_of (j - 2) in
  StartupTaskList rkl2 ns j = mkC mu nu (mu * w1_of rkl2 ns) (- (1 - b_of (j - 1)) * (mu * w1_of rkl2 ns)).
Proof.
  intros ns j Hj mu nu.
  assert (E : forall bj b1 b2, bj = b_of j -> b1 = b_of (j - 1) -> b2 = b_of (j - 2) ->
    (let mu := (2 * INR j - 1) / INR j * bj / b1 in let nu := -1 * (INR j - 1) / INR j * bj / b2 in
     let mt := mu * 4 / (INR ns * INR ns + INR ns - 2) in mkC mu nu mt (-1 * (1 - b1) * mt)) = mkC mu nu (mu * w1_of rkl2 ns) (- (1 - b_of (j - 1)) * (mu * w1_of rkl2 ns))).
  { intros bj c1 c2 -> -> ->. cbv zeta. unfold mu, nu, w1_of. f_equal; unfold Rdiv; ring. }
  unfold StartupTaskList. cbv zeta.
  destruct (Nat.eqb_spec j 1) as [->|N1]; [lia|]. cbn [Datatypes.orb].
  destruct (Nat.eqb_spec j 2) as [->|N2]; [apply E; reflexivity|].
  destruct (Nat.eqb_spec j 3) as [->|N3]; [apply E; [symmetry; apply b_bfrac; lia|reflexivity|reflexivity]|].
  assert (E1 : bfrac (INR j - 1) = b_of (j - 1)) by (rewrite b_bfrac by lia; f_equal; rewrite minus_INR by lia; reflexivity).
  destruct (Nat.eqb_spec j 4) as [->|N4]; [apply E; [symmetry; apply b_bfrac; lia|exact E1|reflexivity]|].
  apply E; [symmetry; apply b_bfrac; lia|exact E1|].
  rewrite b_bfrac by lia. f_equal. rewrite minus_INR by lia. reflexivity.
Qed.

Section SWEEP.
Variables (I : Type) (sub : I -> bool) (F : (I -> R) -> I -> R) (dt : R) (ns : nat).
Let G := only sub F.

Lemma rkl1_stages : forall (r : regs I) n, let t := stages rkl1 sub ns dt F (S n) r in
  u t = RKL1 G dt ns (u r) (S n) /\ u1 t = RKL1 G dt ns (u r) n.
Proof using.
  intros r. induction n as [|n [IH1 IH2]].
  - cbv zeta. cbn [stages]. unfold Integrate_STS. cbn [u u1 is_rkl2 andb]. split; [|reflexivity].
    unfold RKL1. rewrite nth2_1. apply functional_extensionality. intro x. rewrite ave0. unfold StartupTaskList, G, only, w1_of. cbn [muj nuj muj_tilde gammaj_tilde]. change (INR 1) with 1.
    destruct (sub x); unfold Rdiv; rewrite Rinv_1; ring.
  - cbv zeta in *. set (t := stages rkl1 sub ns dt F (S n) r) in *.
    change (stages rkl1 sub ns dt F (S (S n)) r) with (Integrate_STS rkl1 sub ns (S (S n)) dt (F (u t)) t).
    unfold Integrate_STS. cbn [u u1 is_rkl2 andb]. split; [|exact IH1].
    unfold RKL1. rewrite nth2_SS. fold (RKL1 G dt ns (u r) (S n)). fold (RKL1 G dt ns (u r) n). rewrite <- IH1, <- IH2.
    apply functional_extensionality. intro x. rewrite ave0. unfold StartupTaskList, G, only, w1_of. cbn [muj nuj muj_tilde gammaj_tilde].
    set (j := INR (S (S n))). clearbody j. destruct (sub x); unfold Rdiv; ring.
Qed.
Lemma rkl2_stages : forall (r : regs I) n, allocated sub r -> let t := stages rkl2 sub ns dt F (S n) r in
  u t = RKL2 G (dt / 2) ns (u r) (S n) /\ u1 t = RKL2 G (dt / 2) ns (u r) n /\ u0 t = u r /\ fl_div t = (fun x => dt / 2 * G (u r) x).
Proof using.
  intros r n Hal. induction n as [|n [IH1 [IH2 [IH3 IH4]]]].
  - cbv zeta. cbn [stages]. unfold Integrate_STS. cbn [u u1 u0 fl_div is_rkl2 andb Nat.eqb]. split; [|split; [reflexivity|split; [reflexivity|]]].
    + unfold RKL2. rewrite nth2_1. apply functional_extensionality. intro x. rewrite ave0. unfold StartupTaskList, G, only, w1_of, b_of. cbn [Nat.eqb Nat.leb]. cbv iota beta zeta delta [Datatypes.orb]. cbn [muj nuj muj_tilde gammaj_tilde]. change (INR 1) with 1.
      replace ((2 * 1 - 1) / 1 * (1 / 3) / (1 / 3)) with 1 by field. replace (-1 * (1 - 1) / 1 * (1 / 3) / (1 / 3)) with 0 by field. destruct (sub x); unfold Rdiv; ring.
    + apply functional_extensionality. intro x. unfold G, only. destruct (sub x) eqn:E; cbn [andb]; [lra|]. rewrite (Hal x E). ring.
  - cbv zeta in *. set (t := stages rkl2 sub ns dt F (S n) r) in *.
    change (stages rkl2 sub ns dt F (S (S n)) r) with (Integrate_STS rkl2 sub ns (S (S n)) dt (F (u t)) t).
    unfold Integrate_STS. cbn [u u1 u0 fl_div is_rkl2 andb Nat.eqb]. split; [|split; [exact IH1|split; [exact IH3|]]].
    + unfold RKL2. rewrite nth2_SS. fold (RKL2 G (dt / 2) ns (u r) (S n)). fold (RKL2 G (dt / 2) ns (u r) n). rewrite <- IH1, <- IH2, IH3, IH4.
      apply functional_extensionality. intro x. rewrite ave0. rewrite coef_rkl2 by lia. cbn [muj nuj muj_tilde gammaj_tilde].
      set (mu := (2 * INR (S (S n)) - 1) / INR (S (S n)) * b_of (S (S n)) / b_of (S (S n) - 1)). set (nu := - ((INR (S (S n)) - 1) / INR (S (S n))) * b_of (S (S n)) / b_of (S (S n) - 2)).
      set (bb := b_of (S (S n) - 1)). set (w := w1_of rkl2 ns). clearbody mu nu bb w. unfold G, only. destruct (sub x); unfold Rdiv; ring.
    + rewrite IH4. apply functional_extensionality. intro x. rewrite andb_false_r. reflexivity.
Qed.
End SWEEP.
