(** The two projections as a whole. *)
From Coq Require Import Reals ZArith Bool PeanoNat Lia Lra Psatz.
From Verif Require Import Time_Model Rec_Model Char_Model Char_Spec Char_Proofs Char_Proofs2.
Local Open Scope R_scope.

Notation Left := LeftEigenmatrixDotVector.
Notation Right := RightEigenmatrixDotVector.

Lemma size_nwave : forall mhd adi, size mhd adi = NWAVE mhd adi.
Proof. intros [|] [|]; reflexivity. Qed.
Lemma axes_y : forall x y z, axes x y z -> ivy_of x = y /\ ivz_of x = z.
Proof. intros x y z []; split; reflexivity. Qed.
Lemma axes_all : forall x y z n, axes x y z -> (n < 4)%nat -> n = 0%nat \/ n = x \/ n = y \/ n = z.
Proof. intros x y z n [] H; lia. Qed.

(** Reading the seven, six, five or four components after the writes. *)
Lemma right_ma : forall g x y z b1 w c, axes x y z -> 
  let cf := cf_of true g b1 w in let cs := cs_of true g b1 w in let alpha_f := alpha_f_of true g b1 w in let alpha_s := alpha_s_of true g b1 w in
  let bet2 := bet2_of true right_d2 w in let bet3 := bet3_of true w in let sqrtd := sqrt (w IDN) in let asq := asq_of true g w in let a := a_of true g w in let s := SIGN b1 in
  let qf := cf * alpha_f * s in let qs := cs * alpha_s * s in let af := a * alpha_f * sqrtd in let as_ := a * alpha_s * sqrtd in
  let V := Right true true g x b1 w c in
  V 0%nat = w IDN * (alpha_f * (c 0%nat + c 6%nat) + alpha_s * (c 2%nat + c 4%nat)) + c 3%nat /\
  V x = cf * alpha_f * (c 6%nat - c 0%nat) + cs * alpha_s * (c 4%nat - c 2%nat) /\
  V y = bet2 * (qs * (c 0%nat - c 6%nat) + qf * (c 4%nat - c 2%nat)) + bet3 * (c 5%nat - c 1%nat) /\
  V z = bet3 * (qs * (c 0%nat - c 6%nat) + qf * (c 4%nat - c 2%nat)) + bet2 * (c 1%nat - c 5%nat) /\
  V 4%nat = w IDN * asq * (alpha_f * (c 0%nat + c 6%nat) + alpha_s * (c 2%nat + c 4%nat)) /\
  V 5%nat = bet2 * (as_ * (c 0%nat + c 6%nat) - af * (c 2%nat + c 4%nat)) - bet3 * s * sqrtd * (c 5%nat + c 1%nat) /\
  V 6%nat = bet3 * (as_ * (c 0%nat + c 6%nat) - af * (c 2%nat + c 4%nat)) + bet2 * s * sqrtd * (c 5%nat + c 1%nat).
Proof. intros g x y z b1 w c []; repeat split; reflexivity. Qed.
Lemma right_mi : forall g x y z b1 w c, axes x y z -> 
  let cf := cf_of false g b1 w in let cs := cs_of false g b1 w in let alpha_f := alpha_f_of false g b1 w in let alpha_s := alpha_s_of false g b1 w in
  let bet2 := bet2_of false right_d2 w in let bet3 := bet3_of false w in let sqrtd := sqrt (w IDN) in let a := g in let s := SIGN b1 in
  let qf := cf * alpha_f * s in let qs := cs * alpha_s * s in let af := a * alpha_f * sqrtd in let as_ := a * alpha_s * sqrtd in
  let V := Right true false g x b1 w c in
  V 0%nat = w IDN * (alpha_f * (c 0%nat + c 5%nat) + alpha_s * (c 2%nat + c 3%nat)) /\
  V x = cf * alpha_f * (c 5%nat - c 0%nat) + cs * alpha_s * (c 3%nat - c 2%nat) /\
  V y = bet2 * (qs * (c 0%nat - c 5%nat) + qf * (c 3%nat - c 2%nat)) + bet3 * (c 4%nat - c 1%nat) /\
  V z = bet3 * (qs * (c 0%nat - c 5%nat) + qf * (c 3%nat - c 2%nat)) + bet2 * (c 1%nat - c 4%nat) /\
  V 4%nat = bet2 * (as_ * (c 0%nat + c 5%nat) - af * (c 2%nat + c 3%nat)) - bet3 * s * sqrtd * (c 4%nat + c 1%nat) /\
  V 5%nat = bet3 * (as_ * (c 0%nat + c 5%nat) - af * (c 2%nat + c 3%nat)) + bet2 * s * sqrtd * (c 4%nat + c 1%nat).
Proof. intros g x y z b1 w c []; repeat split; reflexivity. Qed.
Lemma left_ma_eq : forall g x y z b1 w v n, axes x y z -> (n < 7)%nat ->
  Left true true g x b1 w v n = left_ma (1 / w IDN) (sqrt (w IDN)) (asq_of true g w) (a_of true g w) (cf_of true g b1 w) (cs_of true g b1 w) (alpha_f_of true g b1 w) (alpha_s_of true g b1 w) (bet2_of true left_d2 w) (bet3_of true w) (SIGN b1)
    (v 0%nat) (v x) (v y) (v z) (v 4%nat) (v 5%nat) (v 6%nat) n.
Proof. intros g x y z b1 w v n A N. destruct (axes_y x y z A) as [Y Z]. unfold LeftEigenmatrixDotVector. rewrite Y, Z. replace (Nat.ltb n (NWAVE true true)) with true by (symmetry; apply Nat.ltb_lt; exact N). reflexivity. Qed.
Lemma left_mi_eq : forall g x y z b1 w v n, axes x y z -> (n < 6)%nat ->
  Left true false g x b1 w v n = left_mi (1 / w IDN) (sqrt (w IDN)) g (cf_of false g b1 w) (cs_of false g b1 w) (alpha_f_of false g b1 w) (alpha_s_of false g b1 w) (bet2_of false left_d2 w) (bet3_of false w) (SIGN b1)
    (v 0%nat) (v x) (v y) (v z) (v 4%nat) (v 5%nat) n.
Proof. intros g x y z b1 w v n A N. destruct (axes_y x y z A) as [Y Z]. unfold LeftEigenmatrixDotVector. rewrite Y, Z. replace (Nat.ltb n (NWAVE true false)) with true by (symmetry; apply Nat.ltb_lt; exact N). reflexivity. Qed.

Lemma dens : forall w, 0 < w IDN -> w IDN = sqrt (w IDN) * sqrt (w IDN).
Proof. intros w H. symmetry. apply sq_sqrt. lra. Qed.
Lemma bt_ne : forall adi w, w (pos_b adi) <> 0 \/ w (S (pos_b adi)) <> 0 -> sqrt (btsq_of adi w) <> 0.
Proof. intros adi w H E. destruct (proj1 (bt0 adi w) E) as [A B]. destruct H as [H|H]; [exact (H A)|exact (H B)]. Qed.
Lemma left_unit : forall adi w, bet2_of adi left_d2 w * bet2_of adi left_d2 w + bet3_of adi w * bet3_of adi w = 1.
Proof. intros adi w. apply bet_unit. left. unfold left_d2. ring. Qed.

Lemma RL_ma : forall g x y z b1 w v n, axes x y z -> physical true g w -> w 5%nat <> 0 \/ w 6%nat <> 0 -> (n < 7)%nat -> Right true true g x b1 w (Left true true g x b1 w v) n = v n.
Proof.
  intros g x y z b1 w v n A P T N. pose proof (bt_ne true w T) as B. pose proof (right_ma g x y z b1 w (Left true true g x b1 w v) A) as C. cbv zeta in C.
  rewrite !(left_ma_eq g x y z b1 w v) in C by (assumption || lia). rewrite (bet_right true w B), (asq_a true g w P) in C. 
  assert (C' := ma_RL _ _ _ _ _ _ _ _ _ _ _ (bet2_of true left_d2 w) (bet3_of true w) (v 0%nat) (v x) (v y) (v z) (v 4%nat) (v 5%nat) (v 6%nat) (waves_model true g b1 w P) (left_unit true w)). cbv zeta in C'.
  rewrite <- (dens w (proj1 P)) in C'. destruct C as (C0 & Cx & Cy & Cz & C4 & C5 & C6). destruct C' as (D0 & Dx & Dy & Dz & D4 & D5 & D6).
  destruct (Nat.lt_ge_cases n 4) as [H|H].
  - destruct (axes_all x y z n A H) as [->|[->|[->| ->]]]; [rewrite C0; exact D0|rewrite Cx; exact Dx|rewrite Cy; exact Dy|rewrite Cz; exact Dz].
  - assert (E : n = 4%nat \/ n = 5%nat \/ n = 6%nat) by lia. destruct E as [->|[->| ->]]; [rewrite C4; exact D4|rewrite C5; exact D5|rewrite C6; exact D6].
Qed.
Lemma LR_ma : forall g x y z b1 w c n, axes x y z -> physical true g w -> w 5%nat <> 0 \/ w 6%nat <> 0 -> (n < 7)%nat -> Left true true g x b1 w (Right true true g x b1 w c) n = c n.
Proof.
  intros g x y z b1 w c n A P T N. pose proof (bt_ne true w T) as B. rewrite (left_ma_eq g x y z) by assumption. destruct (right_ma g x y z b1 w c A) as (C0 & Cx & Cy & Cz & C4 & C5 & C6). cbv zeta in C0, Cx, Cy, Cz, C4, C5, C6. rewrite C0, Cx, Cy, Cz, C4, C5, C6. 
  rewrite (bet_right true w B), (asq_a true g w P).
  assert (C' := ma_LR _ _ _ _ _ _ _ _ _ _ _ (bet2_of true left_d2 w) (bet3_of true w) (c 0%nat) (c 1%nat) (c 2%nat) (c 3%nat) (c 4%nat) (c 5%nat) (c 6%nat) (waves_model true g b1 w P) (left_unit true w)). cbv zeta in C'.
  rewrite <- (dens w (proj1 P)) in C'. destruct C' as (D0 & D1 & D2 & D3 & D4 & D5 & D6).
  destruct n as [|[|[|[|[|[|[|n]]]]]]]; try assumption. lia.
Qed.

Lemma phys_mi : forall g w, physical false g w -> 0 < sqrt (w IDN) /\ 0 < g.
Proof. intros g w (D & G & _). split; [apply sqrt_lt_R0; exact D|exact G]. Qed.
Lemma mi_rows : forall g x y z b1 w v, axes x y z -> physical false g w ->
  let A := left_ma (1 / w IDN) (sqrt (w IDN)) (g * g) g (cf_of false g b1 w) (cs_of false g b1 w) (alpha_f_of false g b1 w) (alpha_s_of false g b1 w) (bet2_of false left_d2 w) (bet3_of false w) (SIGN b1)
    (v 0%nat) (v x) (v y) (v z) (g * g * v 0%nat) (v 4%nat) (v 5%nat) in
  let I := Left true false g x b1 w v in
  I 0%nat = A 0%nat /\ I 1%nat = A 1%nat /\ I 2%nat = A 2%nat /\ I 3%nat = A 4%nat /\ I 4%nat = A 5%nat /\ I 5%nat = A 6%nat /\ A 3%nat = 0.
Proof.
  intros g x y z b1 w v A P Am I. destruct (phys_mi g w P) as [D G]. unfold I. rewrite !(left_mi_eq g x y z) by (assumption || lia).
  pose proof (mi_ma (sqrt (w IDN)) g (cf_of false g b1 w) (cs_of false g b1 w) (alpha_f_of false g b1 w) (alpha_s_of false g b1 w) (bet2_of false left_d2 w) (bet3_of false w) (SIGN b1) (v 0%nat) (v x) (v y) (v z) (v 4%nat) (v 5%nat) D G) as M.
  cbv zeta in M. rewrite <- (dens w (proj1 P)) in M. exact M.
Qed.
Lemma RL_mi : forall g x y z b1 w v n, axes x y z -> physical false g w -> w 4%nat <> 0 \/ w 5%nat <> 0 -> (n < 6)%nat -> Right true false g x b1 w (Left true false g x b1 w v) n = v n.
Proof.
  intros g x y z b1 w v n A P T N. pose proof (bt_ne false w T) as B. pose proof (right_mi g x y z b1 w (Left true false g x b1 w v) A) as C. cbv zeta in C.
  destruct (mi_rows g x y z b1 w v A P) as (R0 & R1 & R2 & R3 & R4 & R5 & R6). cbv zeta in R0, R1, R2, R3, R4, R5, R6. rewrite (bet_right false w B), R0, R1, R2, R3, R4, R5 in C.
  assert (C' := ma_RL _ _ _ _ _ _ _ _ _ _ _ (bet2_of false left_d2 w) (bet3_of false w) (v 0%nat) (v x) (v y) (v z) (g * g * v 0%nat) (v 4%nat) (v 5%nat) (waves_model false g b1 w P) (left_unit false w)). cbv zeta in C'.
  rewrite <- (dens w (proj1 P)) in C'. unfold a_of in C'. rewrite R6, Rplus_0_r in C'. destruct C as (C0 & Cx & Cy & Cz & C4 & C5). destruct C' as (D0 & Dx & Dy & Dz & _ & D5 & D6).
  destruct (Nat.lt_ge_cases n 4) as [H|H].
  - destruct (axes_all x y z n A H) as [->|[->|[->| ->]]]; [rewrite C0; exact D0|rewrite Cx; exact Dx|rewrite Cy; exact Dy|rewrite Cz; exact Dz].
  - assert (E : n = 4%nat \/ n = 5%nat) by lia. destruct E as [->| ->]; [rewrite C4; exact D5|rewrite C5; exact D6].
Qed.
Lemma LR_mi : forall g x y z b1 w c n, axes x y z -> physical false g w -> w 4%nat <> 0 \/ w 5%nat <> 0 -> (n < 6)%nat -> Left true false g x b1 w (Right true false g x b1 w c) n = c n.
Proof.
  intros g x y z b1 w c n A P T N. pose proof (bt_ne false w T) as B. 
  destruct (mi_rows g x y z b1 w (Right true false g x b1 w c) A P) as (R0 & R1 & R2 & R3 & R4 & R5 & _).
  destruct (right_mi g x y z b1 w c A) as (C0 & Cx & Cy & Cz & C4 & C5). cbv zeta in C0, Cx, Cy, Cz, C4, C5. rewrite (bet_right false w B) in *. rewrite C0, Cx, Cy, Cz, C4, C5 in *.
  assert (C' := ma_LR _ _ _ _ _ _ _ _ _ _ _ (bet2_of false left_d2 w) (bet3_of false w) (c 0%nat) (c 1%nat) (c 2%nat) 0 (c 3%nat) (c 4%nat) (c 5%nat) (waves_model false g b1 w P) (left_unit false w)). cbv zeta in C'.
  rewrite <- (dens w (proj1 P)) in C'. unfold a_of in C'. rewrite Rplus_0_r in C'.
  replace (w IDN * (g * g) * (alpha_f_of false g b1 w * (c 0%nat + c 5%nat) + alpha_s_of false g b1 w * (c 2%nat + c 3%nat))) with (g * g * (w IDN * (alpha_f_of false g b1 w * (c 0%nat + c 5%nat) + alpha_s_of false g b1 w * (c 2%nat + c 3%nat)))) in C' by ring.
  destruct C' as (D0 & D1 & D2 & _ & D4 & D5 & D6).
  destruct n as [|[|[|[|[|[|n]]]]]]; [rewrite R0; exact D0|rewrite R1; exact D1|rewrite R2; exact D2|rewrite R3; exact D4|rewrite R4; exact D5|rewrite R5; exact D6|lia].
Qed.

(** Without a field. *)
Lemma RL_h : forall adi g x y z b1 w v n, axes x y z -> physical adi g w -> (n < NHYDRO adi)%nat -> Right false adi g x b1 w (Left false adi g x b1 w v) n = v n.
Proof.
  intros adi g x y z b1 w v n A (D & G & P) N. destruct adi.
  - specialize (P eq_refl). unfold pos_p in P. assert (Q : 0 < g * w 4%nat / w 0%nat) by (apply Rdiv_lt_0_compat; [apply Rmult_lt_0_compat; assumption|assumption]). pose proof (sqrt_lt_R0 _ Q) as S. pose proof (sq_sqrt _ (Rlt_le _ _ Q)) as SS.
    unfold RightEigenmatrixDotVector, LeftEigenmatrixDotVector, left_ha, upd, IDN, IPR, NWAVE, NHYDRO. destruct A; destruct n as [|[|[|[|[|n]]]]]; try (exfalso; cbn in N; lia); cbn [Nat.eqb Nat.ltb Nat.leb ivy_of ivz_of IVX Nat.modulo Nat.divmod fst snd Nat.sub Nat.add]; 
    set (q := g * w 4%nat / w 0%nat) in *; set (a := sqrt q) in *; rewrite <- ?SS; field; repeat split; lra.
  - unfold RightEigenmatrixDotVector, LeftEigenmatrixDotVector, left_hi, upd, IDN, IPR, NWAVE, NHYDRO. destruct A; destruct n as [|[|[|[|n]]]]; try (exfalso; cbn in N; lia); cbn [Nat.eqb Nat.ltb Nat.leb ivy_of ivz_of IVX Nat.modulo Nat.divmod fst snd Nat.sub Nat.add]; field; repeat split; lra.
Qed.
Lemma LR_h : forall adi g x y z b1 w v n, axes x y z -> physical adi g w -> (n < NHYDRO adi)%nat -> Left false adi g x b1 w (Right false adi g x b1 w v) n = v n.
Proof.
  intros adi g x y z b1 w v n A (D & G & P) N. destruct adi.
  - specialize (P eq_refl). unfold pos_p in P. assert (Q : 0 < g * w 4%nat / w 0%nat) by (apply Rdiv_lt_0_compat; [apply Rmult_lt_0_compat; assumption|assumption]). pose proof (sqrt_lt_R0 _ Q) as S. pose proof (sq_sqrt _ (Rlt_le _ _ Q)) as SS.
    unfold RightEigenmatrixDotVector, LeftEigenmatrixDotVector, left_ha, upd, IDN, IPR, NWAVE, NHYDRO. destruct A; destruct n as [|[|[|[|[|n]]]]]; try (exfalso; cbn in N; lia); cbn [Nat.eqb Nat.ltb Nat.leb ivy_of ivz_of IVX Nat.modulo Nat.divmod fst snd Nat.sub Nat.add]; 
    set (q := g * w 4%nat / w 0%nat) in *; set (a := sqrt q) in *; rewrite <- ?SS; field; repeat split; lra.
  - unfold RightEigenmatrixDotVector, LeftEigenmatrixDotVector, left_hi, upd, IDN, IPR, NWAVE, NHYDRO. destruct A; destruct n as [|[|[|[|n]]]]; try (exfalso; cbn in N; lia); cbn [Nat.eqb Nat.ltb Nat.leb ivy_of ivz_of IVX Nat.modulo Nat.divmod fst snd Nat.sub Nat.add]; field; repeat split; lra.
Qed.

Theorem roundtrip : forall mhd adi g x y z b1 w v n, axes x y z -> physical adi g w -> bent mhd adi w -> (n < size mhd adi)%nat ->
  Right mhd adi g x b1 w (Left mhd adi g x b1 w v) n = v n /\ Left mhd adi g x b1 w (Right mhd adi g x b1 w v) n = v n.
Proof.
  intros mhd adi g x y z b1 w v n A P T N. rewrite size_nwave in N. unfold bent in T. destruct mhd.
  - specialize (T eq_refl). destruct adi; [split; [apply (RL_ma g x y z)|apply (LR_ma g x y z)]|split; [apply (RL_mi g x y z)|apply (LR_mi g x y z)]]; assumption.
  - split; [apply (RL_h adi g x y z)|apply (LR_h adi g x y z)]; assumption.
Qed.
