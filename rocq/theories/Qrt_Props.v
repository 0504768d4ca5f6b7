(** C77: the solver of the temperature equation. *)
From Coq Require Import Reals Bool Lra Lia.
From Verif Require Import Time_Model Time_Proofs Qrt_Model Qrt_Spec Qrt_Proofs.
Local Open Scope R_scope.

(** It returns the solution, and there is only one. *)
Theorem C77_root : forall coef4 tconst, 0 < coef4 -> tconst <= 0 -> 1 / 4 - 64 * tconst ^ 3 * coef4 / 27 <= 10 ^ 20 ->
  exists x, FouthPolyRoot coef4 tconst = Some x /\ solution coef4 tconst x /\ forall y, solution coef4 tconst y -> y = x.
Proof.
  intros c t Hc Ht B. destruct (exact c t Hc Ht) as [x [F S]].
  - apply Rsqr_incr_0_var; [|apply pow_le; lra]. rewrite Rsqr_sqrt by (pose proof (D_ge c t Hc Ht); lra). unfold Rsqr, BIG_NUMBER. replace (10 ^ 10 * 10 ^ 10) with (10 ^ 20) by ring. replace (t * t * t) with (t ^ 3) by ring. lra.
  - exists x. repeat split; try apply S; auto. intros y Y. eapply unique; eauto.
Qed.
Print Assumptions C77_root.
(** Beyond the switch to the asymptotic formula it returns the solution for a constant that is the same to 20 digits. *)
Theorem C77_large : forall coef4 tconst, 0 < coef4 -> tconst <= 0 -> 10 ^ 20 < 1 / 4 - 64 * tconst ^ 3 * coef4 / 27 ->
  exists x tconst', FouthPolyRoot coef4 tconst = Some x /\ solution coef4 tconst' x /\ Rabs (tconst' - tconst) <= / 10 ^ 20 * Rabs tconst.
Proof.
  intros c t Hc Ht B. apply close; auto. apply Rsqr_incrst_0; [|apply pow_le; unfold BIG_NUMBER; lra|apply sqrt_pos].
  rewrite Rsqr_sqrt by (pose proof (D_ge c t Hc Ht); lra). unfold Rsqr, BIG_NUMBER. replace (10 ^ 10 * 10 ^ 10) with (10 ^ 20) by ring. replace (t * t * t) with (t ^ 3) by ring. lra.
Qed.
Print Assumptions C77_large.
(** It reports failure exactly when there is no solution. *)
Theorem C77_failure : forall coef4 tconst, 0 < coef4 -> (FouthPolyRoot coef4 tconst = None <-> ~ exists x, solution coef4 tconst x).
Proof.
  intros c t Hc. destruct (Rlt_or_le 0 t) as [P|N].
  - split; intros _; [|apply none_pos; auto]. intros [x [X1 X2]]. assert (0 <= x ^ 4) by (apply pow_le; auto). nra.
  - split; intros H.
    + exfalso. destruct (Rle_or_lt (1 / 4 - 64 * t ^ 3 * c / 27) (10 ^ 20)) as [B|B]; [destruct (C77_root c t Hc N B) as [x [F _]]|destruct (C77_large c t Hc N B) as [x [t' [F _]]]]; congruence.
    + exfalso. apply H. set (f := fun x => c * x ^ 4 + x + t). assert (Cf : continuity f) by (unfold f; reg).
      assert (A : f 0 <= 0) by (unfold f; simpl; lra). assert (B : 0 <= f (- t)) by (unfold f; assert (0 <= (- t) ^ 4) by (apply pow_le; lra); nra).
      destruct (IVT_cor f 0 (- t) Cf ltac:(lra)) as [z [[Z1 Z2] Z3]]; [nra|]. exists z. split; auto.
Qed.
Print Assumptions C77_failure.
(** x^4 + x - 2 = 0 has the solution 1; the hypotheses of both branches are met. *)
Example C77_witness : FouthPolyRoot 1 (-2) = Some 1 /\ 10 ^ 20 < 1 / 4 - 64 * (- 10 ^ 7) ^ 3 * 1 / 27.
Proof.
  split; [|simpl; lra]. destruct (C77_root 1 (-2) ltac:(lra) ltac:(lra)) as [x [F [_ U]]]; [simpl; lra|]. rewrite F. f_equal. symmetry. apply U. split; [lra|simpl; lra].
Qed.
