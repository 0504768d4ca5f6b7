(** C48: super-time-stepping. *)
From Coq Require Import Reals ZArith List Bool Lra Lia FunctionalExtensionality Arith.
From Verif Require Import RK_Spec Time_Model Time_Proofs2 Sts_Model Sts_Spec Sts_Proofs Sts_Proofs2 Sts_Proofs3.
Import ListNotations.
Local Open Scope R_scope.

(** A sweep is the published RKL1 or RKL2 scheme over the whole (half) step, for every right-hand side, linear or not, every number of stages and every content of the scratch registers. *)
Theorem C48_is_rkl : forall I sc (sub : I -> bool) ns dt F (r : regs I), (1 <= ns)%nat -> allocated sub r ->
  u (sweep sc sub ns dt F r) = RKL sc (only sub F) (step_of sc dt) ns (u r) /\ allocated sub (sweep sc sub ns dt F r).
Proof. intros. split; [apply sweep_is; assumption|apply sweep_allocated; assumption]. Qed.
Print Assumptions C48_is_rkl.

Theorem C48_steady : forall I sc (sub : I -> bool) ns dt F (r : regs I), (1 <= ns)%nat -> allocated sub r -> (forall x, sub x = true -> F (u r) x = 0) ->
  forall x, u (sweep sc sub ns dt F r) x = u r x.
Proof. intros I sc sub ns dt F r Hn Ha HF x. rewrite sweep_is, rkl_steady; trivial. intro y. unfold only. destruct (sub y) eqn:E; [apply HF; exact E|reflexivity]. Qed.
Print Assumptions C48_steady.

Theorem C48_constant : forall I sc (sub : I -> bool) ns dt F (C : I -> R) (r : regs I), (least_stages sc <= ns)%nat -> allocated sub r -> (forall y x, sub x = true -> F y x = C x) ->
  forall x, u (sweep sc sub ns dt F r) x = u r x + (if sub x then step_of sc dt * C x else 0).
Proof.
  intros I sc sub ns dt F C r Hn Ha HF x. rewrite sweep_is; trivial; [|destruct sc; cbn [least_stages] in Hn; lia].
  rewrite (rkl_constant _ _ _ (fun x => if sub x then C x else 0)); trivial; [destruct (sub x); ring|]. intros y z. unfold only. destruct (sub z) eqn:E; [apply HF; exact E|reflexivity].
Qed.
Print Assumptions C48_constant.

(** The number of stages is the least odd number whose super-step strictly covers the requested one; RKL2 never uses fewer than three. *)
Theorem C48_stage_count : forall sc dt dt_parabolic, 0 <= dt -> 0 < dt_parabolic -> let n := nstages sc dt dt_parabolic in
  (1 <= n)%Z /\ (sc = rkl2 -> (3 <= n)%Z) /\ Z.odd n = true /\ step_of sc dt < dt_parabolic * stable_ratio sc n /\
  forall m, (1 <= m)%Z -> Z.odd m = true -> step_of sc dt < dt_parabolic * stable_ratio sc m -> (n <= m)%Z.
Proof. exact nstages_ok. Qed.
Print Assumptions C48_stage_count.

Lemma count_enough : forall sc dt dtp, 0 <= dt -> 0 < dtp -> (1 <= Z.to_nat (nstages sc dt dtp))%nat /\ (least_stages sc <= Z.to_nat (nstages sc dt dtp))%nat.
Proof. intros sc dt dtp H1 H2. destruct (nstages_ok sc dt dtp H1 H2) as [A [B _]]. split; [lia|]. destruct sc; cbn [least_stages]; [lia|]. specialize (B eq_refl). lia. Qed.
(** A whole cycle: with a constant diffusion rate and a main integrator that adds [D], the state moves by exactly dt of diffusion plus [D]; RKL2 does it in two halves. *)
Theorem C48_cycle : forall I sc (sub : I -> bool) dt dt_parabolic F (C D : I -> R) main (r : regs I), 0 <= dt -> 0 < dt_parabolic -> allocated sub r ->
  (forall y x, sub x = true -> F y x = C x) -> (forall r x, u (main r) x = u r x + D x) -> (forall r, allocated sub r -> allocated sub (main r)) ->
  forall x, u (cycle sc sub dt dt_parabolic F main r) x = u r x + D x + (if sub x then dt * C x else 0).
Proof.
  intros I sc sub dt dtp F C D main r Hdt Hp Ha HF HD HM x. destruct (count_enough sc dt dtp Hdt Hp) as [_ Hn]. unfold cycle. destruct sc; cbn [step_of].
  - rewrite HD, (C48_constant _ _ _ _ _ _ C) by assumption. cbn [step_of]. destruct (sub x); lra.
  - rewrite (C48_constant _ _ _ _ _ _ C); trivial; [|apply HM; apply sweep_allocated; exact Ha]. rewrite HD, (C48_constant _ _ _ _ _ _ C) by assumption. cbn [step_of]. destruct (sub x); lra.
Qed.
Print Assumptions C48_cycle.

(** Whatever total the diffusion conserves, the sweep conserves. *)
Theorem C48_conserved : forall I sc (sub : I -> bool) ns dt F vol (cells : list I) (r : regs I), (1 <= ns)%nat -> allocated sub r ->
  (forall y, total vol cells (only sub F y) = 0) -> total vol cells (u (sweep sc sub ns dt F r)) = total vol cells (u r).
Proof. intros. rewrite sweep_is by assumption. apply rkl_conserved. assumption. Qed.
Print Assumptions C48_conserved.

(** Stability: a superposition of modes that a forward Euler step of dt_parabolic does not amplify is not amplified, mode by mode, by a sweep with the chosen number of stages, however large dt is. *)
Definition superpose {I} (ms : list (R * R * (I -> R))) (f : R -> R) : I -> R := fun x => fold_right (fun m a => f (snd (fst m)) * fst (fst m) * snd m x + a) 0 ms.
Theorem C48_stable : forall I sc (sub : I -> bool) dt dt_parabolic F (r : regs I) (ms : list (R * R * (I -> R))), 0 <= dt -> 0 < dt_parabolic -> allocated sub r -> linear (only sub F) ->
  (forall amp lam e, In (amp, lam, e) ms -> (forall x, only sub F e x = lam * e x) /\ -1 <= 1 + dt_parabolic * lam <= 1) ->
  (forall x, u r x = superpose ms (fun _ => 1) x) ->
  exists g : R -> R, (forall amp lam e, In (amp, lam, e) ms -> -1 <= g lam <= 1) /\
    forall x, u (sweep sc sub (Z.to_nat (nstages sc dt dt_parabolic)) dt F r) x = superpose ms g x.
Proof.
  intros I sc sub dt dtp F r ms Hdt Hp Ha HL Hm Hu. destruct (count_enough sc dt dtp Hdt Hp) as [Hn _]. rewrite sweep_is by assumption. set (s := Z.to_nat (nstages sc dt dtp)) in *.
  exists (fun lam => growth sc s (step_of sc dt * lam) s). split.
  - intros amp lam e Hi. destruct (Hm amp lam e Hi) as [_ B]. apply growth_bound; [exact Hn|]. apply stable_arg; assumption.
  - replace (u r) with (superpose ms (fun _ => 1)) by (apply functional_extensionality; intro; rewrite Hu; reflexivity). clear Hu.
    induction ms as [|[[amp lam] e] ms IH]; intro x.
    + rewrite rkl_steady; [reflexivity|]. intro y. change (superpose [] (fun _ => 1)) with (fun _ : I => 0). replace (fun _ : I => 0) with (fun y : I => 0 * 0 + 0 * 0) by (apply functional_extensionality; intro; ring).
      rewrite (HL 0 0 (fun _ => 0) (fun _ => 0)). ring.
    + replace (superpose ((amp, lam, e) :: ms) (fun _ => 1)) with (fun x => amp * e x + 1 * superpose ms (fun _ => 1) x) by (apply functional_extensionality; intro; unfold superpose; cbn [fold_right fst snd]; ring).
      rewrite (rkl_linear _ _ _ _ _ HL). rewrite IH by (intros; apply (Hm amp0 lam0 e0); right; assumption). destruct (Hm amp lam e (or_introl eq_refl)) as [E _]. rewrite (rkl_mode _ _ _ _ _ _ lam HL E).
      unfold superpose. cbn [fold_right fst snd]. ring.
Qed.
Print Assumptions C48_stable.

(** Accuracy: on linear right-hand sides one sweep is a polynomial of the operator that agrees with the exponential through first (RKL1) or second (RKL2) order; the coefficients depend on the number of
    stages only. *)
Theorem C48_order : forall sc ns, (least_stages sc <= ns)%nat -> exists c : nat -> R, (forall k, (k <= sts_order sc)%nat -> c k = / INR (fact k)) /\
  forall I (sub : I -> bool) F (r : regs I), linear (only sub F) -> allocated sub r -> forall dt x,
    u (sweep sc sub ns dt F r) x = sum_f_R0 (fun k => c k * step_of sc dt ^ k * iterate (only sub F) k (u r) x) ns.
Proof.
  intros sc ns Hn. destruct (rkl_order sc ns Hn) as [c [C1 C2]]. exists c. split; [exact C1|]. intros I sub F r HL Ha dt x. rewrite sweep_is; trivial; [apply C2; exact HL|destruct sc; cbn [least_stages] in Hn; lia].
Qed.
Print Assumptions C48_order.

(** ** The hypotheses are met: diffusion between two cells, with a third entry (the density, say) that is not diffused. *)
Definition ex_sub (x : nat) : bool := Nat.ltb x 2.
Definition ex_F (y : nat -> R) (x : nat) : R := match x with 0%nat => y 1%nat - y 0%nat | 1%nat => y 0%nat - y 1%nat | _ => 7 end.
Definition ex_r : regs nat := mkR (fun x => match x with 0%nat => 3 | 1%nat => -3 | _ => 0 end) (fun _ => 11) (fun _ => 12) (fun _ => 13) (fun x => if ex_sub x then 14 else 0).
Example ex_allocated : allocated ex_sub ex_r.
Proof. intros x H. cbn [ex_r fl_div]. rewrite H. reflexivity. Qed.
Example ex_linear : linear (only ex_sub ex_F).
Proof. intros a b f g x. unfold only, ex_sub, ex_F. destruct x as [|[|x]]; cbn [Nat.ltb Nat.leb]; ring. Qed.
Example ex_conserved : forall y, total (fun _ => 1) [0; 1; 2]%nat (only ex_sub ex_F y) = 0.
Proof. intro y. cbn [total fold_right]. unfold only, ex_sub, ex_F. cbn [Nat.ltb Nat.leb]. ring. Qed.
Example ex_modes : (forall x, u ex_r x = superpose [(3, -2, fun x => match x with 0%nat => 1 | 1%nat => -1 | _ => 0 end)] (fun _ => 1) x) /\
  (forall x, only ex_sub ex_F (fun x => match x with 0%nat => 1 | 1%nat => -1 | _ => 0 end) x = -2 * match x with 0%nat => 1 | 1%nat => -1 | _ => 0 end) /\ -1 <= 1 + 1 * -2 <= 1.
Proof.
  split; [|split; [|lra]]; intro x.
  - unfold superpose. cbn [fold_right fst snd ex_r u]. destruct x as [|[|x]]; ring.
  - unfold only, ex_sub, ex_F. destruct x as [|[|x]]; cbn [Nat.ltb Nat.leb]; ring.
Qed.
Lemma sqrt_is : forall a b, 0 <= a -> b = a * a -> sqrt b = a. Proof. intros a b H ->. apply sqrt_square. exact H. Qed.
Example ex_count1 : nstages rkl1 1 1 = 3%Z.
Proof. unfold nstages. rewrite (sqrt_is 3) by lra. rewrite (trunc_pos _ 1) by (try lia; lra). reflexivity. Qed.
Example ex_count2 : nstages rkl2 100 1 = 15%Z.
Proof.
  unfold nstages. set (q := sqrt (9 + 16 * (1 / 2 * 100) / 1)). assert (H : 28 <= q < 29).
  { unfold q. split; [rewrite <- (sqrt_is 28 784) by lra; apply sqrt_le_1; lra|]. rewrite <- (sqrt_is 29 841) by lra; apply sqrt_lt_1; lra. }
  rewrite (trunc_pos _ 13) by (try lia; lra). reflexivity.
Qed.
(** and the result is what the scheme should give: three stages of RKL1 over a step three times the explicit limit leave 3 * P_3(0) = 0 of this mode. *)
Example ex_damped : u (sweep rkl1 ex_sub 3 3 ex_F ex_r) 0%nat = 0.
Proof.
  rewrite sweep_is by (try lia; exact ex_allocated). cbn [RKL step_of]. unfold RKL1, nth2. cbn [seq2 fst snd]. unfold only, ex_F, w1_of. cbn [ex_sub Nat.ltb Nat.leb ex_r u].
  change (INR 2) with 2. replace (INR 3) with 3 by (simpl; lra). field.
Qed.
