(** Stage times, explicit sources and orbital splitting. *)
From Coq Require Import List QArith Qreals Qabs Reals Lra Lia Bool FunctionalExtensionality.
From Verif Require Import RK_Model RK_Spec RK_Proofs.
Import ListNotations.
Local Open Scope R_scope.

Lemma clock_sum : forall i ws t dt, reads_u2_ok i ws -> ws <> [] ->
  clock i ws t dt = Q2R (hd 0%Q (last_of i ws)) * t + Q2R (sumQ (tl (last_of i ws))) * dt.
Proof.
  intros i ws t dt Hu Hn. unfold clock, last_of.
  destruct (sym_stages i 1 ws sym_start) as [rows s'] eqn:E.
  pose proof (step_rk0 unit i ws t dt (fun _ _ => 1) (fun _ _ _ => 0) (fun _ f => f) (fun _ => t) (fun _ => 0) (fun _ => 0) rows s') as H.
  rewrite (rk_constant unit (fun _ => 1) dt _ _ _ _ _ _ (H (fun _ _ _ => eq_refl) (fun _ _ _ _ _ => eq_refl) Hu Hn E)).
  cbn [snd]. ring.
Qed.

Definition prefix_times_ok (i : integrator) (pre : list wght) (q : Q) : bool :=
  match pre with
  | [] => Qeq_bool q 0
  | _ => Qeq_bool (hd 0%Q (last_of i pre)) 1 && Qeq_bool (rsumQ (tl (last_of i pre))) q
  end.

Lemma prefix_clock : forall i pre q t dt, reads_u2_ok i pre -> prefix_times_ok i pre q = true ->
  clock i pre t dt = t + Q2R q * dt.
Proof.
  intros i pre q t dt Hu H. destruct pre as [|w pre].
  - cbn in H. apply Q2R_bool in H. rewrite H, Q2R0. unfold clock, step. cbn. ring.
  - rewrite clock_sum by (try assumption; discriminate). cbn [prefix_times_ok] in H.
    apply andb_true_iff in H. destruct H as [H1 H2]. apply Q2R_bool in H1, H2.
    rewrite H1, (Qeq_eqR _ _ (rsumQ_ok _ _ (eqv_refl _))), H2, Q2R1. ring.
Qed.

Definition low (i : integrator) : Prop := i = vl2 \/ i = rk1 \/ i = rk2 \/ i = rk3.

Fixpoint times_ok (i : integrator) (pre rest : list wght) : bool :=
  match rest with
  | [] => true
  | w :: rest => prefix_times_ok i pre (sbeta w) && prefix_times_ok i (pre ++ [w]) (ebeta w) && times_ok i (pre ++ [w]) rest
  end.
Lemma times_ok_split : forall i rest pre a w b, times_ok i pre rest = true -> rest = a ++ w :: b ->
  prefix_times_ok i (pre ++ a) (sbeta w) = true /\ prefix_times_ok i (pre ++ a ++ [w]) (ebeta w) = true.
Proof.
  intros i rest. induction rest as [|w0 rest IH]; intros pre a w b H E; [destruct a; discriminate|].
  cbn [times_ok] in H. rewrite !andb_true_iff in H. destruct H as [[H1 H2] H3].
  destruct a as [|w1 a]; cbn in E; injection E as -> E.
  - rewrite app_nil_r. cbn. split; assumption.
  - destruct (IH (pre ++ [w1]) a w b H3 E) as [H4 H5]. rewrite <- app_assoc in H4, H5. split; assumption.
Qed.

Lemma stage_times : forall i sh ml ws pre w post t dt, low i -> stage_wghts i NoOrb sh ml = Some ws ->
  ws = pre ++ w :: post ->
  clock i pre t dt = t + Q2R (sbeta w) * dt /\ clock i (pre ++ [w]) t dt = t + Q2R (ebeta w) * dt.
Proof.
  intros i sh ml ws pre w post t dt Hi H E.
  assert (HT : times_ok i [] ws = true /\ (forallb (fun w => implb (main_stage w) (Qeq_bool (gamma_3 w) 0)) ws = true)).
  { destruct Hi as [->|[->|[->| ->]]]; destruct sh, ml; cbn in H; injection H as <-; vm_compute; split; reflexivity. }
  destruct HT as [HT HG]. destruct (times_ok_split i ws [] pre w post HT E) as [H1 H2]. cbn [app] in H1, H2.
  assert (Hu : forall l, incl l ws -> reads_u2_ok i l).
  { intros l Hl. right. split; [destruct Hi as [->|[->|[->| ->]]]; discriminate|]. intros w' Hw Hm.
    rewrite forallb_forall in HG. specialize (HG w' (Hl w' Hw)). rewrite Hm in HG. exact HG. }
  split; apply prefix_clock; try assumption; apply Hu; subst ws; intros z Hz; rewrite in_app_iff in *; cbn in *; tauto.
Qed.

(** rk4 and ssprk5_4: the third stage is given a start time that is off by more than a tenth of a step. *)
Lemma stage_times_bad : forall i sh ml ws, i = rk4 \/ i = ssprk5_4 -> stage_wghts i NoOrb sh ml = Some ws ->
  exists w1 w2 w3 post, ws = w1 :: w2 :: w3 :: post /\
    forall dt, 0 < dt -> dt / 10 < clock i [w1; w2] 0 dt - (0 + Q2R (sbeta w3) * dt).
Proof.
  intros i sh ml ws Hi H.
  assert (Hs : exists w1 w2 w3 post, ws = w1 :: w2 :: w3 :: post /\ reads_u2_ok i [w1; w2] /\
     Qle_bool (1#9) (rsumQ (tl (last_of i [w1; w2])) - sbeta w3) = true).
  { destruct Hi as [->| ->]; destruct sh, ml; cbn [stage_wghts andb orb] in H; try discriminate H; injection H as <-;
    do 4 eexists; (split; [reflexivity|]); (split; [|vm_compute; reflexivity]);
    try (left; reflexivity); right; (split; [discriminate|]); intros w Hw _;
    repeat (destruct Hw as [<-|Hw]; [vm_compute; reflexivity|]); destruct Hw. }
  destruct Hs as (w1 & w2 & w3 & post & -> & Hu & Hq). exists w1, w2, w3, post. split; [reflexivity|].
  intros dt Hdt. rewrite clock_sum by (try assumption; discriminate).
  apply Qle_bool_iff, Qle_Rle in Hq. rewrite Q2R_minus, <- (Qeq_eqR _ _ (rsumQ_ok _ _ (eqv_refl _))) in Hq.
  replace (Q2R (1 # 9)) with (/ 9) in Hq by (unfold Q2R; cbn; lra). nra.
Qed.

(** ** Explicit source terms. *)
Lemma source_as_rhs : forall I i ws stage t dt F (S : (I -> R) -> I -> R) O r, i <> ssprk5_4 ->
  do_stages i stage ws t dt F (fun _ => S) O r
  = do_stages i stage ws t dt (fun f x => F f x + S f x) (fun _ _ _ => 0) O r.
Proof.
  intros I i ws. induction ws as [|w ws IH]; intros stage t dt F S O r Hi; [reflexivity|].
  cbn [do_stages]. rewrite IH by exact Hi. f_equal. unfold do_stage. f_equal.
  set (r1 := Startup i stage r). unfold AddSourceTerms, IntegrateHydro.
  destruct (main_stage w); [|reflexivity].
  destruct i; try congruence; destruct (is_swap w); cbn [u u1 u2]; f_equal; extensionality x; ring.
Qed.

Ltac run_step :=
  unfold step;
  lazy -[WeightedAve Q2R Rplus Rmult Rminus Ropp IZR R1 R0 Rle Rlt Rabs];
  rewrite ?WeightedAve_sum.

(** A constant source of 1 is integrated by ssprk5_4 with weight below 0.94. *)
Lemma ssprk_source : forall sh ml ws t dt, stage_wghts ssprk5_4 NoOrb sh ml = Some ws -> 0 < dt ->
  step ssprk5_4 ws t dt (fun _ _ => 0) (fun _ _ _ => 1) (fun _ f => f) (fun _ : unit => 0) (fun _ => 0) (fun _ => 0) tt
  < 94 / 100 * dt.
Proof.
  intros sh ml ws t dt H Hdt. destruct sh, ml; cbn [stage_wghts andb orb] in H; try discriminate H; injection H as <-;
  run_step; unfold Q2R; cbn [Qnum Qden]; lra.
Qed.

(** ** Orbital advection. *)
(** ssprk5_4 with second order splitting: a state with vanishing right-hand side loses a tenth of its value. *)
Lemma ssprk_orb2 : forall ws t dt v1 v2, stage_wghts ssprk5_4 Orb2 false false = Some ws ->
  step ssprk5_4 ws t dt (fun _ _ => 0) (fun _ _ _ => 0) (fun _ f => f) (fun _ : unit => 1) v1 v2 tt < 9 / 10.
Proof.
  intros ws t dt v1 v2 H.
  pose proof (step_rk0 unit ssprk5_4 ws t dt (fun _ _ => 0) (fun _ _ _ => 0) (fun _ f => f) (fun _ => 1) v1 v2) as HR.
  cbn in H. injection H as <-.
  match goal with |- step _ ?l _ _ _ _ _ _ _ _ _ < _ =>
    assert (E : Qle_bool (hd 0%Q (last_of ssprk5_4 l)) (88#100) = true) by (vm_compute; reflexivity);
    unfold last_of in E; destruct (sym_stages ssprk5_4 1 l sym_start) as [rows s'] eqn:Es end.
  specialize (HR rows s' (fun _ _ _ => eq_refl)).
  assert (HN : forall l, no_orbital l (fun (_ : R) (f : unit -> R) => f)) by (intros l w _ _ tau f; reflexivity).
  specialize (HR (HN _) (or_introl eq_refl)).
  assert (HR' := HR ltac:(discriminate) eq_refl). clear HR.
  rewrite (rk_constant unit (fun _ => 0) dt _ _ _ _ _ _ HR').
  cbn [snd] in E. apply Qle_bool_iff, Qle_Rle in E. replace (Q2R (88#100)) with (88/100) in E by (unfold Q2R; cbn; lra).
  lra.
Qed.

(** A remap that shifts the solution by tau*g: the step shifts it by exactly dt*g. *)
Lemma orbital_total : forall I i o sh ml ws t dt (g v v1 v2 : I -> R), low i -> o <> NoOrb ->
  stage_wghts i o sh ml = Some ws ->
  forall x, step i ws t dt (fun _ _ => 0) (fun _ _ _ => 0) (fun tau f y => f y + tau * g y) v v1 v2 x = v x + dt * g x.
Proof.
  intros I i o sh ml ws t dt g v v1 v2 Hi Ho H x.
  destruct Hi as [->|[->|[->| ->]]]; destruct o, sh, ml; try congruence; cbn in H; injection H as <-;
  run_step; unfold Q2R; cbn [Qnum Qden]; field.
Qed.
(** The same for the integrators with rounded coefficients. *)
Lemma orbital_total_high : forall I i o sh ml ws t dt (g v v1 v2 : I -> R), i = rk4 /\ o <> NoOrb \/ i = ssprk5_4 /\ o = Orb1 ->
  stage_wghts i o sh ml = Some ws ->
  forall x, Rabs (step i ws t dt (fun _ _ => 0) (fun _ _ _ => 0) (fun tau f y => f y + tau * g y) v v1 v2 x - (v x + dt * g x)) <= Q2R (tol i) * (Rabs (v x) + Rabs (dt * g x)).
Proof.
  intros I i o sh ml ws t dt g v v1 v2 Hi H x.
  destruct Hi as [[-> Ho]|[-> ->]]; [destruct o; [congruence| |]|]; destruct sh, ml; cbn [stage_wghts andb orb] in H; try discriminate H; injection H as <-;
  run_step; unfold Q2R; cbn [Qnum Qden tol];
  set (Y := v x); set (Z := g x); pose proof (Rle_abs Y); pose proof (Rle_abs (- Y)); rewrite Rabs_Ropp in *; pose proof (Rle_abs (dt * Z)); pose proof (Rle_abs (- (dt * Z))); rewrite Rabs_Ropp in *; apply Rabs_le; split; lra.
Qed.
(** ssprk5_4 with second order splitting: even with nothing but orbital advection the remaps add up to more than the step. *)
Lemma ssprk_orb2_remap : forall ws t dt v1 v2, stage_wghts ssprk5_4 Orb2 false false = Some ws -> 0 < dt ->
  step ssprk5_4 ws t dt (fun _ _ => 0) (fun _ _ _ => 0) (fun tau f y => f y + tau) (fun _ : unit => 0) v1 v2 tt > 11 / 10 * dt.
Proof.
  intros ws t dt v1 v2 H Hd. cbn [stage_wghts andb orb] in H. injection H as <-. run_step; unfold Q2R; cbn [Qnum Qden]. lra.
Qed.
