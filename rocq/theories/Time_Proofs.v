(** Proofs for the time step. *)
From Coq Require Import Reals List ZArith Bool Lra Lia.
From Verif Require Import Time_Model Time_Spec.
Import ListNotations.
Local Open Scope R_scope.

Lemma ltR_true : forall a b, ltR a b = true <-> a < b. Proof. intros a b. unfold ltR. destruct (Rlt_dec a b); split; intros; try discriminate; auto; contradiction. Qed.
Lemma ltR_false : forall a b, ltR a b = false <-> b <= a.
Proof. intros a b. unfold ltR. destruct (Rlt_dec a b); split; intros; try discriminate; auto; lra. Qed.
Lemma leR_true : forall a b, leR a b = true <-> a <= b. Proof. intros a b. unfold leR. destruct (Rle_dec a b); split; intros; try discriminate; auto; contradiction. Qed.
Lemma leR_false : forall a b, leR a b = false <-> b < a.
Proof. intros a b. unfold leR. destruct (Rle_dec a b); split; intros; try discriminate; auto; lra. Qed.
Lemma eqR_true : forall a b, eqR a b = true <-> a = b. Proof. intros a b. unfold eqR. destruct (Req_EM_T a b); split; intros; try discriminate; auto; contradiction. Qed.
Lemma eqR_false : forall a b, eqR a b = false <-> a <> b. Proof. intros a b. unfold eqR. destruct (Req_EM_T a b); split; intros; try discriminate; auto; contradiction. Qed.

Lemma le_min_list : forall l x y, y <= min_list x l <-> y <= x /\ (forall z, In z l -> y <= z).
Proof.
  induction l as [|a l IH]; intros x y; unfold min_list in *; cbn [fold_left].
  - split; [intros H; split; [exact H|intros z []] | intros [H _]; exact H].
  - rewrite IH. split.
    + intros [H1 H2]. pose proof (Rmin_l x a). pose proof (Rmin_r x a). split; [lra|]. intros z [<-|Hz]; [lra|auto].
    + intros [H1 H2]. split; [apply Rmin_glb; [exact H1|apply H2; left; reflexivity]|]. intros z Hz. apply H2. right. exact Hz.
Qed.
Lemma min_list_le : forall l x, min_list x l <= x. Proof. intros l x. exact (proj1 (proj1 (le_min_list l x (min_list x l)) (Rle_refl _))). Qed.
Lemma min_list_in : forall l x z, In z l -> min_list x l <= z. Proof. intros l x. exact (proj2 (proj1 (le_min_list l x (min_list x l)) (Rle_refl _))). Qed.
Lemma min_list_pos : forall l x, 0 < x -> (forall z, In z l -> 0 < z) -> 0 < min_list x l.
Proof. induction l as [|a l IH]; intros x Hx H; unfold min_list in *; cbn [fold_left]; [exact Hx|]. apply IH; [apply Rmin_glb_lt; [exact Hx|apply H; left; reflexivity]|intros; apply H; right; assumption]. Qed.

Lemma le_min_of : forall l y, l <> [] -> (y <= min_of l <-> forall z, In z l -> y <= z).
Proof.
  intros [|x l] y Hn; [contradiction|]. cbn [min_of]. rewrite le_min_list. split.
  - intros [H1 H2] z [<-|Hz]; auto.
  - intros H. split; [apply H; left; reflexivity|intros; apply H; right; assumption].
Qed.
Lemma min_of_pos : forall l, l <> [] -> (forall z, In z l -> 0 < z) -> 0 < min_of l.
Proof. intros [|x l] Hn H; [contradiction|]. cbn [min_of]. apply min_list_pos; [apply H; left; reflexivity|intros; apply H; right; assumption]. Qed.

Lemma le_rank_dt : forall dt b bs y, y <= rank_dt dt b bs <-> y <= 2 * dt /\ forall x, In x (b :: bs) -> y <= new_dt x.
Proof.
  intros dt b bs y. unfold rank_dt. rewrite le_min_list. split.
  - intros [H1 H2]. pose proof (Rmin_l (2 * dt) (new_dt b)). split; [lra|]. intros x Hx. apply H2. apply in_map. exact Hx.
  - intros [H1 H2]. split; [apply Rmin_glb; [exact H1|apply H2; left; reflexivity]|]. intros z Hz. apply in_map_iff in Hz. destruct Hz as [x [<- Hx]]. auto.
Qed.
Lemma le_rank_par : forall b bs y, y <= rank_par b bs <-> forall x, In x (b :: bs) -> y <= new_par x.
Proof.
  intros b bs y. unfold rank_par. rewrite le_min_list. split.
  - intros [H1 H2] x Hx. apply H2. apply in_map. exact Hx.
  - intros H2. split; [apply H2; left; reflexivity|]. intros z Hz. apply in_map_iff in Hz. destruct Hz as [x [<- Hx]]. auto.
Qed.

Definition dt_all (dt : R) (ranks : list (blockdt * list blockdt)) : R := min_of (map (fun r => rank_dt dt (fst r) (snd r)) ranks).
Definition par_all (ranks : list (blockdt * list blockdt)) : R := min_of (map (fun r => rank_par (fst r) (snd r)) ranks).
Lemma map_ne : forall A B (f : A -> B) l, l <> [] -> map f l <> []. Proof. intros A B f [|a l] H; [contradiction|discriminate]. Qed.
Lemma in_all : forall ranks x, In x (all_blocks ranks) <-> exists r, In r ranks /\ In x (fst r :: snd r). Proof. intros. apply in_flat_map. Qed.
Lemma le_dt_all : forall ranks dt y, ranks <> [] -> (y <= dt_all dt ranks <-> y <= 2 * dt /\ forall x, In x (all_blocks ranks) -> y <= new_dt x).
Proof.
  intros ranks dt y Hn. unfold dt_all. rewrite le_min_of by (apply map_ne; exact Hn). split.
  - intros H. assert (Hr : forall r, In r ranks -> y <= 2 * dt /\ forall x, In x (fst r :: snd r) -> y <= new_dt x).
    { intros r Hr. apply le_rank_dt. apply H. apply (in_map (fun r => rank_dt dt (fst r) (snd r))). exact Hr. }
    split; [destruct ranks as [|r ranks]; [contradiction|apply (Hr r); left; reflexivity]|].
    intros x Hx. apply in_all in Hx. destruct Hx as [r [H1 H2]]. apply (Hr r H1). exact H2.
  - intros [H1 H2] z Hz. apply in_map_iff in Hz. destruct Hz as [r [<- Hr]]. apply le_rank_dt. split; [exact H1|]. intros x Hx. apply H2. apply in_all. exists r. split; assumption.
Qed.
Lemma le_par_all : forall ranks y, ranks <> [] -> (y <= par_all ranks <-> forall x, In x (all_blocks ranks) -> y <= new_par x).
Proof.
  intros ranks y Hn. unfold par_all. rewrite le_min_of by (apply map_ne; exact Hn). split.
  - intros H x Hx. apply in_all in Hx. destruct Hx as [r [H1 H2]]. apply (proj1 (le_rank_par (fst r) (snd r) y)); [|exact H2].
    apply H. apply (in_map (fun r => rank_par (fst r) (snd r))). exact H1.
  - intros H2 z Hz. apply in_map_iff in Hz. destruct Hz as [r [<- Hr]]. apply le_rank_par. intros x Hx. apply H2. apply in_all. exists r. split; assumption.
Qed.
Lemma below_eq : forall a b, (forall y, y <= a <-> y <= b) -> a = b. Proof. intros a b H. pose proof (proj1 (H a)). pose proof (proj2 (H b)). apply Rle_antisym; auto with real. Qed.
Lemma new_unfold : forall sts tlim nlim t dt ranks, NewTimeStep false sts tlim nlim t dt ranks =
  (let d := if ltR t tlim && ltR (tlim - t) (dt_all dt ranks) then tlim - t else dt_all dt ranks in
   match sts with Some ratio => if ltR 0 ratio && ltR ratio (d / par_all ranks) then ratio * par_all ranks else d | None => d end).
Proof. reflexivity. Qed.

Lemma all_pos : forall ranks dt, ranks <> [] -> 0 < dt -> (forall x, In x (all_blocks ranks) -> 0 < new_dt x) -> 0 < dt_all dt ranks.
Proof.
  intros ranks dt Hn Hd H. unfold dt_all. apply min_of_pos; [apply map_ne; exact Hn|]. intros z Hz. apply in_map_iff in Hz. destruct Hz as [r [<- Hr]].
  unfold rank_dt. assert (Hb : forall x, In x (fst r :: snd r) -> 0 < new_dt x) by (intros x Hx; apply H; apply in_all; exists r; split; assumption).
  apply min_list_pos.
  - apply Rmin_glb_lt; [lra|apply Hb; left; reflexivity].
  - intros z Hz. apply in_map_iff in Hz. destruct Hz as [x [<- Hx]]. apply Hb. exact Hx.
Qed.
Lemma par_pos : forall ranks, ranks <> [] -> (forall x, In x (all_blocks ranks) -> 0 < new_par x) -> 0 < par_all ranks.
Proof.
  intros ranks Hn H. unfold par_all. apply min_of_pos; [apply map_ne; exact Hn|]. intros z Hz. apply in_map_iff in Hz. destruct Hz as [r [<- Hr]].
  unfold rank_par. assert (Hb : forall x, In x (fst r :: snd r) -> 0 < new_par x) by (intros x Hx; apply H; apply in_all; exists r; split; assumption).
  apply min_list_pos; [apply Hb; left; reflexivity|]. intros z Hz. apply in_map_iff in Hz. destruct Hz as [x [<- Hx]]. apply Hb. exact Hx.
Qed.

Definition usable (sts : option R) (ranks : list (blockdt * list blockdt)) : Prop :=
  ranks <> [] /\ (forall x, In x (all_blocks ranks) -> 0 < new_dt x) /\ (sts <> None -> forall x, In x (all_blocks ranks) -> 0 < new_par x).

Lemma upper : forall sts tlim nlim t dt ranks, usable sts ranks -> 0 < dt ->
  let d := NewTimeStep false sts tlim nlim t dt ranks in
  0 < d /\ d <= 2 * dt /\ (forall x, In x (all_blocks ranks) -> d <= new_dt x) /\ (t < tlim -> t + d <= tlim).
Proof.
  intros sts tlim nlim t dt ranks [Hn [Hp Hq]] Hd d. unfold d. rewrite new_unfold. cbv zeta.
  pose proof (all_pos ranks dt Hn Hd Hp) as P. destruct (proj1 (le_dt_all ranks dt (dt_all dt ranks) Hn) (Rle_refl _)) as [U1 U2].
  set (e := if ltR t tlim && ltR (tlim - t) (dt_all dt ranks) then tlim - t else dt_all dt ranks).
  assert (He : 0 < e /\ e <= dt_all dt ranks /\ (t < tlim -> t + e <= tlim)).
  { unfold e. destruct (ltR t tlim) eqn:E1; cbn [andb]; [apply ltR_true in E1|apply ltR_false in E1].
    - destruct (ltR (tlim - t) (dt_all dt ranks)) eqn:E2; [apply ltR_true in E2|apply ltR_false in E2]; repeat split; lra.
    - repeat split; lra. }
  destruct He as [He1 [He2 He3]].
  assert (forall d', 0 < d' -> d' <= e -> 0 < d' /\ d' <= 2 * dt /\ (forall x, In x (all_blocks ranks) -> d' <= new_dt x) /\ (t < tlim -> t + d' <= tlim)) as HH.
  { intros d' Ha Hb. split; [exact Ha|]. split; [lra|]. split; [intros x Hx; specialize (U2 x Hx); lra|]. intros Ht. specialize (He3 Ht). lra. }
  destruct sts as [ratio|]; [|apply HH; lra].
  destruct (ltR 0 ratio) eqn:E3; cbn [andb]; [|apply HH; lra]. apply ltR_true in E3.
  assert (Pp : 0 < par_all ranks) by (apply par_pos; [exact Hn|apply Hq; discriminate]).
  destruct (ltR ratio (e / par_all ranks)) eqn:E4; [|apply HH; lra]. apply ltR_true in E4.
  apply HH; [apply Rmult_lt_0_compat; assumption|].
  apply Rlt_le. apply (Rmult_lt_compat_r (par_all ranks)) in E4; [|exact Pp]. unfold Rdiv in E4. rewrite Rmult_assoc, Rinv_l, Rmult_1_r in E4 by lra. exact E4.
Qed.

Lemma greatest : forall tlim nlim t dt ranks x, ranks <> [] -> x <= 2 * dt -> (forall b, In b (all_blocks ranks) -> x <= new_dt b) -> (t < tlim -> t + x <= tlim) ->
  x <= NewTimeStep false None tlim nlim t dt ranks.
Proof.
  intros tlim nlim t dt ranks x Hn H1 H2 H3. rewrite new_unfold. cbv zeta.
  assert (x <= dt_all dt ranks) by (apply le_dt_all; [exact Hn|split; assumption]).
  destruct (ltR t tlim) eqn:E1; cbn [andb]; [|exact H]. apply ltR_true in E1.
  destruct (ltR (tlim - t) (dt_all dt ranks)); [|exact H]. specialize (H3 E1). lra.
Qed.

Lemma distribution : forall sts tlim nlim t dt ranks ranks', ranks <> [] -> ranks' <> [] -> (forall b, In b (all_blocks ranks) <-> In b (all_blocks ranks')) ->
  NewTimeStep false sts tlim nlim t dt ranks = NewTimeStep false sts tlim nlim t dt ranks'.
Proof.
  intros sts tlim nlim t dt ranks ranks' Hn Hn' H. rewrite !new_unfold.
  assert (dt_all dt ranks = dt_all dt ranks') as ->.
  { apply below_eq. intros y. rewrite !le_dt_all by assumption. split; intros [A B]; (split; [exact A|]); intros x Hx; apply B; apply H; exact Hx. }
  assert (par_all ranks = par_all ranks') as ->; [|reflexivity].
  apply below_eq. intros y. rewrite !le_par_all by assumption. split; intros B x Hx; apply B; apply H; exact Hx.
Qed.

(** ** Block time step *)
Lemma div_le : forall d w s c, 0 < s -> 0 < c -> d <= w / s * c -> d * s <= c * w.
Proof.
  intros d w s c Hs Hc H. apply (Rmult_le_compat_r s) in H; [|lra]. replace (w / s * c * s) with (c * w) in H by (field; lra). exact H.
Qed.
Lemma block_cfl : forall M cfl sts a2 a3 cells l b, b = NewBlockTimeStep M cfl sts a2 a3 cells l -> 0 < cfl -> (forall r, cfl_rad l = Some r -> 0 < r <= 1) ->
  (forall x, In x cells -> positive_cell x) -> forall x d, In x cells -> 0 <= d <= new_dt b -> respects cfl d a2 a3 x.
Proof.
  intros M cfl sts a2 a3 cells l b -> Hc Hr Hp x d Hx [Hd0 Hd]. destruct (Hp x Hx) as [P1 [P2 [P3 [P4 [P5 P6]]]]].
  set (h1 := min_list M (map (fun c => w1 c / s1 c) cells)) in *.
  set (h2 := if a2 then min_list h1 (map (fun c => w2 c / s2 c) cells) else h1).
  set (h3 := if a3 then min_list h2 (map (fun c => w3 c / s3 c) cells) else h2).
  set (h4 := min_list h3 (hall l)).
  assert (D1 : d <= min_list (match cfl_rad l with Some r => h4 * cfl * r | None => h4 * cfl end) (orb l)).
  { eapply Rle_trans; [exact Hd|]. unfold NewBlockTimeStep. cbv zeta. cbn [new_dt]. fold h1. fold h2. fold h3. fold h4.
    set (hh := min_list (match cfl_rad l with Some r => h4 * cfl * r | None => h4 * cfl end) (orb l)).
    pose proof (Rmin_r M hh) as A0. destruct sts; destruct (user l) as [u|]; [pose proof (Rmin_l (Rmin M hh) u)| |set (qq := match cfl_rad l with Some r => _ | None => _ end); pose proof (Rmin_l (Rmin M hh) u); pose proof (Rmin_l (Rmin (Rmin M hh) u) qq)|set (qq := match cfl_rad l with Some r => _ | None => _ end); pose proof (Rmin_l (Rmin M hh) qq)]; lra. }
  assert (D2 : d <= match cfl_rad l with Some r => h4 * cfl * r | None => h4 * cfl end) by (eapply Rle_trans; [exact D1|apply min_list_le]).
  assert (D3 : d <= h4 * cfl).
  { destruct (cfl_rad l) as [r|] eqn:Er; [|exact D2]. destruct (Hr r eq_refl) as [R1 R2].
    destruct (Rle_dec 0 (h4 * cfl)) as [Hh|Hh]; [|exfalso].
    - pose proof (Rmult_le_compat_l (h4 * cfl) r 1 Hh R2). lra.
    - assert (h4 * cfl * r < 0) by (apply Rnot_le_lt in Hh; pose proof (Rmult_lt_compat_r r _ _ R1 Hh); lra). lra. }
  assert (M4 : h4 <= h3) by apply min_list_le.
  assert (M3 : h3 <= h2) by (unfold h3; destruct a3; [apply min_list_le|lra]).
  assert (M2 : h2 <= h1) by (unfold h2; destruct a2; [apply min_list_le|lra]).
  assert (Q : forall w s, 0 < s -> h4 <= w / s -> d * s <= cfl * w).
  { intros w s Hs Hw. apply div_le; [exact Hs|exact Hc|]. pose proof (Rmult_le_compat_r cfl _ _ (Rlt_le _ _ Hc) Hw). lra. }
  unfold respects. split; [|split].
  - apply Q; [exact P2|]. apply Rle_trans with h1; [lra|]. apply min_list_in. apply (in_map (fun c => w1 c / s1 c)). exact Hx.
  - intros ->. apply Q; [exact P4|]. apply Rle_trans with h2; [lra|]. unfold h2. apply min_list_in. apply (in_map (fun c => w2 c / s2 c)). exact Hx.
  - intros ->. apply Q; [exact P6|]. apply Rle_trans with h3; [lra|]. unfold h3. apply min_list_in. apply (in_map (fun c => w3 c / s3 c)). exact Hx.
Qed.
Lemma block_pos : forall M cfl sts a2 a3 cells l, 0 < M -> 0 < cfl -> (forall x, In x cells -> positive_cell x) ->
  (forall z, In z (parab l) -> 0 < z) -> (forall z, In z (hall l) -> 0 < z) -> (forall z, In z (orb l) -> 0 < z) -> (forall u, user l = Some u -> 0 < u) -> (forall r, cfl_rad l = Some r -> 0 < r) ->
  0 < new_dt (NewBlockTimeStep M cfl sts a2 a3 cells l) /\ 0 < new_par (NewBlockTimeStep M cfl sts a2 a3 cells l).
Proof.
  intros M cfl sts a2 a3 cells l HM Hc Hp H1 H2 H3 H4 H5.
  assert (W : forall (w s : cell -> R), (forall x, positive_cell x -> 0 < w x /\ 0 < s x) -> forall z, In z (map (fun c => w c / s c) cells) -> 0 < z).
  { intros w s Hws z Hz. apply in_map_iff in Hz. destruct Hz as [x [<- Hx]]. destruct (Hws x (Hp x Hx)). apply Rdiv_lt_0_compat; assumption. }
  unfold NewBlockTimeStep. cbv zeta. cbn [new_dt new_par].
  set (h1 := min_list M (map (fun c => w1 c / s1 c) cells)).
  assert (P1 : 0 < h1) by (apply min_list_pos; [exact HM|apply W; intros x [? [? ?]]; split; assumption]).
  set (h2 := if a2 then min_list h1 (map (fun c => w2 c / s2 c) cells) else h1).
  assert (P2 : 0 < h2) by (unfold h2; destruct a2; [apply min_list_pos; [exact P1|apply W; intros x [? [? [? [? ?]]]]; split; assumption]|exact P1]).
  set (h3 := if a3 then min_list h2 (map (fun c => w3 c / s3 c) cells) else h2).
  assert (P3 : 0 < h3) by (unfold h3; destruct a3; [apply min_list_pos; [exact P2|apply W; intros x [? [? [? [? [? ?]]]]]; split; assumption]|exact P2]).
  set (h4 := min_list h3 (hall l)). assert (P4 : 0 < h4) by (apply min_list_pos; assumption).
  set (q := min_list M (parab l)). assert (P5 : 0 < q) by (apply min_list_pos; assumption).
  assert (P6 : 0 < match cfl_rad l with Some r => h4 * cfl * r | None => h4 * cfl end).
  { destruct (cfl_rad l) as [r|]; repeat apply Rmult_lt_0_compat; try assumption; apply H5; reflexivity. }
  assert (P7 : 0 < match cfl_rad l with Some r => q * cfl * r | None => q * cfl end).
  { destruct (cfl_rad l) as [r|]; repeat apply Rmult_lt_0_compat; try assumption; apply H5; reflexivity. }
  assert (P8 := min_list_pos (orb l) _ P6 H3). split; [|exact P7].
  destruct sts; destruct (user l) as [u|]; repeat (apply Rmin_glb_lt; [|try exact P7; try (apply H4; reflexivity)]); assumption.
Qed.

(** ** History *)
Section Loop.
Variables (sts : option R) (tlim : R) (nlim : Z) (ranks : nat -> list (blockdt * list blockdt)).
Hypothesis usable_all : forall n, usable sts (ranks n).
Let st (s : clock) (n : nat) : clock := loop sts tlim nlim ranks n s.
Definition good (s : clock) : Prop := 0 < dt s /\ time s <= tlim /\ (time s < tlim -> time s + dt s <= tlim).
Lemma st_S : forall s n, st s (S n) = match cycle sts tlim nlim (ranks n) (st s n) with Some s' => s' | None => st s n end. Proof. reflexivity. Qed.
Lemma cycle_good : forall n s s', good s -> cycle sts tlim nlim (ranks n) s = Some s' -> good s' /\ time s' = time s + dt s /\ time s < time s' /\ dt s' <= 2 * dt s.
Proof.
  intros n s s' [G1 [G2 G3]] H. unfold cycle in H. destruct (ltR (time s) tlim) eqn:E; [|discriminate H]. apply ltR_true in E.
  destruct (Z.ltb nlim 0 || Z.ltb (ncycle s) nlim); cbn [andb] in H; [|discriminate H]. injection H; intros <-. cbn [time dt].
  destruct (upper sts tlim nlim (time s + dt s) (dt s) (ranks n) (usable_all n) G1) as [U1 [U2 [U3 U4]]].
  specialize (G3 E). split; [|split; [reflexivity|split; [lra|exact U2]]]. split; [exact U1|]. cbn [time dt]. split; [lra|exact U4].
Qed.
Lemma st_good : forall s n, good s -> good (st s n).
Proof.
  intros s n G. induction n as [|n IH]; [exact G|]. rewrite st_S. destruct (cycle sts tlim nlim (ranks n) (st s n)) as [s'|] eqn:E; [|exact IH].
  apply (cycle_good n _ _ IH E).
Qed.
Hypothesis endless : (nlim < 0)%Z.
Variable m : R.
Hypothesis m_pos : 0 < m.
Hypothesis blocks_m : forall n x, In x (all_blocks (ranks n)) -> m <= new_dt x.
Hypothesis ratio_m : forall r, sts = Some r -> 0 < r -> forall n x, In x (all_blocks (ranks n)) -> m <= r * new_par x.
Lemma lower : forall n t d, m <= d -> let d' := NewTimeStep false sts tlim nlim t d (ranks n) in m <= d' \/ (t < tlim /\ d' = tlim - t).
Proof.
  intros n t d Hd d'. unfold d'. rewrite new_unfold. cbv zeta. destruct (usable_all n) as [Hn [Hp Hq]].
  assert (A : m <= dt_all d (ranks n)) by (apply le_dt_all; [exact Hn|split; [lra|apply blocks_m]]).
  set (e := if ltR t tlim && ltR (tlim - t) (dt_all d (ranks n)) then tlim - t else dt_all d (ranks n)).
  assert (He : m <= e \/ (t < tlim /\ e = tlim - t)).
  { unfold e. destruct (ltR t tlim) eqn:E1; cbn [andb]; [|left; exact A]. apply ltR_true in E1.
    destruct (ltR (tlim - t) (dt_all d (ranks n))); [right; split; [exact E1|reflexivity]|left; exact A]. }
  destruct sts as [r|] eqn:Es; [|exact He]. destruct (ltR 0 r) eqn:E3; cbn [andb]; [|exact He]. apply ltR_true in E3.
  destruct (ltR r (e / par_all (ranks n))); [|exact He]. left.
  apply (Rmult_le_reg_l (/ r)); [apply Rinv_0_lt_compat; exact E3|]. rewrite <- Rmult_assoc, Rinv_l, Rmult_1_l by lra.
  apply le_par_all; [exact Hn|]. intros x Hx. pose proof (ratio_m r eq_refl E3 n x Hx) as Q. apply (Rmult_le_reg_l r); [exact E3|]. rewrite <- Rmult_assoc, Rinv_r, Rmult_1_l by lra. exact Q.
Qed.
Lemma progress : forall s, good s -> m <= dt s -> forall n, time (st s n) = tlim \/ (time s + INR n * m <= time (st s n) /\ time (st s n) < tlim /\ (m <= dt (st s n) \/ dt (st s n) = tlim - time (st s n))).
Proof.
  intros s G Hm n. induction n as [|n IH].
  - cbn [INR]. change (st s 0) with s. destruct G as [G1 [G2 G3]]. destruct (Req_dec (time s) tlim) as [E|E]; [left; exact E|right]. split; [lra|]. split; [lra|left; exact Hm].
  - rewrite st_S, S_INR. pose proof (st_good s n G) as Gn. destruct IH as [E|[I1 [I2 I3]]].
    + left. unfold cycle. replace (ltR (time (st s n)) tlim) with false by (symmetry; apply ltR_false; lra). exact E.
    + destruct (cycle sts tlim nlim (ranks n) (st s n)) as [s'|] eqn:E.
      2:{ exfalso. unfold cycle in E. replace (ltR (time (st s n)) tlim) with true in E by (symmetry; apply ltR_true; exact I2).
          replace (Z.ltb nlim 0) with true in E by (symmetry; apply Z.ltb_lt; exact endless). discriminate E. }
      destruct (cycle_good n _ _ Gn E) as [G' [T [T' _]]]. destruct I3 as [I3|I3]; [|left; lra].
      destruct (Req_dec (time s') tlim) as [Eq|Ne]; [left; exact Eq|right]. destruct G' as [G1 [G2 G3]]. split; [lra|]. split; [lra|].
      unfold cycle in E. replace (ltR (time (st s n)) tlim) with true in E by (symmetry; apply ltR_true; exact I2).
      replace (Z.ltb nlim 0) with true in E by (symmetry; apply Z.ltb_lt; exact endless). cbn [andb orb] in E. injection E; intros <-. cbn [time dt].
      destruct (lower n (time (st s n) + dt (st s n)) (dt (st s n)) I3) as [L|[_ L]]; [left; exact L|right; exact L].
Qed.
Lemma terminates : forall s, good s -> m <= dt s -> exists n, time (st s n) = tlim.
Proof.
  intros s G Hm. destruct (archimed ((tlim - time s) / m)) as [A _]. set (z := up ((tlim - time s) / m)) in *.
  destruct (progress s G Hm (Z.to_nat z)) as [E|[P1 [P2 _]]]; [exists (Z.to_nat z); exact E|exfalso].
  assert (tlim - time s <= IZR z * m).
  { apply Rlt_le. apply (Rmult_lt_compat_r m) in A; [|exact m_pos]. unfold Rdiv in A. rewrite Rmult_assoc, Rinv_l, Rmult_1_r in A by lra. lra. }
  assert (IZR z <= INR (Z.to_nat z)).
  { rewrite INR_IZR_INZ. apply IZR_le. lia. }
  assert (IZR z * m <= INR (Z.to_nat z) * m) by (apply Rmult_le_compat_r; lra). lra.
Qed.
End Loop.
