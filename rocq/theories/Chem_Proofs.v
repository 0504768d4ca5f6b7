(** The explicit integrator of the chemistry module. *)
From Coq Require Import Reals List Lra Lia.
From Verif Require Import Chem_Model Chem_Spec.
Import ListNotations.
Open Scope R_scope.

Definition below (t : option R) (x : R) : Prop := match t with Some v => 0 <= v <= x | None => False end.
Definition good (t : option R) : Prop := match t with Some v => 0 <= v | None => True end.
Lemma min_below_l a b x : below a x -> good b -> below (min_time a b) x.
Proof. destruct a as [a|], b as [b|]; cbn; try tauto. intros H G. split; [apply Rmin_glb; lra|]. apply Rle_trans with a; [apply Rmin_l|lra]. Qed.
Lemma min_below_r a b x : below b x -> good a -> below (min_time a b) x.
Proof. destruct a as [a|], b as [b|]; cbn; try tauto. intros H G. split; [apply Rmin_glb; lra|]. apply Rle_trans with b; [apply Rmin_r|lra]. Qed.
Lemma min_good a b : good a -> good b -> good (min_time a b).
Proof. destruct a as [a|], b as [b|]; cbn; auto. intros. apply Rmin_glb; lra. Qed.
Lemma ts_good s a b : good (timescale s a b).
Proof. unfold timescale. destruct (Req_EM_T _ _); cbn; auto. apply Rabs_pos. Qed.
Lemma ts_below s a b : b + s <> 0 -> below (timescale s a b) (Rabs (a / (b + s))).
Proof. intros H. unfold timescale. destruct (Req_EM_T _ _); [contradiction|]. cbn. split; [apply Rabs_pos|lra]. Qed.
Lemma fold_time s yf0 l : forall t, good t ->
  let r := fold_left (fun t p => min_time t (timescale s (yf yf0 (fst p)) (snd p))) l t in
  good r /\ (forall x, below t x -> below r x) /\ (forall p, In p l -> snd p + s <> 0 -> below r (Rabs (yf yf0 (fst p) / (snd p + s)))).
Proof.
  induction l as [|p l IH]; intros t G; cbn [fold_left].
  - cbn. repeat split; auto. intros ? [].
  - destruct (IH (min_time t (timescale s (yf yf0 (fst p)) (snd p)))) as (A & B & C); [apply min_good; auto; apply ts_good|]. cbn zeta. split; [exact A|split].
    + intros x Hx. apply B, min_below_l; auto. apply ts_good.
    + intros q [<-|Q] N; [|auto]. apply B, min_below_r; auto. apply ts_below; auto.
Qed.
Lemma chem_time nb s yf0 y yd E Ed : let r := GetChemTime nb s yf0 y yd E Ed in
  good r /\ (forall p, In p (combine y yd) -> snd p + s <> 0 -> below r (Rabs (Rmax (fst p) yf0 / (snd p + s)))) /\ (nb = true -> Ed + s <> 0 -> below r (Rabs (E / (Ed + s)))).
Proof.
  cbn zeta. destruct (fold_time s yf0 (combine y yd) None I) as (A & _ & C). unfold GetChemTime. destruct nb.
  - split; [apply min_good; auto; apply ts_good|split]; [intros p Hp N; apply min_below_l; [apply C; auto|apply ts_good]|intros _ N; apply min_below_r; [apply ts_below; auto|auto]].
  - split; [auto|split]; [intros p Hp N; apply C; auto|discriminate].
Qed.
Lemma sub_below cfl t l x : 0 <= cfl -> below t x -> substep cfl t l <= cfl * x.
Proof. destruct t as [t|]; cbn; [|tauto]. intros C H. apply Rle_trans with (cfl * t); [apply Rmin_l|apply Rmult_le_compat_l; lra]. Qed.
Lemma sub_pos cfl t l : 0 <= cfl -> 0 <= l -> good t -> 0 <= substep cfl t l <= l.
Proof. intros C L. destruct t as [t|]; cbn; [|lra]. intros H. split; [apply Rmin_glb; auto; apply Rmult_le_pos; lra|apply Rmin_r]. Qed.
Lemma gentle_one cfl d b m : 0 <= cfl -> 0 <= d -> (b <> 0 -> d <= cfl * Rabs (m / b)) -> Rabs (d * b) <= cfl * Rabs m.
Proof.
  intros C D H. destruct (Req_EM_T b 0) as [->|N]; [rewrite Rmult_0_r, Rabs_R0; apply Rmult_le_pos; [lra|apply Rabs_pos]|].
  specialize (H N). rewrite Rabs_mult, (Rabs_right d) by lra. unfold Rdiv in H. rewrite Rabs_mult, Rabs_inv in H by auto. assert (B : 0 < Rabs b) by (apply Rabs_pos_lt; auto).
  apply Rle_trans with (cfl * (Rabs m * / Rabs b) * Rabs b); [apply Rmult_le_compat_r; lra|]. right. field. lra.
Qed.
Lemma nth_comb (f : R * R -> R) : forall y z i, length y = length z -> (i < length y)%nat -> nth i (map f (combine y z)) 0 = f (nth i y 0, nth i z 0).
Proof. induction y as [|a y IH]; intros [|b z] i L H; cbn in *; try lia. destruct i; [reflexivity|]. apply IH; lia. Qed.
Lemma In_comb : forall (y z : list R) i, length y = length z -> (i < length y)%nat -> In (nth i y 0, nth i z 0) (combine y z).
Proof. induction y as [|a y IH]; intros [|b z] i L H; cbn in *; try lia. destruct i; [auto|]. right. apply IH; lia. Qed.

Definition ranges (P : pars) : Prop := 0 <= cfl_cool_sub P /\ 0 <= yfloor_ P.
Lemma one_step P N tleft y E : ranges P -> proper N -> 0 <= tleft -> let ed := if nonbarotropic P then Edot N y E else 0 in
  let d := substep (cfl_cool_sub P) (GetChemTime (nonbarotropic P) (small_ P) (yfloor_ P) y (RHS N y E) E ed) tleft in
  let r := IntegrateOneSubstep (nonbarotropic P) d y (RHS N y E) E ed in
  0 <= d <= tleft /\ advanced N (nonbarotropic P) d y E (fst r) (snd r) /\ gentle P N d y E.
Proof.
  intros (C & F) Pr L ed d r. pose proof (Pr y E) as Le. destruct (chem_time (nonbarotropic P) (small_ P) (yfloor_ P) y (RHS N y E) E ed) as (G & Y & En). assert (D : 0 <= d <= tleft) by (apply sub_pos; auto). split; [exact D|split].
  - unfold r, IntegrateOneSubstep, advanced. cbn [fst snd]. rewrite map_length, combine_length, Le, Nat.min_id. split; [reflexivity|split].
    + intros i. destruct (Nat.lt_ge_cases i (length y)) as [H|H]; [rewrite nth_comb by auto; cbn [fst snd]; ring|].
      rewrite !nth_overflow; [ring|rewrite Le; auto|auto|rewrite map_length, combine_length, Le, Nat.min_id; auto].
    + unfold ed. destruct (nonbarotropic P); ring.
  - split.
    + intros i Hi. replace (d * nth i (RHS N y E) 0 + d * small_ P) with (d * (nth i (RHS N y E) 0 + small_ P)) by ring.
      rewrite <- (Rabs_right (Rmax _ _)) by (apply Rle_ge, Rle_trans with (yfloor_ P); [lra|apply Rmax_r]). apply gentle_one; [lra|lra|]. intros NZ. apply sub_below; [lra|].
      apply (Y (nth i y 0, nth i (RHS N y E) 0)); [apply In_comb; auto|exact NZ].
    + intros Hn. replace (d * Edot N y E + d * small_ P) with (d * (Edot N y E + small_ P)) by ring. apply gentle_one; [lra|lra|]. intros NZ. apply sub_below; [lra|].
      unfold ed in En. rewrite Hn in En. unfold ed. rewrite Hn. apply En; auto.
Qed.
Lemma cycles P N tend : ranges P -> proper N -> forall fuel tnow tleft y E y' E', tleft = tend - tnow -> tnow <= tend -> subcycle P N tend fuel tnow tleft y E = Some (y', E') ->
  exists ds, steps P N ds y E y' E' /\ sum ds = tend - tnow /\ (length ds <= fuel)%nat.
Proof.
  intros Rg Pr. induction fuel as [|fuel IH]; intros tnow tleft y E y' E' L T; cbn [subcycle]; (destruct (Rlt_dec tnow tend) as [H|H]; [|intros Q; injection Q as <- <-; exists []; repeat split; [constructor|cbn; lra|cbn; lia]]); [discriminate|].
  destruct (one_step P N tleft y E Rg Pr) as (D & A & G); [lra|]. cbv zeta. cbv zeta in D, A, G.
  set (d := substep _ _ _) in *. unfold IntegrateOneSubstep in *. cbn [fst snd] in A. intros Q.
  apply IH in Q; [|reflexivity|lra]. destruct Q as (ds & S & Su & Le). exists (d :: ds). split; [econstructor; eauto; lra|split; [cbn; fold (sum ds); lra|cbn; lia]].
Qed.

(** *** The theorem about a cell *)
Lemma kin_eq u : cd u <> 0 -> kin u = (cm1 u ^ 2 + cm2 u ^ 2 + cm3 u ^ 2) / (2 * cd u).
Proof. intros H. unfold kin. replace 0.5 with (/ 2) by lra. field. auto. Qed.
Lemma mag_eq u : mag u = (cb1 u ^ 2 + cb2 u ^ 2 + cb3 u ^ 2) / 2.
Proof. unfold mag. replace 0.5 with (/ 2) by lra. field. Qed.
Lemma integrate P N t dt u u' : ranges P -> proper N -> 0 <= dt -> cd u <> 0 -> Integrate_cell P N t dt u = Some u' ->
  exists ds y E, steps P N ds (conc u) (if nonbarotropic P then thermal P u else 0) y E /\ sum ds = dt /\ (length ds <= nsub_max P)%nat /\
  conc u' = map (fun x => Rmax x (scalar_floor P)) y /\ (cd u', cm1 u', cm2 u', cm3 u') = (cd u, cm1 u, cm2 u, cm3 u) /\ (cb1 u', cb2 u', cb3 u') = (cb1 u, cb2 u, cb3 u) /\
  (if nonbarotropic P then thermal P u' = E else ce u' = ce u).
Proof.
  intros Rg Pr D Dn. unfold Integrate_cell. destruct (subcycle _ _ _ _ _ _ _ _) as [[y E]|] eqn:Q; [|discriminate]. intros H. injection H as <-.
  apply cycles in Q; auto; [|lra|lra]. destruct Q as (ds & S & Su & Le). exists ds, y, E.
  assert (Eq : (if nonbarotropic P then ce u - kin u - (if magnetic P then mag u else 0) else 0) = (if nonbarotropic P then thermal P u else 0)).
  { unfold thermal. rewrite kin_eq, mag_eq by auto. reflexivity. }
  rewrite Eq in S. refine (conj S (conj _ (conj Le (conj _ (conj eq_refl (conj eq_refl _)))))).
  - lra.
  - unfold conc. cbn [cs cd]. rewrite map_map. apply map_ext. intros x. unfold Rmax. destruct (Rlt_dec x (scalar_floor P)), (Rle_dec x (scalar_floor P)); try lra; try (field; auto).
    replace x with (scalar_floor P) by lra. field; auto.
  - unfold thermal. cbn [ce cm1 cm2 cm3 cd cb1 cb2 cb3]. destruct (nonbarotropic P); [|reflexivity]. rewrite kin_eq, mag_eq by auto. lra.
Qed.

(** *** Linear invariants *)
Lemma weigh_nil w : weigh w [] = 0. Proof. unfold weigh. destruct w; reflexivity. Qed.
Lemma weigh_cons a w b y : weigh (a :: w) (b :: y) = a * b + weigh w y. Proof. reflexivity. Qed.
Lemma weigh_adv d : forall w y r y', length y' = length y -> length r = length y -> (forall i, nth i y' 0 = nth i y 0 + d * nth i r 0) -> weigh w y' = weigh w y + d * weigh w r.
Proof.
  induction w as [|a w IH]; intros y r y' L L2 H; [unfold weigh; cbn; ring|]. destruct y as [|b y], y' as [|b' y'], r as [|c r]; cbn in L, L2; try discriminate; [unfold weigh; cbn; ring|].
  pose proof (H 0%nat) as H0. cbn in H0. specialize (IH y r y' ltac:(lia) ltac:(lia) (fun i => H (S i))). rewrite !weigh_cons, IH, H0. ring.
Qed.
Lemma invariant P N w : proper N -> (forall y E, weigh w (RHS N y E) = 0) -> forall ds y E y' E', steps P N ds y E y' E' -> weigh w y' = weigh w y.
Proof. intros Pr H ds y E y' E' S. induction S as [|d ds y E y1 E1 y' E' D A G S IH]; [reflexivity|]. rewrite IH. destruct A as (L & A & _). rewrite (weigh_adv d w y (RHS N y E) y1 L (Pr y E) A), H. ring. Qed.
Lemma steps_length P N ds y E y' E' : steps P N ds y E y' E' -> length y' = length y.
Proof. induction 1 as [|d ds y E y1 E1 y' E' D (L & _) G S IH]; [reflexivity|]. congruence. Qed.
Lemma weigh_scale d : forall w y, weigh w (map (fun s => s / d) y) = weigh w y / d.
Proof. induction w as [|a w IH]; intros [|b y]; try (unfold weigh, Rdiv; cbn; ring). cbn [map]. rewrite !weigh_cons, IH. unfold Rdiv. ring. Qed.
Lemma nuclei P N t dt u u' w : ranges P -> proper N -> 0 <= dt -> cd u <> 0 -> (forall y E, weigh w (RHS N y E) = 0) -> Integrate_cell P N t dt u = Some u' ->
  Forall (fun x => scalar_floor P < x) (conc u') -> weigh w (cs u') = weigh w (cs u).
Proof.
  intros Rg Pr D Dn H I F. destruct (integrate P N t dt u u' Rg Pr D Dn I) as (ds & y & E & S & _ & _ & Cn & De & _). injection De as Ed _ _ _.
  assert (Q : conc u' = y). { rewrite Cn in *. clear -F. induction y as [|a y IH]; [reflexivity|]. cbn in *. inversion F; subst. rewrite IH by auto. f_equal. unfold Rmax in *. destruct (Rle_dec a (scalar_floor P)); lra. }
  pose proof (invariant P N w Pr H _ _ _ _ _ S) as Iv. rewrite <- Q in Iv. unfold conc in Iv. rewrite !weigh_scale, Ed in Iv.
  apply (f_equal (fun x => x * cd u)) in Iv. unfold Rdiv in Iv. rewrite !Rmult_assoc, Rinv_l, !Rmult_1_r in Iv by auto. exact Iv.
Qed.
(** The floor only adds. *)
Lemma nuclei_le P N t dt u u' w : ranges P -> proper N -> 0 <= dt -> 0 < cd u -> Forall (fun a => 0 <= a) w -> (forall y E, weigh w (RHS N y E) = 0) -> Integrate_cell P N t dt u = Some u' ->
  weigh w (cs u) <= weigh w (cs u').
Proof.
  intros Rg Pr D Dn W H I. destruct (integrate P N t dt u u' Rg Pr D ltac:(lra) I) as (ds & y & E & S & _ & _ & Cn & De & _). injection De as Ed _ _ _.
  pose proof (invariant P N w Pr H _ _ _ _ _ S) as Iv. unfold conc in Iv. rewrite weigh_scale in Iv.
  assert (Q : weigh w y <= weigh w (conc u')).
  { rewrite Cn. clear -W. revert y. induction W as [|a w A W IH]; intros [|b y]; try (unfold weigh; cbn; lra). cbn [map]. rewrite !weigh_cons. specialize (IH y). pose proof (Rmax_l b (scalar_floor P)). assert (a * b <= a * Rmax b (scalar_floor P)) by (apply Rmult_le_compat_l; auto). lra. }
  unfold conc in Q. rewrite weigh_scale, Ed, Iv in Q. apply (Rmult_le_compat_r (cd u)) in Q; [|lra]. unfold Rdiv in Q. rewrite !Rmult_assoc, Rinv_l, !Rmult_1_r in Q by lra. exact Q.
Qed.
(** A species above the reference abundance is not driven below zero by a gentle step (but for the smallness). *)
Lemma stays P N d y E y' E' i : 0 <= d -> 0 <= small_ P -> advanced N (nonbarotropic P) d y E y' E' -> gentle P N d y E -> (i < length y)%nat -> yfloor_ P <= nth i y 0 ->
  Rabs (nth i y' 0 - nth i y 0) <= cfl_cool_sub P * nth i y 0 + d * small_ P.
Proof.
  intros D S (_ & A & _) (G & _) L F. specialize (G i L). rewrite Rmax_left in G by lra. rewrite A. replace (nth i y 0 + d * nth i (RHS N y E) 0 - nth i y 0) with ((d * nth i (RHS N y E) 0 + d * small_ P) + - (d * small_ P)) by ring.
  eapply Rle_trans; [apply Rabs_triang|]. rewrite Rabs_Ropp, (Rabs_right (d * small_ P)) by (apply Rle_ge, Rmult_le_pos; lra). lra.
Qed.

(** *** It completes *)
Lemma completes P N tend (S : abundances -> Prop) M : 0 < cfl_cool_sub P -> 0 < yfloor_ P -> 0 < M -> proper N -> nonbarotropic P = false ->
  (forall y E, S y -> Forall (fun r => Rabs (r + small_ P) <= M) (RHS N y E)) -> (forall d y E y' E', S y -> 0 <= d -> advanced N false d y E y' E' -> gentle P N d y E -> S y') ->
  forall fuel tnow tleft y E, tleft = tend - tnow -> S y -> tend - tnow <= INR fuel * (cfl_cool_sub P * yfloor_ P / M) -> subcycle P N tend fuel tnow tleft y E <> None.
Proof.
  intros C F HM Pr NB B K. induction fuel as [|fuel IH]; intros tnow tleft y E L Sy T; cbn [subcycle]; (destruct (Rlt_dec tnow tend) as [H|H]; [|discriminate]); [cbn in T; lra|].
  destruct (one_step P N tleft y E (conj (Rlt_le _ _ C) (Rlt_le _ _ F)) Pr) as (D & A & G); [lra|]. cbv zeta. cbv zeta in D, A, G.
  assert (Lo : Rmin (cfl_cool_sub P * yfloor_ P / M) tleft <= substep (cfl_cool_sub P) (GetChemTime (nonbarotropic P) (small_ P) (yfloor_ P) y (RHS N y E) E (if nonbarotropic P then Edot N y E else 0)) tleft).
  { rewrite NB. unfold GetChemTime. specialize (B y E Sy).
    assert (Z : forall l t, Forall (fun p => Rabs (snd p + small_ P) <= M) l -> (match t with Some v => yfloor_ P / M <= v | None => True end) ->
      match fold_left (fun t p => min_time t (timescale (small_ P) (yf (yfloor_ P) (fst p)) (snd p))) l t with Some v => yfloor_ P / M <= v | None => True end).
    { induction l as [|p l IHl]; intros t Fo Ht; cbn [fold_left]; [exact Ht|]. inversion Fo; subst. apply IHl; auto. unfold timescale. destruct (Req_EM_T _ _) as [Z|Z]; [destruct t; exact Ht|].
      assert (V : yfloor_ P / M <= Rabs (yf (yfloor_ P) (fst p) / (snd p + small_ P))).
      { unfold Rdiv at 2. rewrite Rabs_mult, Rabs_inv by auto. unfold yf. assert (yfloor_ P <= Rmax (fst p) (yfloor_ P)) by apply Rmax_r. rewrite (Rabs_right (Rmax _ _)) by lra.
        apply Rmult_le_compat; [lra|left; apply Rinv_0_lt_compat; lra|auto|]. apply Rinv_le_contravar; [apply Rabs_pos_lt; auto|auto]. }
      destruct t as [t|]; cbn; [apply Rmin_glb; auto|auto]. }
    assert (FC : Forall (fun p => Rabs (snd p + small_ P) <= M) (combine y (RHS N y E))).
    { apply Forall_forall. intros [a b] Hp. apply in_combine_r in Hp. exact (proj1 (Forall_forall _ _) B b Hp). }
    specialize (Z (combine y (RHS N y E)) None FC I). unfold substep. destruct (fold_left _ _ _) as [v|]; [|apply Rmin_r].
    apply Rmin_glb; [|apply Rmin_r]. apply Rle_trans with (cfl_cool_sub P * yfloor_ P / M); [apply Rmin_l|]. unfold Rdiv. rewrite Rmult_assoc. apply Rmult_le_compat_l; [lra|exact Z]. }
  set (d := substep _ _ _) in *. unfold IntegrateOneSubstep in *. cbn [fst snd] in A. apply IH; [reflexivity|rewrite NB in A; eapply K; [exact Sy|apply D|exact A|exact G]|].
  rewrite S_INR in T. unfold Rmin in Lo. destruct (Rle_dec (cfl_cool_sub P * yfloor_ P / M) tleft); [lra|]. replace (tend - (tnow + d)) with 0 by lra. apply Rmult_le_pos; [apply pos_INR|]. unfold Rdiv. apply Rmult_le_pos; [apply Rmult_le_pos; lra|left; apply Rinv_0_lt_compat; lra].
Qed.
