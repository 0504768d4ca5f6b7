(** C86: chemistry conserves nuclei and charge, and its explicit integration covers exactly the step. *)
From Coq Require Import Reals List Lra Lia ZArith.
From Verif Require Import Chem_Model Chem_Spec Chem_Proofs Chem_Proofs2 Chem_Proofs3.
Import ListNotations.
Open Scope R_scope.

(** ** The explicit integrator *)
(** When it returns, it has taken at most nsub_max gentle explicit steps whose lengths add up to the step of the run, and touched only abundances and thermal energy. *)
Theorem C86_integrate : forall P N t dt u u', ranges P -> proper N -> 0 <= dt -> cd u <> 0 -> Integrate_cell P N t dt u = Some u' ->
  exists ds y E, steps P N ds (conc u) (if nonbarotropic P then thermal P u else 0) y E /\ sum ds = dt /\ (length ds <= nsub_max P)%nat /\
  conc u' = map (fun x => Rmax x (scalar_floor P)) y /\ (cd u', cm1 u', cm2 u', cm3 u') = (cd u, cm1 u, cm2 u, cm3 u) /\ (cb1 u', cb2 u', cb3 u') = (cb1 u, cb2 u, cb3 u) /\
  (if nonbarotropic P then thermal P u' = E else ce u' = ce u).
Proof. exact integrate. Qed.
Print Assumptions C86_integrate.
(** Whatever the reactions conserve is conserved over the step, if the floor did not act. *)
Theorem C86_conserved : forall P N t dt u u' w, ranges P -> proper N -> 0 <= dt -> cd u <> 0 -> (forall y E, weigh w (RHS N y E) = 0) -> Integrate_cell P N t dt u = Some u' ->
  Forall (fun x => scalar_floor P < x) (conc u') -> weigh w (cs u') = weigh w (cs u).
Proof. exact nuclei. Qed.
Print Assumptions C86_conserved.
(** The floor can only add nuclei. *)
Theorem C86_floor_adds : forall P N t dt u u' w, ranges P -> proper N -> 0 <= dt -> 0 < cd u -> Forall (fun a => 0 <= a) w -> (forall y E, weigh w (RHS N y E) = 0) -> Integrate_cell P N t dt u = Some u' ->
  weigh w (cs u) <= weigh w (cs u').
Proof. exact nuclei_le. Qed.
Print Assumptions C86_floor_adds.
(** A species above the reference abundance changes by at most the fraction cfl of itself in a substep. *)
Theorem C86_gentle : forall P N d y E y' E' i, 0 <= d -> 0 <= small_ P -> advanced N (nonbarotropic P) d y E y' E' -> gentle P N d y E -> (i < length y)%nat -> yfloor_ P <= nth i y 0 ->
  Rabs (nth i y' 0 - nth i y 0) <= cfl_cool_sub P * nth i y 0 + d * small_ P.
Proof. exact stays. Qed.
Print Assumptions C86_gentle.
(** With bounded rates and enough substeps allowed, it returns. *)
Theorem C86_completes : forall P N (S : abundances -> Prop) M t dt u, 0 < cfl_cool_sub P -> 0 < yfloor_ P -> 0 < M -> proper N -> nonbarotropic P = false ->
  (forall y E, S y -> Forall (fun r => Rabs (r + small_ P) <= M) (RHS N y E)) -> (forall d y E y' E', S y -> 0 <= d -> advanced N false d y E y' E' -> gentle P N d y E -> S y') ->
  S (conc u) -> dt <= INR (nsub_max P) * (cfl_cool_sub P * yfloor_ P / M) -> exists u', Integrate_cell P N t dt u = Some u'.
Proof.
  intros P N S M t dt u C F HM Pr NB B K S0 D. unfold Integrate_cell. destruct (subcycle _ _ _ _ _ _ _ _) as [[y E]|] eqn:Q; [eexists; reflexivity|].
  exfalso. revert Q. apply (completes P N (t + dt) S M); auto; [ring|]. replace (t + dt - t) with dt by ring. exact D.
Qed.
Print Assumptions C86_completes.

(** ** The network of molecular hydrogen *)
Theorem C86_H2 : forall kcr kgr nH tcgs yH yH2, weigh [1; 2] (H2_RHS kcr kgr nH tcgs [yH; yH2]) = 0 /\
  (0 <= kcr -> 0 <= kgr -> 0 <= nH -> 0 <= tcgs -> 0 <= yH -> 0 <= yH2 -> (yH = 0 -> 0 <= nth 0 (H2_RHS kcr kgr nH tcgs [yH; yH2]) 0) /\ (yH2 = 0 -> 0 <= nth 1 (H2_RHS kcr kgr nH tcgs [yH; yH2]) 0)).
Proof. intros. split; [apply H2_conserves|intros; apply H2_positive; auto]. Qed.
Print Assumptions C86_H2.
Theorem C86_H2_step : forall P kcr kgr nH tcgs t dt u u', ranges P -> 0 <= dt -> cd u <> 0 -> Integrate_cell P (H2_net kcr kgr nH tcgs) t dt u = Some u' -> Forall (fun x => scalar_floor P < x) (conc u') ->
  weigh [1; 2] (cs u') = weigh [1; 2] (cs u).
Proof. intros. eapply nuclei; eauto; [apply H2_proper|intros; apply H2_net_conserves]. Qed.
Print Assumptions C86_H2_step.
(** With the default parameters the floor does act: a species rarer than the reference abundance is driven below zero and hydrogen is created, however many substeps are allowed. *)
Theorem C86_H2_floor_refuted : forall n, exists u', Integrate_cell (usual (S n)) (H2_net (6 / 10 ^ 16) (3 / 10 ^ 17) (2 / 10 ^ 7) (10 ^ 16 / 6)) 0 5 thin = Some u' /\ weigh [1; 2] (cs thin) + / 20000 < weigh [1; 2] (cs u').
Proof. exact thin_step. Qed.
Print Assumptions C86_H2_floor_refuted.

(** ** gow17 *)
(** The species that are not tracked complete every element and make the gas neutral. *)
Theorem C86_gow_elements : forall xC xO xHe xSi y, let z := GetGhostSpecies xC xO xHe xSi y in
  over all_species (atoms Carbon) z = xC /\ over all_species (atoms Oxygen) z = xO /\ over all_species (atoms Helium) z = xHe /\ over all_species (atoms Silicon) z = xSi /\
  over all_species (atoms Hydrogen) z = 1 /\ over all_species charge z = 0 /\ (forall s, In s gow_species -> z s = y s).
Proof. exact elements. Qed.
Print Assumptions C86_gow_elements.
(** The rates of change are those of the reactions of the network. *)
Theorem C86_gow_reactions : forall xC xO xHe xSi tcgs K y s, let z := GetGhostSpecies xC xO xHe xSi y in fits K -> (forall s, 0 <= z s) -> In s gow_species ->
  gow_RHS xC xO xHe xSi tcgs K y s = tcgs * sum (map (fun p => speed (fst p) (snd p) z * IZR (net (snd p) s)) (combine (rates K) formulas)).
Proof. exact gow_sum. Qed.
Print Assumptions C86_gow_reactions.
Theorem C86_gow_balanced : forall n, n <> 5%nat -> (n < length formulas)%nat -> balanced (nth n formulas (formula [] [])).
Proof. exact balance_all. Qed.
Print Assumptions C86_gow_balanced.
(** Nothing that is absent is consumed, tracked or not. *)
Theorem C86_gow_positive : forall xC xO xHe xSi tcgs K y, let z := GetGhostSpecies xC xO xHe xSi y in fits K -> 0 <= tcgs -> (forall s, 0 <= z s) ->
  (forall s, In s gow_species -> z s = 0 -> 0 <= gow_RHS xC xO xHe xSi tcgs K y s) /\
  (forall el, el <> Hydrogen -> z (free el) = 0 -> over gow_species (atoms el) (gow_RHS xC xO xHe xSi tcgs K y) <= 0) /\
  (z gH = 0 -> nth 5 (kcr K) 0 * z CO = 0 -> over gow_species (atoms Hydrogen) (gow_RHS xC xO xHe xSi tcgs K y) <= 0).
Proof. intros xC xO xHe xSi tcgs K y z F T Z. refine (conj _ (conj _ _)); intros; [apply gow_positive; auto|apply gow_free; auto|apply gow_free_H; auto]. Qed.
Print Assumptions C86_gow_positive.
(** The schematic ionization of CO makes a hydrogen nucleus: without free hydrogen atoms their abundance becomes negative. *)
Theorem C86_gow_hydrogen_refuted : exists xC xO xHe xSi K y, let z := GetGhostSpecies xC xO xHe xSi y in fits K /\ (forall s, 0 <= z s) /\ z gH = 0 /\ 0 < over gow_species (atoms Hydrogen) (gow_RHS xC xO xHe xSi 1 K y).
Proof. exists (/ 10000), (3 / 10000), (/ 10), 0, only_cr5, dark. exact dark_H. Qed.
Print Assumptions C86_gow_hydrogen_refuted.

(** ** G14Sod *)
Theorem C86_sod_charge : forall y, sover (sod_species ++ [se]) scharge (sod_ghost y) = 0.
Proof. exact sod_neutral. Qed.
Print Assumptions C86_sod_charge.
Theorem C86_sod_helium : forall tcgs nH k y, sover sod_species heliums (sod_RHS tcgs nH k y) = 0.
Proof. exact sod_helium. Qed.
Print Assumptions C86_sod_helium.
(** The reactions as documented conserve nuclei and charge, and all but four are what is computed. *)
Theorem C86_sod_reactions : (forall i, (i < 20)%nat -> forall w, In w [hydrogens; heliums; scharge] -> fold_right Z.add 0%Z (map w (fst (nth i sformulas ([], [])))) = fold_right Z.add 0%Z (map w (snd (nth i sformulas ([], []))))) /\
  forall tcgs nH k y s, k 11%nat = 0 -> k 12%nat = 0 -> k 18%nat = 0 -> k 19%nat = 0 -> s <> se ->
  sod_RHS tcgs nH k y s = tcgs * nH * sum (map (fun i => k i * fold_right Rmult 1 (map (fun s => Rmax 0 (sod_ghost y s)) (fst (nth i sformulas ([], [])))) * IZR (snet (nth i sformulas ([], [])) s)) (seq 0 20)).
Proof.
  split; [exact sformulas_ok|]. intros tcgs nH k y s A B C D S. rewrite sod_reactions; auto; [|intros i [->|[->|[->| ->]]]; auto]. f_equal. f_equal. apply map_ext. intros i. f_equal. f_equal. f_equal. apply map_ext. intros a.
  unfold y0, clip, Rmax. destruct (Rlt_dec _ _), (Rle_dec _ _); lra.
Qed.
Print Assumptions C86_sod_reactions.
(** How many hydrogen nuclei the other four make. *)
Theorem C86_sod_hydrogen : forall tcgs nH k y, let z s := Rmax 0 (sod_ghost y s) in sover sod_species hydrogens (sod_RHS tcgs nH k y) =
  tcgs * nH * (2 * (k 11%nat * z sH2 * z se) + k 12%nat * z sHM * z se - 2 * (k 18%nat * z sH2 * z sH) + k 19%nat * z sH2 * z sH).
Proof.
  intros tcgs nH k y z. rewrite sod_hydrogen. assert (E : forall s, y0 y s = z s) by (intros s; unfold z, y0, clip, Rmax; destruct (Rlt_dec _ _), (Rle_dec _ _); lra). rewrite !E. reflexivity.
Qed.
Print Assumptions C86_sod_hydrogen.
Theorem C86_sod_hydrogen_refuted : forall i, i = 11%nat \/ i = 12%nat \/ i = 18%nat \/ i = 19%nat -> exists k y, (forall j, 0 <= k j) /\ (forall s, 0 <= y s) /\ (forall j, j <> i -> k j = 0) /\ sover sod_species hydrogens (sod_RHS 1 1 k y) <> 0.
Proof.
  intros i B. exists (fun j => if Nat.eqb j i then 1 else 0), mixture. split; [|split; [|split]].
  - intros j. destruct (Nat.eqb j i); lra.
  - intros []; cbn [mixture]; lra.
  - intros j N. apply Nat.eqb_neq in N. rewrite N. reflexivity.
  - apply sod_bad. exact B.
Qed.
Print Assumptions C86_sod_hydrogen_refuted.
(** The rate of reaction (13) is not the published fit. *)
Theorem C86_sod_rate_refuted : exists x, sod_k12 x < detachment x.
Proof. exists 1. exact k12_wrong. Qed.
Print Assumptions C86_sod_rate_refuted.

(** ** The hypotheses can be met *)
Example C86_hypotheses_run : ranges (usual 100) /\ proper (H2_net 1 1 1 1) /\ (forall y E, weigh [1; 2] (RHS (H2_net 1 1 1 1) y E) = 0).
Proof. split; [unfold ranges, usual; cbn; lra|]. split; [apply H2_proper|intros; apply H2_net_conserves]. Qed.
(** Hydrogen in equilibrium: the step completes and the floor does not act. *)
Definition balance_net : network := H2_net 1 1 1 1.
Definition level : ccell := mkCC 1 0 0 0 0 [1; 1] 0 0 0.
Example C86_hypotheses_completes : let S y := y = [1; 1] in
  (forall y E, S y -> Forall (fun r => Rabs (r + small_ (usual 100)) <= 1) (RHS balance_net y E)) /\ (forall d y E y' E', S y -> 0 <= d -> advanced balance_net false d y E y' E' -> gentle (usual 100) balance_net d y E -> S y') /\
  S (conc level) /\ / 1000 <= INR (nsub_max (usual 100)) * (cfl_cool_sub (usual 100) * yfloor_ (usual 100) / 1).
Proof.
  cbv zeta. pose proof small_bounds as SB. assert (S1 : 0 < float_small < 1) by (split; [apply SB|apply Rlt_trans with (/ 10 ^ 30); [apply SB|lra]]). split; [|split; [|split]].
  - intros y E ->. unfold balance_net, usual. cbn [RHS H2_net H2_RHS small_]. repeat constructor; rewrite Rabs_right; lra.
  - intros d y E y' E' -> D (L & A & _) _. destruct y' as [|a [|b [|c y']]]; cbn in L; try discriminate. pose proof (A 0%nat) as A0. pose proof (A 1%nat) as A1. unfold balance_net in *. cbn [RHS H2_net H2_RHS nth] in A0, A1. subst. f_equal; [ring|f_equal; ring].
  - unfold conc, level. cbn. f_equal; [field|f_equal; field].
  - unfold usual. cbn [nsub_max cfl_cool_sub yfloor_]. rewrite INR_IZR_INZ. cbn [Z.of_nat Pos.of_succ_nat Pos.succ]. lra.
Qed.
Example C86_hypotheses_gow : fits only_cr5 /\ forall s, 0 <= GetGhostSpecies (/ 10000) (3 / 10000) (/ 10) 0 dark s.
Proof. split; apply dark_H. Qed.
