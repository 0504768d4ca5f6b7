(** The network of G14Sod, and the floor on abundances. *)
From Coq Require Import Reals List Lra Lia ZArith.
From Verif Require Import Chem_Model Chem_Spec Chem_Proofs Chem_Proofs2.
Import ListNotations.
Open Scope R_scope.

Lemma balance_all n : n <> 5%nat -> (n < length formulas)%nat -> balanced (nth n formulas (formula [] [])).
Proof.
  intros N L el. assert (C : forallb (fun n => orb (Nat.eqb n 5) (Z.eqb (atoms_in el (reactants (nth n formulas (formula [] [])))) (atoms_in el (products (nth n formulas (formula [] [])))))) (seq 0 (length formulas)) = true) by (destruct el; reflexivity).
  rewrite forallb_forall in C. specialize (C n (proj2 (in_seq _ _ _) (conj (Nat.le_0_l n) L))). apply Nat.eqb_neq in N. rewrite N in C. apply Z.eqb_eq in C. exact C.
Qed.

(** ** G14Sod *)
Definition sind (s i : ssp) : R := if ssp_eq s i then 1 else 0.
Lemma sadd_at i x f s : add ssp_eq i x f s = f s + sind s i * x.
Proof. unfold add, sind. destruct (ssp_eq s i); ring. Qed.
Definition table_net (r : row) (s : ssp) : R := b1 r * sind s (o1 r) + b2 r * sind s (o2 r) - a1 r * sind s (i1 r) - a2 r * sind s (i2 r).
Definition sspeed (k : R) (r : row) (y : ssp -> R) : R := k * y (i1 r) * y (i2 r).
Lemma clip_pos x : 0 <= clip x. Proof. unfold clip. destruct (Rlt_dec x 0); lra. Qed.
Lemma rate2_sod k a b : 0 <= a -> rate2 k a b = k * a * b.
Proof. intros A. unfold rate2. destruct (Rlt_dec a 0); [lra|reflexivity]. Qed.
Lemma sfold (y : ssp -> R) s : (forall s, 0 <= y s) -> forall l d, fold_left (sod_react y) l d s = d s + sum (map (fun p => sspeed (fst p) (snd p) y * table_net (snd p) s) l).
Proof.
  intros Y. induction l as [|[k r] l IH]; intros d; cbn [fold_left map]; [unfold sum; cbn; ring|]. rewrite IH, sum_cons. unfold sod_react. cbv zeta. rewrite !sadd_at, rate2_sod by auto. unfold sspeed, table_net. cbn [fst snd]. ring.
Qed.
Definition y0 (y : ssp -> R) : ssp -> R := fun s => clip (sod_ghost y s).
Lemma sod_sum tcgs nH k y s : sod_RHS tcgs nH k y s = tcgs * nH * sum (map (fun i => sspeed (k i) (sod_row i) (y0 y) * table_net (sod_row i) s) (seq 0 20)).
Proof. unfold sod_RHS. cbv zeta. fold (y0 y). rewrite sfold by (intros; apply clip_pos). rewrite map_map. cbn [fst snd]. ring. Qed.
Lemma sover_lin l w f (c : R) : sover l w (fun s => c * f s) = c * sover l w f.
Proof. unfold sover. induction l as [|a l IH]; unfold sum in *; cbn; [ring|]. rewrite IH. ring. Qed.
Lemma sover_sum {A} l w (g : A -> ssp -> R) : forall L, sover l w (fun s => sum (map (fun p => g p s) L)) = sum (map (fun p => sover l w (g p)) L).
Proof.
  intros L. induction l as [|s l IH].
  - unfold sover, sum. cbn. induction L as [|p L IH]; cbn; [reflexivity|]. rewrite <- IH. ring.
  - assert (E : forall f, sover (s :: l) w f = IZR (w s) * f s + sover l w f) by reflexivity. rewrite E, IH. clear IH. induction L as [|p L IH]; [unfold sum; cbn; ring|]. cbn [map]. rewrite !sum_cons, E, <- IH. ring.
Qed.
Lemma sover_ext l w f g : (forall s, f s = g s) -> sover l w f = sover l w g.
Proof. intros H. unfold sover. f_equal. apply map_ext. intros s. rewrite H. reflexivity. Qed.
Lemma sod_total tcgs nH k y w : sover sod_species w (sod_RHS tcgs nH k y) = tcgs * nH * sum (map (fun i => sspeed (k i) (sod_row i) (y0 y) * sover sod_species w (table_net (sod_row i))) (seq 0 20)).
Proof.
  rewrite (sover_ext _ _ _ (fun s => tcgs * nH * sum (map (fun i => sspeed (k i) (sod_row i) (y0 y) * table_net (sod_row i) s) (seq 0 20)))) by (intros; apply sod_sum).
  rewrite sover_lin. f_equal. rewrite (sover_sum sod_species w (fun i s => sspeed (k i) (sod_row i) (y0 y) * table_net (sod_row i) s)). f_equal. apply map_ext. intros i. apply sover_lin.
Qed.
Ltac rows := cbn [seq map sod_row nth sod_in1 sod_in2 sod_out1 sod_out2 sod_s_in1 sod_s_in2 sod_s_out1 sod_s_out2].
(** The two totals of every row. *)
Definition H_of (i : nat) : R := match i with 11%nat => 2 | 12%nat => 1 | 18%nat => - (2) | 19%nat => 1 | _ => 0 end.
Lemma row_H i : (i < 20)%nat -> sover sod_species hydrogens (table_net (sod_row i)) = H_of i.
Proof. intros H. do 20 (destruct i as [|i]; [unfold sover, sod_species, sum, table_net, sod_row, H_of; cbn; unfold sind; cbn; ring|]). lia. Qed.
Lemma row_He i : (i < 20)%nat -> sover sod_species heliums (table_net (sod_row i)) = 0.
Proof. intros H. do 20 (destruct i as [|i]; [unfold sover, sod_species, sum, table_net, sod_row; cbn; unfold sind; cbn; ring|]). lia. Qed.
Lemma sod_helium tcgs nH k y : sover sod_species heliums (sod_RHS tcgs nH k y) = 0.
Proof. rewrite sod_total. rewrite (map_ext_in _ (fun _ => 0)); [unfold sum; cbn; ring|]. intros i Hi. apply in_seq in Hi. rewrite row_He by lia. ring. Qed.
Lemma sod_hydrogen tcgs nH k y : let z := y0 y in sover sod_species hydrogens (sod_RHS tcgs nH k y) =
  tcgs * nH * (2 * (k 11%nat * z sH2 * z se) + k 12%nat * z sHM * z se - 2 * (k 18%nat * z sH2 * z sH) + k 19%nat * z sH2 * z sH).
Proof.
  cbv zeta. rewrite sod_total. f_equal. rewrite (map_ext_in _ (fun i => sspeed (k i) (sod_row i) (y0 y) * H_of i)) by (intros i Hi; apply in_seq in Hi; rewrite row_H by lia; reflexivity).
  cbn [seq map]. unfold H_of, sum. cbn [fold_right]. unfold sspeed, sod_row. cbn [nth i1 i2 sod_in1 sod_in2]. ring.
Qed.
(** The other rows do what is written beside them. *)
Definition bad (i : nat) : Prop := i = 11%nat \/ i = 12%nat \/ i = 18%nat \/ i = 19%nat.
Lemma row_formula i s : (i < 20)%nat -> ~ bad i -> s <> se -> table_net (sod_row i) s = IZR (snet (nth i sformulas ([], [])) s) /\ [i1 (sod_row i); i2 (sod_row i)] = fst (nth i sformulas ([], [])).
Proof.
  intros H B S. unfold bad in B. do 20 (destruct i as [|i]; [first [exfalso; apply B; lia|split; [unfold table_net, sod_row, snet, sind; destruct s; try contradiction; cbn; ring|reflexivity]]|]). lia.
Qed.
Lemma sod_reactions tcgs nH k y s : (forall i, bad i -> k i = 0) -> s <> se ->
  sod_RHS tcgs nH k y s = tcgs * nH * sum (map (fun i => k i * fold_right Rmult 1 (map (y0 y) (fst (nth i sformulas ([], [])))) * IZR (snet (nth i sformulas ([], [])) s)) (seq 0 20)).
Proof.
  intros B S. rewrite sod_sum. f_equal. f_equal. apply map_ext_in. intros i Hi. apply in_seq in Hi. unfold sspeed.
  assert (D : bad i \/ ~ bad i) by (unfold bad; lia). destruct D as [D|D]; [rewrite (B i D); ring|]. destruct (row_formula i s) as (E & F); [lia|auto|auto|]. rewrite <- F, E. cbn [map fold_right]. ring.
Qed.
Lemma sformulas_ok i : (i < 20)%nat -> forall w, In w [hydrogens; heliums; scharge] -> fold_right Z.add 0%Z (map w (fst (nth i sformulas ([], [])))) = fold_right Z.add 0%Z (map w (snd (nth i sformulas ([], [])))).
Proof. intros H w W. repeat (destruct W as [<-|W]; [do 20 (destruct i as [|i]; [reflexivity|]); lia|]). destruct W. Qed.
Lemma sod_neutral y : sover (sod_species ++ [se]) scharge (sod_ghost y) = 0.
Proof. unfold sover, sod_species, sum. cbn [app map fold_right scharge sod_ghost]. ring. Qed.
(** Every one of the four makes or destroys hydrogen. *)
Definition mixture (s : ssp) : R := match s with se => 0 | sHM => 1 | sHP => 4 | _ => 1 end.
Lemma sod_bad i : bad i -> sover sod_species hydrogens (sod_RHS 1 1 (fun j => if Nat.eqb j i then 1 else 0) mixture) <> 0.
Proof.
  assert (C1 : forall s, clip (sod_ghost mixture s) = sod_ghost mixture s) by (intros s; unfold clip; destruct (Rlt_dec _ 0) as [H|H]; [exfalso; destruct s; cbn [sod_ghost mixture] in H; lra|reflexivity]).
  intros B. rewrite sod_hydrogen. unfold y0. rewrite !C1. cbn [sod_ghost mixture]. destruct B as [->|[->|[->| ->]]]; cbn [Nat.eqb]; lra.
Qed.
(** *** The rate of reaction (13) *)
Lemma k12_wrong : sod_k12 1 < detachment 1.
Proof. unfold sod_k12, detachment. apply exp_increasing. lra. Qed.

(** ** The floor *)
Definition H2_net (kcr kgr nH tcgs : R) : network := mkNet (fun y _ => match y with [_; _] => H2_RHS kcr kgr nH tcgs y | _ => map (fun _ => 0) y end) (fun _ _ => 0).
Lemma H2_proper kcr kgr nH tcgs : proper (H2_net kcr kgr nH tcgs).
Proof. intros [|a [|b [|c y]]] E; cbn; rewrite ?map_length; reflexivity. Qed.
Lemma weigh_zero w : forall y : list R, weigh w (map (fun _ => 0) y) = 0.
Proof. induction w as [|a w IH]; intros [|b y]; try reflexivity. cbn [map]. rewrite weigh_cons, IH. ring. Qed.
Lemma H2_net_conserves kcr kgr nH tcgs y E : weigh [1; 2] (RHS (H2_net kcr kgr nH tcgs) y E) = 0.
Proof. cbn [RHS H2_net]. destruct y as [|a [|b [|c y]]]; try apply weigh_zero. apply H2_conserves. Qed.
Definition usual (n : nat) : pars := mkPar (/ 10) (/ 1000) float_small n 0 false false.
Definition thin : ccell := mkCC 1 0 0 0 0 [1; / 100000] 0 0 0.
Lemma small_bounds : 0 < float_small < / 10 ^ 30.
Proof. unfold float_small. split; [apply Rinv_0_lt_compat; apply pow_lt; lra|]. apply Rinv_lt_contravar; [apply Rmult_lt_0_compat; apply pow_lt; lra|]. rewrite !pow_IZR. apply IZR_lt. reflexivity. Qed.
Lemma thin_step n : exists u', Integrate_cell (usual (S n)) (H2_net (6 / 10 ^ 16) (3 / 10 ^ 17) (2 / 10 ^ 7) (10 ^ 16 / 6)) 0 5 thin = Some u' /\ weigh [1; 2] (cs thin) + / 20000 < weigh [1; 2] (cs u').
Proof.
  pose proof small_bounds as SB. assert (SB' : 0 < float_small < / 10 ^ 6). { split; [apply SB|]. apply Rlt_trans with (/ 10 ^ 30); [apply SB|]. lra. } clear SB.
  unfold Integrate_cell, thin, usual. cbn [cd cs map nonbarotropic nsub_max cm1 cm2 cm3 ce cb1 cb2 cb3 scalar_floor]. replace (1 / 1) with 1 by field. replace (/ 100000 / 1) with (/ 100000) by field.
  assert (S1 : forall fuel, subcycle (mkPar (/ 10) (/ 1000) float_small (S n) 0 false false) (H2_net (6 / 10 ^ 16) (3 / 10 ^ 17) (2 / 10 ^ 7) (10 ^ 16 / 6)) (0 + 5) (S fuel) 0 5 [1; / 100000] 0 = Some ([1 + (2 * (/ 100000 - / 10 ^ 8)) * 5; / 100000 + (/ 10 ^ 8 - / 100000) * 5], 0)).
  { intros fuel. cbn [subcycle]. destruct (Rlt_dec 0 (0 + 5)); [|lra]. cbn [nonbarotropic RHS H2_net H2_RHS cfl_cool_sub small_ yfloor_].
    replace ((- (2) * (3 / 10 ^ 17 * (2 / 10 ^ 7) * 1) + 2 * (6 / 10 ^ 16 * / 100000)) * (10 ^ 16 / 6)) with (2 * (/ 100000 - / 10 ^ 8)) by (field).
    replace ((3 / 10 ^ 17 * (2 / 10 ^ 7) * 1 - 6 / 10 ^ 16 * / 100000) * (10 ^ 16 / 6)) with (/ 10 ^ 8 - / 100000) by field.
    assert (T : substep (/ 10) (GetChemTime false float_small (/ 1000) [1; / 100000] [2 * (/ 100000 - / 10 ^ 8); / 10 ^ 8 - / 100000] 0 0) 5 = 5).
    { unfold GetChemTime. cbn [combine fold_left fst snd min_time]. unfold timescale. destruct (Req_EM_T (2 * (/ 100000 - / 10 ^ 8) + float_small) 0) as [Z|Z]; [lra|]. destruct (Req_EM_T (/ 10 ^ 8 - / 100000 + float_small) 0) as [Z'|Z']; [lra|]. cbn [min_time substep].
      apply Rmin_right. unfold yf. rewrite (Rmax_left 1), (Rmax_right (/ 100000)) by lra.
      assert (A1 : 50 <= Rabs (1 / (2 * (/ 100000 - / 10 ^ 8) + float_small))). { rewrite Rabs_right by (apply Rle_ge; left; apply Rdiv_lt_0_compat; lra). apply Rmult_le_reg_r with (2 * (/ 100000 - / 10 ^ 8) + float_small); [lra|]. unfold Rdiv. rewrite Rmult_assoc, Rinv_l by lra. lra. }
      assert (A2 : 50 <= Rabs (/ 1000 / (/ 10 ^ 8 - / 100000 + float_small))). { unfold Rdiv. rewrite Rabs_mult, (Rabs_right (/ 1000)) by lra. rewrite Rabs_inv. rewrite (Rabs_left (_ + _)) by lra. apply Rmult_le_reg_r with (- (/ 10 ^ 8 - / 100000 + float_small)); [lra|]. rewrite Rmult_assoc, Rinv_l by lra. lra. }
      pose proof (Rmin_glb _ _ _ A1 A2). lra. }
    rewrite T. unfold IntegrateOneSubstep. cbn [combine map fst snd]. destruct fuel; cbn [subcycle]; (destruct (Rlt_dec (0 + 5) (0 + 5)); [lra|]); reflexivity. }
  rewrite S1. eexists. split; [reflexivity|]. cbn [cs map]. rewrite !weigh_cons, !weigh_nil. destruct (Rlt_dec (1 + _) 0); [lra|]. destruct (Rlt_dec (/ 100000 + _) 0); [|lra]. lra.
Qed.
