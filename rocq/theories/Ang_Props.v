(** C79: the angular grids of the radiation module. *)
From Coq Require Import Reals List Bool Arith Lra Lia.
From Verif Require Import Lud_Model Lud_Spec Ang_Model Ang_Spec Ang_Proofs Ang_Proofs2 Ang_Proofs3.
Import ListNotations.
Local Open Scope R_scope.

Lemma octant_weights_ok nmu indx0 : (2 <= nmu <= 6)%nat -> exists w, octant_weights nmu indx0 = Some w /\ octant_ok nmu w.
Proof. intros H. assert (C : nmu = 2%nat \/ nmu = 3%nat \/ nmu = 4%nat \/ nmu = 5%nat \/ nmu = 6%nat) by lia. destruct C as [->|[->|[->|[->| ->]]]]; [apply weights_2|apply weights_3|apply weights_4|apply weights_5|apply weights_6]. Qed.
(** angle_flag 0 with two to six levels in three dimensions: unit vectors, weights that sum to one, no flux and an isotropic pressure for an isotropic intensity. *)
Theorem C79_octants : forall nmu indx0, (2 <= nmu <= 6)%nat -> exists l, AngularGrid3 nmu indx0 = Some l /\ isotropic l.
Proof.
  intros nmu ix H. destruct (octant_weights_ok nmu ix H) as [w [E [S M]]]. unfold AngularGrid3. rewrite E. eexists. split; [reflexivity|]. apply isotropic_from; auto; try lia; apply M; lia.
Qed.
Print Assumptions C79_octants.
Theorem C79_quadrants : forall nmu indx0, (2 <= nmu <= 6)%nat -> exists l, AngularGrid2 nmu indx0 = Some l /\ isotropic2 l.
Proof.
  intros nmu ix H. destruct (octant_weights_ok nmu ix H) as [w [E [S M]]]. unfold AngularGrid2. rewrite E. eexists. split; [reflexivity|]. apply isotropic2_from; auto; try lia; apply M; lia.
Qed.
Print Assumptions C79_quadrants.
(** For every number of levels the directions themselves are unit vectors. *)
Theorem C79_unit : forall nmu i j k, (1 <= nmu)%nat -> (i + j + k = nmu - 1)%nat -> let m n := sqrt (mu2tmp nmu n) in m i * m i + m j * m j + m k * m k = 1.
Proof.
  intros nmu i j k H E. cbv beta zeta. rewrite !sqrt_sqrt by (apply Rlt_le, mu2_pos; auto). rewrite (mu2_closed nmu i), (mu2_closed nmu j), (mu2_closed nmu k).
  assert (S : INR i + INR j + INR k = INR nmu - 1) by (rewrite <- !plus_INR, E; rewrite minus_INR by lia; simpl; ring).
  assert (E' : INR (2 * nmu - 1) = 2 * INR nmu - 1) by (rewrite minus_INR, mult_INR by lia; simpl; ring). pose proof (odd_pos nmu H) as P.
  transitivity (3 * mu2tmp nmu 0 + (INR i + INR j + INR k) * deltamu nmu); [ring|]. rewrite S. cbn [mu2tmp]. unfold deltamu. rewrite E' in *. field. lra.
Qed.
Print Assumptions C79_unit.
(** angle_flag 1 in three dimensions, any number of angles with an even product. *)
Theorem C79_psi : forall nzeta npsi, (1 <= nzeta)%nat -> (2 <= npsi)%nat -> Nat.Even (nzeta * npsi) -> exists l, AngularGridPsi nzeta npsi = Some l /\ isotropic l /\ length l = nang3 nzeta npsi.
Proof. intros. apply psi_isotropic; auto. Qed.
Print Assumptions C79_psi.
(** Findings.  With seven levels there are seven families of directions for six weights, with one level an array without entries is written to: nothing checks the input parameter. *)
Theorem C79_levels_refuted : forall indx0, AngularGrid3 7 indx0 = None /\ AngularGrid3 1 indx0 = None.
Proof.
  intros ix. split; unfold AngularGrid3, octant_weights; [|reflexivity]. pose proof (families_labels (triples 7)) as F. unfold families. change (7 <? 2)%nat with false. cbv iota. destruct (fold_left family (triples 7) _) as [[pl ls] m]. destruct F as [F _].
  assert (L : labels 7 = ls) by (unfold labels; rewrite F; reflexivity). replace (forallb (fun l => (l <? 7 - 1)%nat) ls) with false; auto. rewrite <- L. reflexivity.
Qed.
Print Assumptions C79_levels_refuted.
(** With an odd product of the numbers of angles the array of directions is allocated too small. *)
Theorem C79_psi_refuted : forall nzeta npsi, Nat.Odd (nzeta * npsi) -> AngularGridPsi nzeta npsi = None.
Proof.
  intros nz np [e E]. unfold AngularGridPsi. destruct (Nat.leb_spec (2 * nz * (2 * np)) (nang3 nz np)) as [L|]; auto. exfalso. unfold nang3 in L. rewrite E in L.
  assert (D : ((2 * e + 1) / 2 = e)%nat). { symmetry. apply Nat.div_unique with 1%nat; lia. } rewrite D in L. nia.
Qed.
Print Assumptions C79_psi_refuted.
(** Neither kind of hypothesis is empty, and the sets are not trivial: 8 * 10 directions with four levels, 16 with two angles each. *)
Example C79_witness : length (triples 4) = 10%nat /\ Nat.Even (2 * 2) /\ nang3 2 2 = 16%nat /\ Nat.Odd (3 * 3).
Proof. repeat split. - exists 2%nat. reflexivity. - exists 4%nat. reflexivity. Qed.
