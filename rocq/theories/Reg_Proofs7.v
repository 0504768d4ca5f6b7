(** Uniform Cartesian meshes. *)
From Coq Require Import List Arith ZArith Bool Reals Lia Lra.
From Verif Require Import Loc LB_Spec AMR_Model AMR_Spec AMR_Proofs AMR_Proofs2 Tree_Model Tree_Spec Nbr_Model Nbr_Spec Buf_Model Fv_Model Fv_Spec Fv_Proofs Fv_Proofs2 Gho_Model Gho_Spec Gho_Proofs Con_Model Con_Spec Fgh_Model2 Reg_Model Reg_Spec Reg_Proofs Reg_Proofs2 Reg_Proofs3 Reg_Proofs4 Reg_Proofs5 Reg_Proofs6.
From Verif Require Ref_Model Ref_Spec Ref_Proofs Ref_Proofs2 Ref_Proofs4 Ref_Props.
Import ListNotations.
Local Open Scope Z_scope.

Section U.
Variables (g : grid) (B : bsz) (dx : nat -> R).
Hypothesis D1 : (1 <= gdim g <= 3)%nat.
Hypothesis RB : refinable (gdim g) B.
Hypothesis Hdx : forall d, (d < 3)%nat -> (0 < dx d)%R.
Lemma two_pow : forall n, (0 < 2 ^ n)%R. Proof using. clear. intros n. apply pow_lt. lra. Qed.
Lemma length_pos : forall lev d, (d < 3)%nat -> (0 < cell_length g dx lev d)%R.
Proof using Hdx. clear D1 RB. intros lev d Hd. unfold cell_length. pose proof (Hdx d Hd). destruct (Nat.ltb d (gdim g)); [apply Rdiv_lt_0_compat; [assumption|apply two_pow]|assumption]. Qed.
Lemma length_half : forall lev d, (groot g <= lev)%nat -> cell_length g dx lev d = if Nat.ltb d (gdim g) then (2 * cell_length g dx (S lev) d)%R else cell_length g dx (S lev) d.
Proof using. clear. intros lev d HL. unfold cell_length. destruct (Nat.ltb d (gdim g)); [|reflexivity]. replace (S lev - groot g)%nat with (S (lev - groot g)) by lia. cbn [pow]. pose proof (two_pow (lev - groot g)). field. lra. Qed.
Lemma uniform_volumes : forall old new, (forall l, In l old \/ In l new -> (groot g <= level l)%nat) -> volumes_add (gdim g) B (fun l => V (uniform g dx l)) old new.
Proof using D1 RB Hdx.
  intros old new HL l b q HO Hb Hq. assert (Ll : (groot g <= level l)%nat) by (apply HL; tauto). apply in_map_iff in Hb. destruct Hb as (j & <- & _). split.
  - intros p _. destruct p as [[k j'] i]. cbn. pose proof (length_pos (level (child l j)) 0 ltac:(lia)). pose proof (length_pos (level (child l j)) 1 ltac:(lia)). pose proof (length_pos (level (child l j)) 2 ltac:(lia)). apply Rmult_lt_0_compat; [apply Rmult_lt_0_compat|]; assumption.
  - destruct q as [[k j'] i].
    assert (N2 : nx2 (block_dims B) = nx_ B 1 /\ nx3 (block_dims B) = nx_ B 2) by (unfold nx2, nx3, block_dims; cbn [Fv_Model.is_ ie js je ks ke]; destruct (dir_facts (gdim g) B D1 RB 1%nat ltac:(lia)) as [F|F], (dir_facts (gdim g) B D1 RB 2%nat ltac:(lia)) as [F'|F']; lia).
    destruct N2 as [N2 N3]. unfold in_parent, Fv_Spec.at_, uniform. cbn [V]. unfold Ref_Spec.cells, Ref_Spec.duo. rewrite N2, N3, child_level, !(length_half (level l)) by exact Ll.
    assert (E0 : Nat.ltb 0 (gdim g) = true) by (apply Nat.ltb_lt; lia).
    assert (E1 : Nat.ltb 1 (gdim g) = Z.ltb 1 (nx_ B 1)) by (destruct (dir_facts (gdim g) B D1 RB 1%nat ltac:(lia)) as [F|F]; destruct (Nat.ltb_spec 1 (gdim g)), (Z.ltb_spec 1 (nx_ B 1)); lia || reflexivity).
    assert (E2 : Nat.ltb 2 (gdim g) = Z.ltb 1 (nx_ B 2)) by (destruct (dir_facts (gdim g) B D1 RB 2%nat ltac:(lia)) as [F|F]; destruct (Nat.ltb_spec 2 (gdim g)), (Z.ltb_spec 1 (nx_ B 2)); lia || reflexivity).
    rewrite E0, E1, E2. unfold Ref_Spec.two, Ref_Spec.combine3. destruct (Z.ltb 1 (nx_ B 1)), (Z.ltb 1 (nx_ B 2)); cbn [flat_map map app Fv_Spec.sum fold_right]; lra.
Qed.
Lemma uniform_centred : forall l xc xf, uniform_positions B xc xf -> centred B (V (uniform g dx l)) xc xf.
Proof using.
  clear. intros l xc xf (E1 & E2 & E3). exists (fun _ => 1%R), (fun _ => 1%R), (fun _ => V (uniform g dx l) 0 0 0). split; [intros k j i; unfold uniform; cbn [V]; lra|]. intros q _. split; [apply Ref_Proofs4.even_centroid1, E1|]. split; intros _; [apply Ref_Proofs4.even_centroid1, E2|apply Ref_Proofs4.even_centroid; [exact E3|reflexivity]].
Qed.
Lemma uniform_spaced : forall xc xf, uniform_positions B xc xf -> well_spaced B xc xf.
Proof using.
  clear. intros xc xf (E1 & E2 & E3) [[k j] i] _. split; [split; [|split]; eapply Ref_Proofs4.even_spaced; eassumption|split; [|split]; apply Ref_Proofs4.even_third; assumption].
Qed.
End U.
