(** Which cells a new block's values depend on; bounds; independence of the distribution over ranks. *)
From Coq Require Import List Arith ZArith Bool Reals Lia Lra.
From Verif Require Import Loc LB_Spec AMR_Model AMR_Spec AMR_Proofs Tree_Model Tree_Spec Nbr_Model Nbr_Spec Buf_Model Fv_Model Fv_Spec Fv_Proofs Fv_Proofs2 Gho_Model Gho_Spec Gho_Proofs Con_Model Fgh_Model2 Reg_Model Reg_Spec Reg_Proofs Reg_Proofs2 Reg_Proofs3 Reg_Proofs4.
From Verif Require Ref_Model Ref_Spec Ref_Proofs Ref_Proofs2 Ref_Props.
Import ListNotations.
Local Open Scope Z_scope.

Section Ref.
Import Ref_Model Ref_Spec Ref_Proofs Ref_Proofs2.
Lemma restrict_val : forall d c v fine b coarse q, layout d c -> in_box d c b q -> at_ (RestrictCC d c v fine b coarse) q = (sum (map (fun p => at_ v p * at_ fine p) (cells d c q)) / sum (map (at_ v) (cells d c q)))%R.
Proof.
  intros d c v fine b coarse [[ck cj] ci] L B. unfold in_box in B. dims3 L; cbn [at_]; unfold RestrictCC, cells, combine3, duo, two in *; cbv zeta; nxs.
  + rewrite (ltb1 _ D2), (ltb1 _ D3) in B. rewrite !within_true by lia. cbn [andb flat_map map app at_]. rewrite !sum_cons, !sum_nil, fI_eq, fJ_eq, fK_eq. f_equal; ring.
  + rewrite (ltb1 _ D2), (ltb0 _ D3) in B. rewrite !within_true by lia. destruct B as [_ [_ ->]]. rewrite L3, L3'. cbn [andb flat_map map app at_ Z.eqb]. rewrite !sum_cons, !sum_nil, fI_eq, fJ_eq. f_equal; ring.
  + rewrite (ltb0 _ D2), (ltb0 _ D3) in B. rewrite !within_true by lia. destruct B as [_ [-> ->]]. rewrite !Z.eqb_refl. cbn [andb flat_map map app at_]. rewrite !sum_cons, !sum_nil, fI_eq. f_equal; ring.
Qed.
End Ref.

Section Dirs.
Variables (dim : nat) (B : bsz).
Hypothesis D1 : (1 <= dim <= 3)%nat.
Hypothesis RB : refinable dim B.
Definition pt_of (x : cell) : Ref_Spec.pt := (x 2%nat, x 1%nat, x 0%nat).
(** Every own cell of a parent is a coarse cell of one of its children. *)
Lemma cover_parent : forall l (x : cell), flat_loc dim l -> (forall d, (d < 3)%nat -> s_ B d <= x d <= e_ B d) -> exists j q, (j < nleaf dim)%nat /\ coarse_own B dim q /\ pt_of x = in_parent B dim (child l j) q.
Proof using D1 RB.
  intros l x HF Hx.
  assert (HD : forall d, (d < 3)%nat -> exists b, In b (bits dim d) /\ cs_ B d <= x d - b * (nx_ B d / 2) <= ce_ B d).
  { intros d Hd. specialize (Hx d Hd). unfold bits. destruct (dir_facts dim B D1 RB d Hd) as [F|F].
    - destruct F as (L & A1 & F1 & F2 & F3 & F4 & F5 & F6 & F7 & _). rewrite (proj2 (Nat.ltb_lt _ _) L). destruct (Z_lt_le_dec (x d) (ng B + nx_ B d / 2)); [exists 0|exists 1]; cbn [In]; split; auto; lia.
    - destruct F as (L & A1 & F1 & F2 & F3 & F4 & F5 & F6 & F7 & _). rewrite (proj2 (Nat.ltb_ge _ _) L). exists 0. cbn [In]. split; auto. lia. }
  destruct (HD 0%nat ltac:(lia)) as (b1 & I1 & R1). destruct (HD 1%nat ltac:(lia)) as (b2 & I2 & R2). destruct (HD 2%nat ltac:(lia)) as (b3 & I3 & R3).
  destruct (bits_child dim B D1 RB l b1 b2 b3 I1 I2 I3) as (J & O0 & O1 & O2).
  exists (Z.to_nat (b1 + 2 * b2 + 4 * b3)), (x 2%nat - b3 * (nx_ B 2 / 2), x 1%nat - b2 * (nx_ B 1 / 2), x 0%nat - b1 * (nx_ B 0 / 2)). split; [exact J|]. split.
  - apply (coarse_own_rng dim B D1 RB). auto.
  - unfold in_parent, pt_of. unfold off in O0, O1, O2. rewrite O0, O1, O2. f_equal; [f_equal|]; lia.
Qed.
(** Every own cell lies in a coarse cell. *)
Lemma cover_cells : forall (x : cell), (forall d, (d < 3)%nat -> s_ B d <= x d <= e_ B d) -> exists q, coarse_own B dim q /\ In (pt_of x) (Ref_Spec.cells (block_dims B) (coarse_offs B) q).
Proof using D1 RB.
  intros x Hx.
  assert (HD : forall d, (d < 3)%nat -> exists y, cs_ B d <= y <= ce_ B d /\ In (x d) (Ref_Spec.duo (nx_ B d) (s_ B d) (cs_ B d) y)).
  { intros d Hd. specialize (Hx d Hd). unfold Ref_Spec.duo, Ref_Spec.two. destruct (dir_facts dim B D1 RB d Hd) as [F|F].
    - destruct F as (L & A1 & F1 & F2 & F3 & F4 & F5 & F6 & F7 & _). rewrite (proj2 (Z.ltb_lt 1 (nx_ B d))) by lia. exists (ng B + (x d - ng B) / 2).
      pose proof (Z.div_mod (x d - ng B) 2 ltac:(lia)) as E. pose proof (Z.mod_pos_bound (x d - ng B) 2 ltac:(lia)) as M. cbn [In]. rewrite F2, F4, F5. split; [lia|]. destruct (Z.eq_dec ((x d - ng B) mod 2) 0); [left|right; left]; lia.
    - destruct F as (L & A1 & F1 & F2 & F3 & F4 & F5 & F6 & F7 & _). rewrite F6. change (Z.ltb 1 1) with false. exists 0. cbn [In]. lia. }
  destruct (HD 0%nat ltac:(lia)) as (i & Ri & Hi). destruct (HD 1%nat ltac:(lia)) as (j & Rj & Hj). destruct (HD 2%nat ltac:(lia)) as (k & Rk & Hk).
  exists (k, j, i). split; [apply (coarse_own_rng dim B D1 RB); auto|]. unfold Ref_Spec.cells, pt_of. apply Ref_Proofs.in_combine. unfold nx3, nx2, block_dims, coarse_offs. cbn [Fv_Model.is_ ie js je ks ke Ref_Model.cis Ref_Model.cjs Ref_Model.cks].
  assert (E : forall d, (d < 3)%nat -> (e_ B d - s_ B d + 1)%Z = nx_ B d) by (intros d Hd; destruct (dir_facts dim B D1 RB d Hd) as [F|F]; lia).
  rewrite (E 2%nat), (E 1%nat) by lia. split; [exact Hk|]. split; [exact Hj|]. unfold Ref_Spec.duo in Hi. rewrite (proj2 (Z.ltb_lt 1 (nx_ B 0))) in Hi; [exact Hi|]. destruct (dir_facts dim B D1 RB 0%nat ltac:(lia)) as [F|F]; lia.
Qed.
Lemma cells_own : forall q p, coarse_own B dim q -> In p (Ref_Spec.cells (block_dims B) (coarse_offs B) q) -> forall d, (d < 3)%nat -> s_ B d <= idx p d <= e_ B d.
Proof using D1 RB.
  intros [[k j] i] [[fk fj] fi] Hq Hp. apply (coarse_own_rng dim B D1 RB) in Hq as (H2 & H1 & H0). unfold Ref_Spec.cells in Hp. apply Ref_Proofs.in_combine in Hp as (P2 & P1 & P0). unfold nx3, nx2, block_dims, coarse_offs in *. cbn [Fv_Model.is_ ie js je ks ke Ref_Model.cis Ref_Model.cjs Ref_Model.cks] in *.
  assert (E : forall d y x, (d < 3)%nat -> cs_ B d <= y <= ce_ B d -> In x (Ref_Spec.duo (e_ B d - s_ B d + 1) (s_ B d) (cs_ B d) y) -> s_ B d <= x <= e_ B d).
  { intros d y x Hd Hy. unfold Ref_Spec.duo, Ref_Spec.two. destruct (dir_facts dim B D1 RB d Hd) as [F|F]; destruct (Z.ltb_spec 1 (e_ B d - s_ B d + 1)); cbn [In]; lia. }
  intros d Hd. destruct d as [|[|[|d]]]; cbn [idx]; [|apply (E 1%nat _ _ ltac:(lia) H1 P1)|apply (E 2%nat _ _ ltac:(lia) H2 P2)|lia].
  apply (E 0%nat i fi ltac:(lia) H0). unfold Ref_Spec.duo. destruct (Z.ltb_spec 1 (e_ B 0 - s_ B 0 + 1)); [exact P0|]. destruct (dir_facts dim B D1 RB 0%nat ltac:(lia)) as [F|F]; lia.
Qed.
(** The prolongation reads the coarse cell and its neighbours. *)
Lemma prolong_local : forall xc xf u u' v v' q p, coarse_own B dim q -> In p (Ref_Spec.cells (block_dims B) (coarse_offs B) q) ->
  (forall k j i, (forall d, (d < 3)%nat -> cs_ B d - fdim B d <= idx (k, j, i) d <= ce_ B d + fdim B d) -> u k j i = u' k j i) ->
  at_ (Ref_Model.ProlongateCC (block_dims B) (coarse_offs B) xc xf (coarse_box B 3) u v) p = at_ (Ref_Model.ProlongateCC (block_dims B) (coarse_offs B) xc xf (coarse_box B 3) u' v') p.
Proof using D1 RB.
  intros xc xf u u' v v' [[k j] i] [[fk fj] fi] Hq Hp HU. cbn [at_].
  rewrite !(Ref_Proofs2.prolong_val _ _ _ _ _ _ _ _ _ _ _ (layout_block dim B D1 RB) (box_own dim B D1 RB _ Hq) Hp).
  apply (coarse_own_rng dim B D1 RB) in Hq as (H2 & H1 & H0).
  assert (HV : forall k' j' i', cs_ B 2 - fdim B 2 <= k' <= ce_ B 2 + fdim B 2 -> cs_ B 1 - fdim B 1 <= j' <= ce_ B 1 + fdim B 1 -> cs_ B 0 - fdim B 0 <= i' <= ce_ B 0 + fdim B 0 -> u k' j' i' = u' k' j' i').
  { intros k' j' i' K J I. apply HU. intros d Hd. destruct d as [|[|[|d]]]; cbn [idx]; try assumption; lia. }
  assert (Q : forall d, (d < 3)%nat -> 0 <= fdim B d) by (intros d _; unfold fdim; destruct (actv B d); lia).
  pose proof (Q 0%nat ltac:(lia)). pose proof (Q 1%nat ltac:(lia)). pose proof (Q 2%nat ltac:(lia)).
  assert (F0 : fdim B 0 = 1) by reflexivity.
  assert (N2 : nx2 (block_dims B) = nx_ B 1 /\ nx3 (block_dims B) = nx_ B 2) by (unfold nx2, nx3, block_dims; cbn [Fv_Model.is_ ie js je ks ke]; destruct (dir_facts dim B D1 RB 1%nat ltac:(lia)) as [F|F], (dir_facts dim B D1 RB 2%nat ltac:(lia)) as [F'|F']; lia).
  destruct N2 as [N2 N3]. rewrite N2, N3.
  assert (F1 : Z.ltb 1 (nx_ B 1) = true -> fdim B 1 = 1) by (intros E; apply Z.ltb_lt in E; destruct (dir_facts dim B D1 RB 1%nat ltac:(lia)) as [F|F]; lia).
  assert (F2 : Z.ltb 1 (nx_ B 2) = true -> fdim B 2 = 1) by (intros E; apply Z.ltb_lt in E; destruct (dir_facts dim B D1 RB 2%nat ltac:(lia)) as [F|F]; lia).
  unfold Ref_Proofs2.e1, Ref_Proofs2.e2, Ref_Proofs2.e3. unfold Ref_Model.d1, Ref_Model.d2, Ref_Model.d3. cbn [at_].
  destruct (Z.ltb 1 (nx_ B 1)) eqn:L1, (Z.ltb 1 (nx_ B 2)) eqn:L2; rewrite ?(HV k j i), ?(HV k j (i - 1)), ?(HV k j (i + 1)) by lia; try specialize (F1 eq_refl); try specialize (F2 eq_refl); rewrite ?(HV k (j - 1) i), ?(HV k (j + 1) i), ?(HV (k - 1) j i), ?(HV (k + 1) j i) by lia; reflexivity.
Qed.
End Dirs.
