(** Runs on an adaptive mesh. *)
From Coq Require Import List Arith ZArith Bool Permutation Reals Lia Lra.
From Verif Require Import Fv_Model Fv_Spec Fv_Proofs Fv_Proofs2 Loc LB_Spec AMR_Model AMR_Spec AMR_Proofs AMR_Proofs2 Tree_Model Tree_Spec Tree_Proofs1 Tree_Proofs2 Tree_Proofs4 Tree_Proofs9 Tree_Proofs10 Tree_Props Nbr_Model Nbr_Spec Buf_Model Gho_Model Gho_Spec Gho_Proofs Gho_Proofs3 Con_Model Con_Spec Con_Props Fgh_Model2 Reg_Model Reg_Spec Reg_Spec2 Reg_Proofs Reg_Proofs2 Reg_Proofs3 Reg_Proofs4 Reg_Proofs5 Reg_Proofs6 Reg_Proofs7.
From Verif Require Ref_Model Ref_Spec.
Import ListNotations.
Local Open Scope Z_scope.

Lemma renumbered_blocks : forall t, blocks (renumbered t) = blocks t.
Proof.
  intros t. unfold blocks, renumbered, GetMeshBlockList. cbn [fst snd]. rewrite (proj1 (renumber_leaves _ _ _)), <- (count_leaves t rootloc). generalize (leaves t rootloc). intros ls.
  assert (G : forall n, map fst (combine (map fst ls) (map Z.of_nat (seq n (length ls)))) = map fst ls); [|apply G]. induction ls as [|x ls IH]; intros n; [reflexivity|]. cbn [map combine seq length fst]. f_equal. apply IH.
Qed.
Lemma levels_root : forall g, valid_grid g -> forall t, history g t -> forall l, In l (blocks t) -> (groot g <= level l)%nat.
Proof. intros g Vg t H l Hl. apply (in_dom g t (hist_wf g Vg t H) l Hl). Qed.
Lemma content_numbers : forall B G ls (u : nat -> Fv_Model.arr) (W : loc -> Fv_Model.arr), (forall n l, nth_error ls n = Some l -> forall k j i, is_active (block_dims B) k j i -> u n k j i = W l k j i) ->
  total_of B (fun l => V (G l)) ls u = content B ls G W.
Proof.
  intros B G ls u W H. unfold total_of, content.
  assert (K : forall (f : nat -> R) (h : loc -> R) ls, (forall n l, nth_error ls n = Some l -> f n = h l) -> sum (map f (seq 0 (length ls))) = sum (map h ls)).
  { clear. intros f h ls. revert f. induction ls as [|x ls IH]; intros f HK; [reflexivity|]. cbn [length seq map]. unfold sum. cbn [fold_right]. fold (sum (map h ls)). rewrite (HK 0%nat x eq_refl). f_equal. rewrite <- seq_shift, map_map. apply (IH (fun n => f (S n))). intros n l Hn. apply (HK (S n) l Hn). }
  apply K. intros n l Hn. rewrite (locs_at_nth _ _ _ Hn). unfold total. apply sum3_ext. intros k j i A. rewrite (H n l Hn k j i A). reflexivity.
Qed.
Lemma content_ext : forall B G ls (u v : loc -> Fv_Model.arr), (forall l, In l ls -> forall k j i, is_active (block_dims B) k j i -> u l k j i = v l k j i) -> content B ls G u = content B ls G v.
Proof. intros B G ls u v H. unfold content. apply sum_ext. intros l Hl. unfold total. apply sum3_ext. intros k j i A. rewrite (H l Hl k j i A). reflexivity. Qed.
Lemma content_lin : forall B G ls w (o a b c e : loc -> Fv_Model.arr), content B ls G (fun l => WeightedAve_cc (block_dims B) w (o l) (a l) (b l) (c l) (e l)) =
  (w0 w * content B ls G o + w1 w * content B ls G a + w2 w * content B ls G b + w3 w * content B ls G c + w4 w * content B ls G e)%R.
Proof.
  intros B G ls w o a b c e. unfold content. induction ls as [|x ls IH]; cbn [map]; [unfold sum; cbn [fold_right]; ring|]. unfold sum in *. cbn [fold_right]. rewrite IH, average_total. ring.
Qed.
Lemma fit_refinable : forall g B, fitting g B true -> refinable (gdim g) B.
Proof. intros g B (N & H & E). split; [exact N|]. intros d Hd. split; intros Hg; [split; [apply (H d Hd), Hg|apply (proj2 (E eq_refl) d Hg)]|apply (H d Hd), Hg]. Qed.

Section Run.
Variables (g : grid) (B : bsz) (nl nu m : Z) (dx : nat -> R) (xc xf : loc -> Ref_Model.pos).
Hypothesis Vg : valid_grid g.
Hypothesis NP : no_pole g.
Hypothesis NS : no_shear g.
Hypothesis Per : forall d o, (d < gdim g)%nat -> gbc g d o = BPeriodic.
Hypothesis FT : fitting g B true.
Hypothesis Hm : nl <= m <= nu.
Hypothesis Hdx : forall d, (d < 3)%nat -> (0 < dx d)%R.
Hypothesis Pos : forall b, uniform_positions B (xc b) (xf b).
Notation G := (uniform g dx).
Definition holds (T : R) (st : run_state) : Prop := history g (mesh st) /\ forall s, live st s = true -> content B (blocks (mesh st)) G (fun a => regs st s a m) = T.
Lemma content_eq : forall ls (u v : loc -> Fv_Model.arr), (forall l, In l ls -> u l = v l) -> content B ls G u = content B ls G v.
Proof using. intros ls u v H. apply content_ext. intros l Hl k j i _. rewrite (H l Hl). reflexivity. Qed.
Lemma act_own : forall k j i, is_active (block_dims B) k j i -> own B (gdim g) false (fun d => match d with 0%nat => i | 1%nat => j | _ => k end).
Proof using Vg FT.
  clear Per NP NS Hm Hdx. intros k j i A d Hd. pose proof (fit_refinable g B FT) as RB. assert (D1 : (1 <= gdim g <= 3)%nat) by apply Vg. unfold is_active, block_dims in A. cbn [Fv_Model.is_ ie js je ks ke] in A.
  pose proof (dir_facts (gdim g) B D1 RB d Hd) as F. destruct d as [|[|[|d]]]; [| | |lia]; destruct F as [F|F]; unfold facts in F; lia.
Qed.
Lemma step_holds : forall T st st', adaptive_step g B nl nu m G xc xf st st' -> holds T st -> holds T st'.
Proof using Vg NP NS Per FT Hm Hdx Pos.
  intros T st st' HS [H HT]. destruct HS as [t U U' L r F F' es w Lr FA FO HF HU|t U U' L r i1 i2 i3 i4 w W1 Lr L1 L2 L3 L4 HU|t U U' L r i Li HU|t U U' L HU|t0 U U' L fr fd t' nnew ndel nr a C fresh freshc Hf L0 t Hu Ed Eo En Ei P1 P2 HU]; cbn [mesh regs live] in *.
  - split; [exact H|]. cbn [mesh regs live]. intros s Ls. rewrite (content_eq _ _ (fun a => if Nat.eqb s r then AddFluxDivergence (block_dims B) (G a) (F' a) w (U s a m) else U s a m)) by (intros l Hl; apply HU, Hl).
    destruct (Nat.eqb s r) eqn:E; [|apply HT, Ls]. destruct (C72_periodic g Vg NP NS Per t H true ltac:(intros X; discriminate X) B FT G F (C72_uniform_geometry g Vg t H true ltac:(intros X; discriminate X) B FT dx Hdx) FA es FO) as (F2 & HF2 & HC).
    rewrite <- (HT s Ls), <- (HC (fun a => U s a m) w). apply content_eq. intros l Hl. pose proof (HF l Hl) as E1. rewrite (HF2 l Hl) in E1. injection E1 as ->. reflexivity.
  - split; [exact H|]. cbn [mesh regs live]. intros s Ls. rewrite (content_eq _ _ (fun a => if Nat.eqb s r then WeightedAve_cc (block_dims B) w (U s a m) (U i1 a m) (U i2 a m) (U i3 a m) (U i4 a m) else U s a m)) by (intros l Hl; apply HU, Hl).
    destruct (Nat.eqb s r) eqn:E; [|apply HT, Ls]. rewrite content_lin, !HT by assumption. unfold weights_sum in W1. rewrite <- (Rmult_1_l T) at 6. rewrite <- W1. ring.
  - split; [exact H|]. cbn [mesh regs live]. intros s Ls. rewrite (content_eq _ _ (fun a => if Nat.eqb s r then U i a m else U s a m)) by (intros l Hl; apply HU, Hl). destruct (Nat.eqb s r); apply HT; assumption.
  - split; [exact H|]. cbn [mesh regs live]. intros s Ls. rewrite <- (HT s Ls). apply content_ext. intros l Hl k j i A. apply (HU s l _ Hl (act_own k j i A)).
  - pose proof (h_number g t0 H) as Ht. fold t in Ht. assert (H' : history g t') by (apply (h_update g t fr fd t' nnew ndel Ht Hf Hu)). split; [exact H'|]. cbn [mesh regs live]. intros s Ls. apply Nat.eqb_eq in Ls. subst s.
    destruct (C18_steps_are_redistributions g Vg NP t0 fr fd t' nnew ndel H Hf Hu nr a Ed Eo En Ei P1 P2) as (ps & RD). assert (D1 : (1 <= a_dim a <= 3)%nat) by apply RD. pose proof (fit_refinable g B FT) as RB. rewrite <- Ed in RB.
    rewrite <- (HT 0%nat L0), <- (renumbered_blocks t0). fold t. rewrite <- Eo, <- En.
    rewrite <- (content_numbers B G (newloc a) (fun n => NewBlock B nl nu (fun l => V (G l)) xc xf a (fun o => U 0%nat (locs_at (blocks t) o)) C fresh freshc n m)) by (intros n l Hn k j i _; rewrite En in Hn; rewrite (HU n l Hn); reflexivity).
    rewrite (regrid_total B nl nu (fun l => V (G l)) xc xf a _ C fresh freshc D1 RB nr ps RD); [|rewrite Ed; apply (uniform_volumes g B dx ltac:(rewrite <- Ed; exact D1) ltac:(rewrite <- Ed; exact RB) Hdx); intros l Hl; rewrite Eo, En in Hl; destruct Hl as [Hl|Hl]; [apply (levels_root g Vg t Ht l Hl)|apply (levels_root g Vg t' H' l Hl)]|exact Hm|intros b _; apply uniform_centred, Pos].
    apply content_numbers. intros n l Hn k j i _. rewrite <- Eo, (locs_at_nth _ _ _ Hn). reflexivity.
Qed.
Lemma run_holds : forall T st st', adaptive_run g B nl nu m G xc xf st st' -> holds T st -> holds T st'.
Proof using Vg NP NS Per FT Hm Hdx Pos. intros T st st' HR. induction HR as [|mid fin HR IH HS]; intros H; [exact H|]. apply (step_holds T mid); [exact HS|]. apply IH, H. Qed.
End Run.
