(** The cells of a block are those of its children, four (two, eight) to one. *)
From Coq Require Import List Arith ZArith Bool Reals Lia Lra.
From Verif Require Import Loc AMR_Model AMR_Spec Tree_Model Tree_Spec Nbr_Model Nbr_Spec Buf_Model Fv_Model Fv_Spec Fv_Proofs Fv_Proofs2 Gho_Model Gho_Spec Gho_Proofs Con_Model Fgh_Model2 Reg_Model Reg_Spec Reg_Proofs.
From Verif Require Ref_Model Ref_Spec.
Import ListNotations.
Local Open Scope R_scope.

Lemma upto_S : forall a m, upto a (a + Z.of_nat (S m) - 1) = upto a (a + Z.of_nat m - 1) ++ [(a + Z.of_nat m)%Z].
Proof. intros. unfold upto. replace (Z.to_nat (a + Z.of_nat (S m) - 1 - a + 1)) with (S m) by lia. replace (Z.to_nat (a + Z.of_nat m - 1 - a + 1)) with m by lia. rewrite seq_S, map_app. reflexivity. Qed.
Lemma upto_0 : forall a, upto a (a + Z.of_nat 0 - 1) = [].
Proof. intros. unfold upto. replace (Z.to_nat (a + Z.of_nat 0 - 1 - a + 1)) with 0%nat by lia. reflexivity. Qed.
Lemma upto_one : forall a, upto a a = [a].
Proof. intros. unfold upto. replace (Z.to_nat (a - a + 1)) with 1%nat by lia. cbn [seq map]. rewrite Z.add_0_r. reflexivity. Qed.
Lemma upto_pairs : forall (f : Z -> R) s cs h, (0 <= h)%Z -> sum (map f (upto s (s + 2 * h - 1))) = sum (map (fun y => sum (map f (Ref_Spec.two s cs y))) (upto cs (cs + h - 1))).
Proof.
  intros f s cs h Hh. rewrite <- (Z2Nat.id h Hh). generalize (Z.to_nat h). clear. intros m. induction m as [|m IH].
  - change (2 * Z.of_nat 0)%Z with (Z.of_nat 0). rewrite !upto_0. reflexivity.
  - replace (2 * Z.of_nat (S m))%Z with (Z.of_nat (S (S (2 * m)))) by lia. rewrite !upto_S, !map_app, !sum_app. replace (Z.of_nat (2 * m)) with (2 * Z.of_nat m)%Z by lia. rewrite IH. unfold Ref_Spec.two. cbn [map]. rewrite !sum_cons, !sum_nil.
    replace (s + 2 * (cs + Z.of_nat m - cs))%Z with (s + 2 * Z.of_nat m)%Z by ring. replace (s + Z.of_nat (S (2 * m)))%Z with (s + 2 * Z.of_nat m + 1)%Z by lia. ring.
Qed.
Lemma upto_shift : forall a b k, upto (a + k) (b + k) = map (fun y => (y + k)%Z) (upto a b).
Proof. intros. unfold upto. rewrite map_map. replace (b + k - (a + k) + 1)%Z with (b - a + 1)%Z by ring. apply map_ext. intros. ring. Qed.
Lemma upto_halves : forall (f : Z -> R) s h, (0 <= h)%Z -> sum (map f (upto s (s + 2 * h - 1))) = sum (map f (upto s (s + h - 1))) + sum (map (fun y => f (y + h)%Z) (upto s (s + h - 1))).
Proof.
  intros f s h Hh. assert (G : forall m k, sum (map f (upto s (s + Z.of_nat (m + k) - 1))) = sum (map f (upto s (s + Z.of_nat m - 1))) + sum (map (fun y => f (y + Z.of_nat m)%Z) (upto s (s + Z.of_nat k - 1)))).
  { intros m k. induction k as [|k IH]; [rewrite Nat.add_0_r, upto_0; cbn [map]; rewrite sum_nil; ring|]. rewrite Nat.add_succ_r, !upto_S, !map_app, !sum_app, IH. cbn [map]. rewrite !sum_cons, !sum_nil. replace (s + Z.of_nat (m + k))%Z with (s + Z.of_nat k + Z.of_nat m)%Z by lia. ring. }
  specialize (G (Z.to_nat h) (Z.to_nat h)). replace (Z.of_nat (Z.to_nat h + Z.to_nat h)) with (2 * h)%Z in G by lia. rewrite Z2Nat.id in G by exact Hh. exact G.
Qed.

Section Dirs.
Variables (dim : nat) (B : bsz).
Hypothesis D1 : (1 <= dim <= 3)%nat.
Hypothesis RB : refinable dim B.
Definition bits (d : nat) : list Z := if Nat.ltb d dim then [0; 1]%Z else [0]%Z.
Lemma sum_pairs : forall d (f : Z -> R), (d < 3)%nat -> sum (map f (upto (s_ B d) (e_ B d))) = sum (map (fun y => sum (map f (Ref_Spec.duo (nx_ B d) (s_ B d) (cs_ B d) y))) (upto (cs_ B d) (ce_ B d))).
Proof using D1 RB.
  intros d f Hd. unfold Ref_Spec.duo. destruct (dir_facts dim B D1 RB d Hd) as [F|F].
  - destruct F as (L & A1 & F1 & F2 & F3 & F4 & F5 & F6 & F7 & _). rewrite (proj2 (Z.ltb_lt 1 (nx_ B d))) by lia. rewrite F2, F3, F4, F5.
    replace (ng B + nx_ B d - 1)%Z with (ng B + 2 * (nx_ B d / 2) - 1)%Z by lia. apply upto_pairs. lia.
  - destruct F as (L & A1 & F1 & F2 & F3 & F4 & F5 & F6 & F7 & _). rewrite F6. change (Z.ltb 1 1) with false. rewrite F2, F3, F4, F5, upto_one. cbn [map]. rewrite !sum_cons, !sum_nil. ring.
Qed.
Lemma sum_halves : forall d (f : Z -> R), (d < 3)%nat -> sum (map f (upto (s_ B d) (e_ B d))) = sum (map (fun b => sum (map (fun y => f (y + b * (nx_ B d / 2))%Z) (upto (cs_ B d) (ce_ B d)))) (bits d)).
Proof using D1 RB.
  intros d f Hd. unfold bits. destruct (dir_facts dim B D1 RB d Hd) as [F|F].
  - destruct F as (L & A1 & F1 & F2 & F3 & F4 & F5 & F6 & F7 & _). rewrite (proj2 (Nat.ltb_lt _ _) L). cbn [map]. rewrite !sum_cons, sum_nil, Rplus_0_r. rewrite F2, F3, F4, F5.
    replace (ng B + nx_ B d - 1)%Z with (ng B + 2 * (nx_ B d / 2) - 1)%Z by lia. rewrite upto_halves by lia. f_equal; apply sum_ext; intros y _; f_equal; lia.
  - destruct F as (L & A1 & F1 & F2 & F3 & F4 & F5 & F6 & F7 & _). rewrite (proj2 (Nat.ltb_ge _ _) L), F2, F3, F4, F5, upto_one. cbn [map]. rewrite !sum_cons, !sum_nil. change (0 + 0 * (nx_ B d / 2))%Z with 0%Z. ring.
Qed.
(** Sums over a block through its coarse cells, and through its parts. *)
Notation rng d := (upto (cs_ B d) (ce_ B d)).
Lemma sum_combine3 : forall (f : Fv_Model.arr) K J I, sum (map (at_ f) (Ref_Spec.combine3 K J I)) = sum (map (fun k => sum (map (fun j => sum (map (fun i => f k j i) I)) J)) K).
Proof using.
  intros f K J I. unfold Ref_Spec.combine3. induction K as [|k K IH]; [reflexivity|]. cbn [flat_map map]. rewrite map_app, sum_app, sum_cons, IH. f_equal.
  clear IH. induction J as [|j J IH]; [reflexivity|]. cbn [flat_map map]. rewrite map_app, sum_app, sum_cons, IH, map_map. reflexivity.
Qed.
Lemma block_cells : forall (f : Fv_Model.arr), sum3 (block_dims B) f = sum (map (fun k => sum (map (fun j => sum (map (fun i => sum (map (at_ f) (Ref_Spec.cells (block_dims B) (coarse_offs B) (k, j, i)))) (rng 0%nat))) (rng 1%nat))) (rng 2%nat)).
Proof using D1 RB.
  intros f. unfold sum3, block_dims. cbn [Fv_Model.is_ ie js je ks ke]. rewrite (sum_pairs 2) by lia. apply sum_ext. intros ck _.
  transitivity (sum (map (fun k => sum (map (fun cj => sum (map (fun j => sum (map (fun ci => sum (map (f k j) (Ref_Spec.duo (nx_ B 0) (s_ B 0) (cs_ B 0) ci))) (rng 0%nat))) (Ref_Spec.duo (nx_ B 1) (s_ B 1) (cs_ B 1) cj))) (rng 1%nat))) (Ref_Spec.duo (nx_ B 2) (s_ B 2) (cs_ B 2) ck))).
  { apply sum_ext. intros k _. rewrite (sum_pairs 1) by lia. apply sum_ext. intros cj _. apply sum_ext. intros j _. apply (sum_pairs 0). lia. }
  rewrite sum_swap. apply sum_ext. intros cj _.
  transitivity (sum (map (fun k => sum (map (fun ci => sum (map (fun j => sum (map (f k j) (Ref_Spec.duo (nx_ B 0) (s_ B 0) (cs_ B 0) ci))) (Ref_Spec.duo (nx_ B 1) (s_ B 1) (cs_ B 1) cj))) (rng 0%nat))) (Ref_Spec.duo (nx_ B 2) (s_ B 2) (cs_ B 2) ck))).
  { apply sum_ext. intros k _. apply sum_swap. }
  rewrite sum_swap. apply sum_ext. intros ci _. cbn [Ref_Spec.cells]. rewrite sum_combine3. unfold nx3, nx2. cbn [Fv_Model.is_ ie js je ks ke Ref_Model.cis Ref_Model.cjs Ref_Model.cks coarse_offs].
  assert (E : forall d, (d < 3)%nat -> (e_ B d - s_ B d + 1)%Z = nx_ B d) by (intros d Hd; destruct (dir_facts dim B D1 RB d Hd) as [F|F]; lia).
  rewrite (E 2%nat), (E 1%nat) by lia. replace (Ref_Spec.two (s_ B 0) (cs_ B 0) ci) with (Ref_Spec.duo (nx_ B 0) (s_ B 0) (cs_ B 0) ci); [reflexivity|].
  unfold Ref_Spec.duo. rewrite (proj2 (Z.ltb_lt 1 (nx_ B 0))); [reflexivity|]. destruct (dir_facts dim B D1 RB 0%nat ltac:(lia)) as [F|F]; lia.
Qed.
Lemma block_parts : forall (f : Fv_Model.arr), sum3 (block_dims B) f =
  sum (map (fun b3 => sum (map (fun b2 => sum (map (fun b1 => sum (map (fun k => sum (map (fun j => sum (map (fun i => f (k + b3 * (nx_ B 2 / 2))%Z (j + b2 * (nx_ B 1 / 2))%Z (i + b1 * (nx_ B 0 / 2))%Z) (rng 0%nat))) (rng 1%nat))) (rng 2%nat))) (bits 0))) (bits 1))) (bits 2)).
Proof using D1 RB.
  intros f. unfold sum3, block_dims. cbn [Fv_Model.is_ ie js je ks ke]. rewrite (sum_halves 2) by lia. apply sum_ext. intros b3 _.
  transitivity (sum (map (fun k => sum (map (fun b2 => sum (map (fun j => sum (map (fun b1 => sum (map (fun i => f (k + b3 * (nx_ B 2 / 2))%Z (j + b2 * (nx_ B 1 / 2))%Z (i + b1 * (nx_ B 0 / 2))%Z) (rng 0%nat))) (bits 0))) (rng 1%nat))) (bits 1))) (rng 2%nat))).
  { apply sum_ext. intros k _. rewrite (sum_halves 1) by lia. apply sum_ext. intros b2 _. apply sum_ext. intros j _. apply (sum_halves 0). lia. }
  rewrite sum_swap. apply sum_ext. intros b2 _. rewrite <- (sum_swap Z Z (fun k b1 => sum (map (fun j => sum (map (fun i => f (k + b3 * (nx_ B 2 / 2))%Z (j + b2 * (nx_ B 1 / 2))%Z (i + b1 * (nx_ B 0 / 2))%Z) (rng 0%nat))) (rng 1%nat)))). apply sum_ext. intros k _. apply sum_swap.
Qed.
Lemma sum_leaves : forall (F : nat -> R), sum (map F (seq 0 (nleaf dim))) = sum (map (fun b3 => sum (map (fun b2 => sum (map (fun b1 => F (Z.to_nat (b1 + 2 * b2 + 4 * b3))) (bits 0))) (bits 1))) (bits 2)).
Proof using D1.
  clear RB B. intros F. unfold bits. destruct dim as [|[|[|[|n]]]]; try lia; cbn [nleaf seq map Nat.ltb Nat.leb]; rewrite ?sum_cons, ?sum_nil; change (Z.to_nat (0 + 2 * 0 + 4 * 0)) with 0%nat; change (Z.to_nat (1 + 2 * 0 + 4 * 0)) with 1%nat; change (Z.to_nat (0 + 2 * 1 + 4 * 0)) with 2%nat; change (Z.to_nat (1 + 2 * 1 + 4 * 0)) with 3%nat;
    change (Z.to_nat (0 + 2 * 0 + 4 * 1)) with 4%nat; change (Z.to_nat (1 + 2 * 0 + 4 * 1)) with 5%nat; change (Z.to_nat (0 + 2 * 1 + 4 * 1)) with 6%nat; change (Z.to_nat (1 + 2 * 1 + 4 * 1)) with 7%nat; ring.
Qed.
Lemma bits_child : forall l b1 b2 b3, In b1 (bits 0) -> In b2 (bits 1) -> In b3 (bits 2) -> let j := Z.to_nat (b1 + 2 * b2 + 4 * b3) in (j < nleaf dim)%nat /\
  off dim B (child l j) 0 = (b1 * (nx_ B 0 / 2))%Z /\ off dim B (child l j) 1 = (b2 * (nx_ B 1 / 2))%Z /\ off dim B (child l j) 2 = (b3 * (nx_ B 2 / 2))%Z.
Proof using D1 RB.
  intros l b1 b2 b3 H1 H2 H3 j.
  assert (Q : forall d, (d < 3)%nat -> forall b, In b (bits d) -> (b = 0 \/ (b = 1 /\ (d < dim)%nat))%Z).
  { intros d _ b. unfold bits. destruct (Nat.ltb_spec d dim); cbn [In]; intuition lia. }
  apply Q in H1; [|lia]. apply Q in H2; [|lia]. apply Q in H3; [|lia].
  assert (E : forall d, (d < dim)%nat -> size B dim true d = (nx_ B d / 2)%Z) by (intros d Hd; unfold size; rewrite (proj2 (Nat.ltb_lt _ _) Hd); destruct d as [|[|d]]; reflexivity).
  assert (M : forall x b, (b = 0 \/ b = 1)%Z -> ((2 * x + b) mod 2 = b)%Z) by (intros x b Hb; rewrite Z.add_comm, Z.mul_comm, Z_mod_plus_full; destruct Hb as [-> | ->]; reflexivity).
  assert (T : bit j 0 = b1 /\ bit j 1 = b2 /\ bit j 2 = b3) by (unfold j; destruct H1 as [->|[-> _]], H2 as [->|[-> _]], H3 as [->|[-> _]]; repeat split; reflexivity).
  destruct T as (T1 & T2 & T3). split; [|unfold off, child; cbn [coord lx1 lx2 lx3]; rewrite T1, T2, T3].
  - unfold j. destruct dim as [|[|[|[|n]]]]; try lia; cbn [nleaf]; lia.
  - split; [|split].
    + destruct (Nat.ltb_spec 0 dim); [rewrite E, M by (lia || (destruct H1; lia)); reflexivity|lia].
    + destruct (Nat.ltb_spec 1 dim); [rewrite E, M by (lia || (destruct H2; lia)); reflexivity|destruct H2 as [->|[-> ?]]; [reflexivity|lia]].
    + destruct (Nat.ltb_spec 2 dim); [rewrite E, M by (lia || (destruct H3; lia)); reflexivity|destruct H3 as [->|[-> ?]]; [reflexivity|lia]].
Qed.
Lemma in_upto : forall a b x, In x (upto a b) -> (a <= x <= b)%Z.
Proof using. clear D1 RB. intros a b x H. unfold upto in H. apply in_map_iff in H as (m & <- & Hm). apply in_seq in Hm. lia. Qed.
Lemma coarse_own_rng : forall k j i, coarse_own B dim (k, j, i) <-> ((cs_ B 2 <= k <= ce_ B 2)%Z /\ (cs_ B 1 <= j <= ce_ B 1)%Z /\ (cs_ B 0 <= i <= ce_ B 0)%Z).
Proof using D1 RB.
  intros k j i. unfold coarse_own, own.
  assert (E : forall d, (d < 3)%nat -> first B dim d = cs_ B d /\ (first B dim d + size B dim true d = ce_ B d + 1)%Z) by (intros d Hd; destruct (dir_facts dim B D1 RB d Hd) as [F|F]; lia).
  destruct (E 0%nat ltac:(lia)) as [A0 B0]. destruct (E 1%nat ltac:(lia)) as [A1 B1]. destruct (E 2%nat ltac:(lia)) as [A2 B2]. split.
  - intros H. pose proof (H 0%nat ltac:(lia)). pose proof (H 1%nat ltac:(lia)). pose proof (H 2%nat ltac:(lia)). cbn in *. lia.
  - intros H d Hd. destruct d as [|[|[|d]]]; lia.
Qed.
(** A sum over the parent is the sum over the children if it is for each coarse cell. *)
Lemma family : forall l (f : Fv_Model.arr) (h : nat -> Fv_Model.arr),
  (forall j q, (j < nleaf dim)%nat -> coarse_own B dim q -> at_ f (in_parent B dim (child l j) q) = sum (map (at_ (h j)) (Ref_Spec.cells (block_dims B) (coarse_offs B) q))) ->
  sum3 (block_dims B) f = sum (map (fun j => sum3 (block_dims B) (h j)) (seq 0 (nleaf dim))).
Proof using D1 RB.
  intros l f h H. rewrite block_parts, sum_leaves. apply sum_ext. intros b3 H3. apply sum_ext. intros b2 H2. apply sum_ext. intros b1 H1.
  destruct (bits_child l b1 b2 b3 H1 H2 H3) as (J & O0 & O1 & O2). rewrite block_cells. apply sum_ext. intros k Hk. apply sum_ext. intros j Hj. apply sum_ext. intros i Hi.
  apply in_upto in Hk. apply in_upto in Hj. apply in_upto in Hi. rewrite <- (H _ (k, j, i) J (proj2 (coarse_own_rng k j i) (conj Hk (conj Hj Hi)))). unfold in_parent. unfold off in O0, O1, O2. rewrite O0, O1, O2. reflexivity.
Qed.
End Dirs.
