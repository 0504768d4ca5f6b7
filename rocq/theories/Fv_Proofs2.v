(** Proofs for C41 and C42. *)
From Coq Require Import Reals ZArith List Bool Lia Lra Permutation.
From Verif Require Import Fv_Model Fv_Spec Fv_Proofs.
Import ListNotations.
Local Open Scope R_scope.

Lemma sum_app : forall a b, sum (a ++ b) = sum a + sum b.
Proof. induction a as [|x a IH]; intros; [unfold sum at 2; cbn [fold_right app]; ring|]. change (x + sum (a ++ b) = x + sum a + sum b). rewrite IH. ring. Qed.
Lemma sum_cons : forall x l, sum (x :: l) = x + sum l.
Proof. reflexivity. Qed.
Lemma sum_nil : sum [] = 0. Proof. reflexivity. Qed.
Lemma sum_ext : forall A (f g : A -> R) l, (forall x, In x l -> f x = g x) -> sum (map f l) = sum (map g l).
Proof. intros A f g l; induction l as [|x l IH]; intro H; cbn [map]; [reflexivity|]. rewrite !sum_cons, H by (left; auto). rewrite IH; [reflexivity|]. intros; apply H; right; auto. Qed.
Lemma sum_plus : forall A (f g : A -> R) l, sum (map (fun x => f x + g x) l) = sum (map f l) + sum (map g l).
Proof. induction l as [|x l IH]; cbn [map]; rewrite ?sum_cons, ?sum_nil, ?IH; ring. Qed.
Lemma sum_scale : forall A (f : A -> R) c l, sum (map (fun x => c * f x) l) = c * sum (map f l).
Proof. induction l as [|x l IH]; cbn [map]; rewrite ?sum_cons, ?sum_nil, ?IH; ring. Qed.
Lemma sum_minus : forall A (f g : A -> R) l, sum (map (fun x => f x - g x) l) = sum (map f l) - sum (map g l).
Proof. induction l as [|x l IH]; cbn [map]; rewrite ?sum_cons, ?sum_nil, ?IH; ring. Qed.
Lemma sum_zero : forall A (l : list A), sum (map (fun _ => 0) l) = 0.
Proof. induction l as [|x l IH]; cbn [map]; rewrite ?sum_cons, ?sum_nil, ?IH; ring. Qed.
Lemma sum_flat2 : forall A B C (h : C -> R) (m : A -> B -> C) l2 l1, sum (map h (flat_map (fun k => map (m k) l2) l1)) = sum (map (fun k => sum (map (fun j => h (m k j)) l2)) l1).
Proof. intros. induction l1 as [|k l1 IH]; [reflexivity|]. cbn [flat_map map]. rewrite map_app, sum_app, sum_cons, IH, map_map. reflexivity. Qed.
Lemma sum_swap : forall A B (f : A -> B -> R) l2 l1, sum (map (fun a => sum (map (f a) l2)) l1) = sum (map (fun b => sum (map (fun a => f a b) l1)) l2).
Proof.
  intros. induction l1 as [|a l1 IH]; cbn [map]; [rewrite sum_zero; reflexivity|]. rewrite sum_cons, IH.
  rewrite <- sum_plus. reflexivity.
Qed.
Lemma in_upto : forall a b x, In x (upto a b) <-> (a <= x <= b)%Z.
Proof.
  intros. unfold upto. rewrite in_map_iff. split.
  - intros [n [<- H]]. apply in_seq in H. lia.
  - intro H. exists (Z.to_nat (x - a)). split; [lia|]. apply in_seq. lia.
Qed.
Lemma upto_snoc : forall a b, (a <= b + 1)%Z -> upto a (b + 1) = upto a b ++ [(b + 1)%Z].
Proof.
  intros. unfold upto. replace (Z.to_nat (b + 1 - a + 1)) with (S (Z.to_nat (b - a + 1))) by lia. rewrite seq_S, map_app. cbn [map]. f_equal. f_equal. lia.
Qed.
Lemma upto_one : forall a, upto a a = [a].
Proof. intros. unfold upto. replace (Z.to_nat (a - a + 1)) with 1%nat by lia. cbn [seq map]. f_equal. lia. Qed.
Lemma upto_split : forall a b c, (a <= c)%Z -> (c <= b + 1)%Z -> upto a b = upto a (c - 1) ++ upto c b.
Proof.
  intros a b c H1 H2. unfold upto. replace (Z.to_nat (b - a + 1)) with (Z.to_nat (c - 1 - a + 1) + Z.to_nat (b - c + 1))%nat by lia.
  rewrite seq_app, map_app. f_equal. rewrite <- (Nat.add_0_l (0 + _)). cbn [plus].
  generalize (Z.to_nat (b - c + 1)). intro n. assert (E : forall n s, map (fun m => (a + Z.of_nat m)%Z) (seq (Z.to_nat (c - 1 - a + 1) + s) n) = map (fun m => (c + Z.of_nat m)%Z) (seq s n)).
  { induction n0 as [|m IH]; intro s; [reflexivity|]. cbn [seq map]. f_equal; [lia|]. rewrite <- IH. f_equal. f_equal. lia. }
  specialize (E n 0%nat). rewrite Nat.add_0_r in E. exact E.
Qed.
Lemma telescope : forall (F : Z -> R) a n, sum (map (fun i => F (i + 1)%Z - F i) (upto a (a + Z.of_nat n - 1))) = F (a + Z.of_nat n)%Z - F a.
Proof.
  induction n as [|n IH].
  - unfold upto. replace (Z.to_nat _) with 0%nat by lia. cbn. replace (a + 0)%Z with a by lia. lra.
  - replace (a + Z.of_nat (S n) - 1)%Z with ((a + Z.of_nat n - 1) + 1)%Z by lia. rewrite upto_snoc by lia. rewrite map_app, sum_app, IH. cbn [map]. rewrite sum_cons, sum_nil.
    replace (a + Z.of_nat n - 1 + 1)%Z with (a + Z.of_nat n)%Z by lia. replace (a + Z.of_nat (S n))%Z with (a + Z.of_nat n + 1)%Z by lia. ring.
Qed.
Lemma telescope' : forall (F : Z -> R) a b, (a <= b + 1)%Z -> sum (map (fun i => F (i + 1)%Z - F i) (upto a b)) = F (b + 1)%Z - F a.
Proof. intros. pose proof (telescope F a (Z.to_nat (b - a + 1))). replace (a + Z.of_nat (Z.to_nat (b - a + 1)) - 1)%Z with b in H0 by lia. rewrite H0. f_equal. f_equal. lia. Qed.

(** ** One block *)
Lemma sum3_ext : forall d f g, (forall k j i, is_active d k j i -> f k j i = g k j i) -> sum3 d f = sum3 d g.
Proof.
  intros d f g H. unfold sum3. apply sum_ext; intros k Hk; apply sum_ext; intros j Hj; apply sum_ext; intros i Hi. apply in_upto in Hk, Hj, Hi. apply H. split; [|split]; lia.
Qed.
Lemma sum3_plus : forall d f g, sum3 d (fun k j i => f k j i + g k j i) = sum3 d f + sum3 d g.
Proof.
  intros. unfold sum3. rewrite <- sum_plus. apply sum_ext; intros k _. rewrite <- sum_plus. apply sum_ext; intros j _. apply sum_plus.
Qed.
Lemma sum3_scale : forall d c f, sum3 d (fun k j i => c * f k j i) = c * sum3 d f.
Proof.
  intros. unfold sum3. rewrite <- sum_scale. apply sum_ext; intros k _. rewrite <- sum_scale. apply sum_ext; intros j _. apply sum_scale.
Qed.
Definition whole (d : dims) (g : geom) (f : vec) (fid : nat) : R := flow g f fid (side d fid).
Lemma net1 : forall d g f, nonempty d -> sum3 d (fun k j i => A1 g k j (i + 1)%Z * x1 f k j (i + 1)%Z - A1 g k j i * x1 f k j i) = whole d g f 0 + whole d g f 1.
Proof.
  intros d g f N. destruct N as [[N1 [N2 N3]] ND]. unfold whole, flow, side, out_sign, areas, comp. cbn [Nat.ltb Nat.leb Nat.eqb Nat.modulo Nat.divmod fst snd Nat.sub].
  rewrite !sum_flat2. rewrite <- !sum_scale, <- sum_plus. unfold sum3. apply sum_ext; intros k _. rewrite <- !sum_scale, <- sum_plus. apply sum_ext; intros j _.
  rewrite (telescope' (fun i => A1 g k j i * x1 f k j i)) by lia. ring.
Qed.
Lemma net2 : forall d g f, nonempty d -> sum3 d (fun k j i => A2 g k (j + 1)%Z i * x2 f k (j + 1)%Z i - A2 g k j i * x2 f k j i) = whole d g f 2 + whole d g f 3.
Proof.
  intros d g f N. destruct N as [[N1 [N2 N3]] ND]. unfold whole, flow, side, out_sign, areas, comp. cbn [Nat.ltb Nat.leb Nat.eqb Nat.modulo Nat.divmod fst snd Nat.sub].
  rewrite !sum_flat2. rewrite <- !sum_scale, <- sum_plus. unfold sum3. apply sum_ext; intros k _. rewrite sum_swap. rewrite <- !sum_scale, <- sum_plus. apply sum_ext; intros i _.
  rewrite (telescope' (fun j => A2 g k j i * x2 f k j i)) by lia. ring.
Qed.
Lemma net3 : forall d g f, nonempty d -> sum3 d (fun k j i => A3 g (k + 1)%Z j i * x3 f (k + 1)%Z j i - A3 g k j i * x3 f k j i) = whole d g f 4 + whole d g f 5.
Proof.
  intros d g f N. destruct N as [[N1 [N2 N3]] ND]. unfold whole, flow, side, out_sign, areas, comp. cbn [Nat.ltb Nat.leb Nat.eqb Nat.modulo Nat.divmod fst snd Nat.sub].
  rewrite !sum_flat2. rewrite <- !sum_scale, <- sum_plus. unfold sum3. rewrite sum_swap. apply sum_ext; intros j _.
  rewrite sum_swap. rewrite <- !sum_scale, <- sum_plus. apply sum_ext; intros i _.
  rewrite (telescope' (fun k => A3 g k j i * x3 f k j i)) by lia. ring.
Qed.
Lemma sum_dflx : forall d g f, nonempty d -> sum3 d (dflx d g f) = sum (map (whole d g f) (sides d)).
Proof.
  intros d g f N. unfold sides. rewrite !map_app, !sum_app. cbn [map]. rewrite !sum_cons, sum_nil.
  pose proof (net1 d g f N) as P1. pose proof (net2 d g f N) as P2. pose proof (net3 d g f N) as P3.
  set (a := fun k j i => A1 g k j (i + 1)%Z * x1 f k j (i + 1)%Z - A1 g k j i * x1 f k j i) in *.
  set (b := fun k j i => A2 g k (j + 1)%Z i * x2 f k (j + 1)%Z i - A2 g k j i * x2 f k j i) in *.
  set (c := fun k j i => A3 g (k + 1)%Z j i * x3 f (k + 1)%Z j i - A3 g k j i * x3 f k j i) in *.
  assert (E : sum3 d (dflx d g f) = sum3 d a + (if Z.ltb 1 (nx2 d) then sum3 d b else 0) + (if Z.ltb 1 (nx3 d) then sum3 d c else 0)).
  { destruct (Z.ltb 1 (nx2 d)) eqn:E2, (Z.ltb 1 (nx3 d)) eqn:E3.
    - rewrite <- !sum3_plus. apply sum3_ext; intros; unfold dflx; rewrite E2, E3; unfold a, b, c; ring.
    - rewrite Rplus_0_r, <- !sum3_plus. apply sum3_ext; intros; unfold dflx; rewrite E2, E3; unfold a, b, c; ring.
    - rewrite Rplus_0_r, <- !sum3_plus. apply sum3_ext; intros; unfold dflx; rewrite E2, E3; unfold a, b, c; ring.
    - rewrite !Rplus_0_r. apply sum3_ext; intros; unfold dflx; rewrite E2, E3; unfold a, b, c; ring. }
  rewrite E, P1, P2, P3. destruct (Z.ltb 1 (nx2 d)), (Z.ltb 1 (nx3 d)); cbn [map]; rewrite ?sum_cons, ?sum_nil; ring.
Qed.
Lemma active_true : forall d k j i, is_active d k j i -> active d k j i = true.
Proof. intros d k j i [H1 [H2 H3]]. unfold active. rewrite !within_true by lia. reflexivity. Qed.
Lemma block_change : forall d g f w u, nonempty d -> (forall k j i, is_active d k j i -> V g k j i <> 0) ->
  total d g (AddFluxDivergence d g f w u) = total d g u - w * sum (map (whole d g f) (sides d)).
Proof.
  intros d g f w u N HV. rewrite <- sum_dflx by assumption. unfold total. replace (sum3 d (fun k j i => V g k j i * u k j i) - w * sum3 d (dflx d g f)) with (sum3 d (fun k j i => V g k j i * u k j i) + (- w) * sum3 d (dflx d g f)) by ring.
  rewrite <- sum3_scale, <- sum3_plus. apply sum3_ext. intros k j i A. unfold AddFluxDivergence. rewrite active_true by assumption. field. apply HV; assumption.
Qed.
Lemma register_change : forall d g f dt r, nonempty d -> (forall k j i, is_active d k j i -> V g k j i <> 0) ->
  total d g (FluxDivergence_register d g f dt r) = - (1 / 2) * dt * sum (map (whole d g f) (sides d)).
Proof.
  intros d g f w u N HV. rewrite <- sum_dflx by assumption. unfold total.
  rewrite <- sum3_scale. apply sum3_ext. intros k j i A. unfold FluxDivergence_register. rewrite active_true by assumption. field. apply HV; assumption.
Qed.
Lemma average_total : forall d g w o a b c e, total d g (WeightedAve_cc d w o a b c e) = w0 w * total d g o + w1 w * total d g a + w2 w * total d g b + w3 w * total d g c + w4 w * total d g e.
Proof.
  intros. unfold total. rewrite <- !sum3_scale, <- !sum3_plus. apply sum3_ext. intros k j i A. unfold WeightedAve_cc. fold (active d k j i). rewrite active_true by assumption. rewrite ave_sum. ring.
Qed.

(** ** Parts of a side *)
Lemma half_split : forall a b (h : Z -> R), (a <= b)%Z -> Z.even (b - a + 1) = true ->
  sum (map h (upto a b)) = sum (map h (upto (fst (half a b (b - a + 1) 0)) (snd (half a b (b - a + 1) 0)))) + sum (map h (upto (fst (half a b (b - a + 1) 1)) (snd (half a b (b - a + 1) 1)))).
Proof.
  intros a b h H E. unfold half. cbn [Nat.eqb fst snd]. rewrite (upto_split a b (a + (b - a + 1) / 2)).
  - rewrite map_app, sum_app. f_equal. f_equal. f_equal. apply Z.even_spec in E as [m E]. rewrite E. replace (2 * m / 2)%Z with m by (rewrite Z.mul_comm, Z.div_mul; lia). f_equal; lia.
  - assert (0 <= (b - a + 1) / 2)%Z by (apply Z.div_pos; lia). lia.
  - assert ((b - a + 1) / 2 <= b - a + 1)%Z by (apply Z.div_le_upper_bound; lia). lia.
Qed.
Lemma half_one : forall a b (h : Z -> R), (b - a + 1 = 1)%Z -> sum (map h (upto a b)) = sum (map h (upto (fst (half a b (b - a + 1) 0)) (snd (half a b (b - a + 1) 0)))).
Proof. intros a b h H. rewrite H. unfold half. cbn [Nat.eqb fst snd]. replace (b - 1 / 2)%Z with b by (rewrite Z.div_small; lia). reflexivity. Qed.
Lemma sumprod_half : forall a b (h : Z -> R) (m : bool), (a <= b)%Z -> m = Z.ltb 1 (b - a + 1) -> (Z.even (b - a + 1) = true \/ (b - a + 1 = 1)%Z) ->
  sum (map h (upto a b)) = sum (map (fun fi => sum (map h (upto (fst (half a b (b - a + 1) fi)) (snd (half a b (b - a + 1) fi))))) (if m then [0%nat; 1%nat] else [0%nat])).
Proof.
  intros a b h m H Hm [E|E].
  - assert (E1 : (1 < b - a + 1)%Z) by (apply Z.even_spec in E as [q E]; lia). rewrite Hm, (proj2 (Z.ltb_lt _ _) E1). cbn [map]. rewrite !sum_cons, sum_nil, Rplus_0_r. apply half_split; assumption.
  - rewrite Hm, E. cbn [Z.ltb Z.compare Pos.compare Pos.compare_cont map]. rewrite sum_cons, sum_nil, Rplus_0_r. rewrite <- E. apply half_one; assumption.
Qed.
Lemma let_half : forall a b n fi (X : Type) (F : Z -> Z -> X), (let '(l, u) := half a b n fi in F l u) = F (fst (half a b n fi)) (snd (half a b n fi)).
Proof. intros. destruct (half a b n fi); reflexivity. Qed.
Lemma parts_whole : forall d g f fid, nonempty d -> In fid (sides d) -> Z.even (nx1 d) = true -> dir_ok (nx2 d) -> dir_ok (nx3 d) ->
  sum (map (patch_flow d g f) (parts d fid)) = patch_flow d g f (Whole fid).
Proof.
  intros d g f fid [[N1 [N2 N3]] ND] Hin E1 E2 E3.
  set (S2 := fun (fi1s fi2s : list nat) (h : nat -> nat -> R) => sum (map (fun fi2 => sum (map (fun fi1 => h fi1 fi2) fi1s)) fi2s)).
  assert (P : forall fi1s fi2s h, parts d fid = flat_map (fun fi2 => map (fun fi1 => Part fid fi1 fi2) fi1s) fi2s -> S2 fi1s fi2s (fun fi1 fi2 => patch_flow d g f (Part fid fi1 fi2)) = h -> sum (map (patch_flow d g f) (parts d fid)) = h).
  { intros fi1s fi2s h -> <-. rewrite sum_flat2. reflexivity. }
  assert (n1 : (1 < nx1 d)%Z) by (unfold nx1 in *; apply Z.even_spec in E1 as [q E1]; lia).
  assert (D : In fid [0%nat; 1%nat] \/ (In fid [2%nat; 3%nat] /\ (1 < nx2 d)%Z) \/ (In fid [4%nat; 5%nat] /\ (1 < nx3 d)%Z)).
  { unfold sides in Hin. destruct (Z.ltb_spec 1 (nx2 d)), (Z.ltb_spec 1 (nx3 d)); rewrite !in_app_iff in Hin; destruct Hin as [I|[I|I]]; auto; destruct I. }
  assert (X3 : (1 < nx3 d)%Z -> (1 < nx2 d)%Z). { intro. destruct (Z.eq_dec (nx2 d) 1); [specialize (ND e); lia|unfold nx2 in *; lia]. }
  destruct D as [D|[[D HD]|[D HD]]].
  - apply (P (if Z.ltb 1 (nx2 d) then [0%nat; 1%nat] else [0%nat]) (if Z.ltb 1 (nx3 d) then [0%nat; 1%nat] else [0%nat])).
    + unfold parts. destruct (Z.ltb_spec 1 (nx2 d)), (Z.ltb_spec 1 (nx3 d)); try reflexivity. lia.
    + assert (F2 : Nat.ltb fid 2 = true) by (destruct D as [<-|[<-|[]]]; reflexivity).
      unfold patch_flow, flow, slots, side, S2, areas, comp. rewrite !F2. rewrite sum_flat2.
      rewrite (sumprod_half (ks d) (ke d) _ _ N3 (eq_refl : Z.ltb 1 (nx3 d) = Z.ltb 1 (ke d - ks d + 1)) E3). rewrite <- sum_scale. apply sum_ext; intros fi2 _.
      rewrite <- sum_scale.
      transitivity (sum (map (fun fi1 => out_sign fid * sum (map (fun k => sum (map (fun j => A1 g k j (is_ d + (ie d - is_ d) * odd_ fid + odd_ fid)%Z * x1 f k j (is_ d + (ie d - is_ d) * odd_ fid + odd_ fid)%Z) (upto (fst (half (js d) (je d) (nx2 d) fi1)) (snd (half (js d) (je d) (nx2 d) fi1))))) (upto (fst (half (ks d) (ke d) (nx3 d) fi2)) (snd (half (ks d) (ke d) (nx3 d) fi2)))))  (if Z.ltb 1 (nx2 d) then [0%nat; 1%nat] else [0%nat]))).
      { apply sum_ext; intros fi1 _. destruct (half (js d) (je d) (nx2 d) fi1), (half (ks d) (ke d) (nx3 d) fi2). cbn [fst snd]. rewrite sum_flat2. reflexivity. }
      rewrite sum_scale, sum_swap, <- sum_scale. apply sum_ext; intros k _.
      rewrite (sumprod_half (js d) (je d) _ _ N2 (eq_refl : Z.ltb 1 (nx2 d) = Z.ltb 1 (je d - js d + 1)) E2).
      f_equal. unfold nx2. destruct D as [<-|[<-|[]]]; cbn [Nat.eqb]; apply sum_ext; intros; apply sum_ext; intros; unfold odd_; cbn [Nat.modulo Nat.divmod fst snd Nat.sub Z.of_nat Pos.of_succ_nat]; f_equal; f_equal; lia.
  - apply (P [0%nat; 1%nat] (if Z.ltb 1 (nx3 d) then [0%nat; 1%nat] else [0%nat])).
    + unfold parts. rewrite (proj2 (Z.ltb_lt 1 (nx2 d)) HD). destruct (Z.ltb_spec 1 (nx3 d)); reflexivity.
    + assert (F2 : Nat.ltb fid 2 = false) by (destruct D as [<-|[<-|[]]]; reflexivity). assert (F4 : Nat.ltb fid 4 = true) by (destruct D as [<-|[<-|[]]]; reflexivity).
      unfold patch_flow, flow, slots, side, S2, areas, comp. rewrite !F2, !F4. rewrite sum_flat2.
      rewrite (sumprod_half (ks d) (ke d) _ _ N3 (eq_refl : Z.ltb 1 (nx3 d) = Z.ltb 1 (ke d - ks d + 1)) E3). rewrite <- sum_scale. apply sum_ext; intros fi2 _.
      rewrite <- sum_scale.
      transitivity (sum (map (fun fi1 => out_sign fid * sum (map (fun k => sum (map (fun i => A2 g k (js d + (je d - js d) * odd_ fid + odd_ fid)%Z i * x2 f k (js d + (je d - js d) * odd_ fid + odd_ fid)%Z i) (upto (fst (half (is_ d) (ie d) (nx1 d) fi1)) (snd (half (is_ d) (ie d) (nx1 d) fi1))))) (upto (fst (half (ks d) (ke d) (nx3 d) fi2)) (snd (half (ks d) (ke d) (nx3 d) fi2)))))  [0%nat; 1%nat])).
      { apply sum_ext; intros fi1 _. destruct (half (is_ d) (ie d) (nx1 d) fi1), (half (ks d) (ke d) (nx3 d) fi2). cbn [fst snd]. rewrite sum_flat2. reflexivity. }
      rewrite sum_scale, sum_swap, <- sum_scale. apply sum_ext; intros k _.
      rewrite (sumprod_half (is_ d) (ie d) _ true N1) by ((symmetry; apply Z.ltb_lt; exact n1) || (left; exact E1)).
      f_equal. unfold nx1. destruct D as [<-|[<-|[]]]; cbn [Nat.eqb]; apply sum_ext; intros; apply sum_ext; intros; unfold odd_; cbn [Nat.modulo Nat.divmod fst snd Nat.sub Z.of_nat Pos.of_succ_nat]; f_equal; f_equal; lia.
  - specialize (X3 HD). apply (P [0%nat; 1%nat] (if Z.ltb 1 (nx2 d) then [0%nat; 1%nat] else [0%nat])).
    + unfold parts. rewrite (proj2 (Z.ltb_lt 1 (nx2 d)) X3), (proj2 (Z.ltb_lt 1 (nx3 d)) HD). reflexivity.
    + assert (F2 : Nat.ltb fid 2 = false) by (destruct D as [<-|[<-|[]]]; reflexivity). assert (F4 : Nat.ltb fid 4 = false) by (destruct D as [<-|[<-|[]]]; reflexivity).
      unfold patch_flow, flow, slots, side, S2, areas, comp. rewrite !F2, !F4. rewrite sum_flat2.
      rewrite (sumprod_half (js d) (je d) _ _ N2 (eq_refl : Z.ltb 1 (nx2 d) = Z.ltb 1 (je d - js d + 1)) E2). rewrite <- sum_scale. apply sum_ext; intros fi2 _.
      rewrite <- sum_scale.
      transitivity (sum (map (fun fi1 => out_sign fid * sum (map (fun j => sum (map (fun i => A3 g (ks d + (ke d - ks d) * odd_ fid + odd_ fid)%Z j i * x3 f (ks d + (ke d - ks d) * odd_ fid + odd_ fid)%Z j i) (upto (fst (half (is_ d) (ie d) (nx1 d) fi1)) (snd (half (is_ d) (ie d) (nx1 d) fi1))))) (upto (fst (half (js d) (je d) (nx2 d) fi2)) (snd (half (js d) (je d) (nx2 d) fi2)))))  [0%nat; 1%nat])).
      { apply sum_ext; intros fi1 _. destruct (half (is_ d) (ie d) (nx1 d) fi1), (half (js d) (je d) (nx2 d) fi2). cbn [fst snd]. rewrite sum_flat2. reflexivity. }
      rewrite sum_scale, sum_swap, <- sum_scale. apply sum_ext; intros k _.
      rewrite (sumprod_half (is_ d) (ie d) _ true N1) by ((symmetry; apply Z.ltb_lt; exact n1) || (left; exact E1)).
      f_equal. unfold nx1. destruct D as [<-|[<-|[]]]; cbn [Nat.eqb]; apply sum_ext; intros; apply sum_ext; intros; unfold odd_; cbn [Nat.modulo Nat.divmod fst snd Nat.sub Z.of_nat Pos.of_succ_nat]; f_equal; f_equal; lia.
Qed.

(** ** Meshes *)
Lemma sum_flat_map : forall A (h : A -> list R) l, sum (flat_map h l) = sum (map (fun x => sum (h x)) l).
Proof. induction l as [|x l IH]; [reflexivity|]. cbn [flat_map map]. rewrite sum_app, sum_cons, IH. reflexivity. Qed.
Lemma sum_perm : forall a b, Permutation a b -> sum a = sum b.
Proof. intros a b H; induction H; rewrite ?sum_cons; [reflexivity|rewrite IHPermutation; reflexivity|ring|rewrite IHPermutation1; assumption]. Qed.
Lemma patches_sum : forall b, good_block b -> sum (map (patch_flow (bd b) (bg b) (bf b)) (patches b)) = sum (map (whole (bd b) (bg b) (bf b)) (sides (bd b))).
Proof.
  intros b [N [_ HR]]. unfold patches.
  assert (X : forall l, incl l (sides (bd b)) -> sum (map (patch_flow (bd b) (bg b) (bf b)) (flat_map (fun fid => if refined b fid then parts (bd b) fid else [Whole fid]) l)) = sum (map (whole (bd b) (bg b) (bf b)) l)).
  { induction l as [|fid l IH]; intro I; [reflexivity|]. cbn [flat_map map]. rewrite map_app, sum_app, sum_cons, IH by (intros x Hx; apply I; right; assumption). f_equal.
    destruct (refined b fid) eqn:R.
    - destruct (HR fid R) as [R1 [R2 R3]]. apply parts_whole; auto. apply I; left; reflexivity.
    - cbn [map]. rewrite sum_cons, sum_nil. unfold patch_flow, whole. ring. }
  apply X, incl_refl.
Qed.
Lemma flows_sum : forall m, sum (flows m) = sum (map (fun b => sum (map (patch_flow (bd b) (bg b) (bf b)) (patches b))) m).
Proof. intros. unfold flows. apply sum_flat_map. Qed.
Lemma mesh_change : forall w m, Forall good_block m -> mesh_total (map (advanced w) m) = mesh_total m - w * sum (flows m).
Proof.
  intros w m H. rewrite flows_sum. unfold mesh_total. induction m as [|b m IH]; [cbn; ring|]. inversion H as [|? ? Hb Hm]; subst. cbn [map]. rewrite !sum_cons, (IH Hm).
  unfold advanced at 1 2 3; cbn [bd bg bu]. rewrite patches_sum by assumption. rewrite block_change; [ring|apply Hb|]. intros k j i _. apply Hb.
Qed.
Lemma closed_zero : forall l, closed l -> sum l = 0.
Proof. intros l [p P]. rewrite (sum_perm _ _ P). clear P. induction p as [|x p IH]; [reflexivity|]. cbn [flat_map app]. rewrite !sum_cons. cbn [flat_map] in *. rewrite IH. ring. Qed.
