(** Proofs for C42. *)
From Coq Require Import Reals ZArith List Bool Lia Lra Permutation.
From Verif Require Import Fv_Model Fv_Spec Fv_Proofs Fv_Proofs2.
Import ListNotations.
Local Open Scope R_scope.

Lemma pos_dec : forall p q : Z * Z * Z, {p = q} + {p <> q}.
Proof. intros [[a b] c] [[a' b'] c']. destruct (Z.eq_dec a a'), (Z.eq_dec b b'), (Z.eq_dec c c'); subst; auto; right; intro H; injection H; intros; congruence. Qed.
Definition upd (a : arr) (p : Z * Z * Z) (x : R) : arr := let '(k, j, i) := p in fun k' j' i' => if Z.eqb k' k && Z.eqb j' j && Z.eqb i' i then x else a k' j' i'.
Lemma upd_same : forall a p x, at_ (upd a p x) p = x.
Proof. intros a [[k j] i] x. cbn. rewrite !Z.eqb_refl. reflexivity. Qed.
Lemma upd_other : forall a p q x, p <> q -> at_ (upd a p x) q = at_ a q.
Proof.
  intros a [[k j] i] [[k' j'] i'] x H. cbn. destruct (Z.eqb_spec k' k), (Z.eqb_spec j' j), (Z.eqb_spec i' i); subst; cbn [andb]; try reflexivity. congruence.
Qed.
Lemma store_step : forall a p ps x buf, store a (p :: ps) (x :: buf) = store (upd a p x) ps buf.
Proof. intros a [[k j] i] ps x buf. reflexivity. Qed.
Lemma store_other : forall A (P : A -> Z * Z * Z) (Q : A -> R) L a q, ~ In q (map P L) -> at_ (store a (map P L) (map Q L)) q = at_ a q.
Proof.
  induction L as [|y L IH]; intros a q H; [reflexivity|]. cbn [map]. rewrite store_step, IH by (intro; apply H; right; assumption). apply upd_other. intro E; apply H; left; assumption.
Qed.
Lemma store_in : forall A (P : A -> Z * Z * Z) (Q : A -> R) (dec : forall x y : A, {x = y} + {x <> y}) L, (forall x y, In x L -> In y L -> P x = P y -> x = y) -> forall a x, In x L -> at_ (store a (map P L) (map Q L)) (P x) = Q x.
Proof.
  induction L as [|y L IH]; intros Inj a x H; [destruct H|]. cbn [map]. rewrite store_step.
  destruct (in_dec dec x L) as [I|I].
  - apply IH; [|assumption]. intros; apply Inj; [right|right|]; assumption.
  - destruct H as [->|H]; [|tauto]. rewrite store_other; [apply upd_same|]. intro C. apply in_map_iff in C as [z [E Hz]]. apply I. rewrite <- (Inj z x); auto; [right; assumption|left; reflexivity].
Qed.

(** One direction along the side: [n] cells, coarse range from [a] to [b], fine range from [o]. *)
Definition cnt (n : Z) : nat := Z.to_nat (if Z.ltb 1 n then n / 2 else 1).
Definition both (o n : Z) (m : nat) : list Z := if Z.ltb 1 n then [(o + 2 * Z.of_nat m)%Z; (o + 2 * Z.of_nat m + 1)%Z] else [o].
Lemma upto_half : forall a b n fi, (b - a + 1 = n)%Z -> (1 <= n)%Z -> dir_ok n -> (fi = 0 \/ (fi = 1 /\ (1 < n)%Z))%nat ->
  upto (fst (half a b n fi)) (snd (half a b n fi)) = map (fun m => (fst (half a b n fi) + Z.of_nat m)%Z) (seq 0 (cnt n)).
Proof.
  intros a b n fi H Hn D F. unfold upto. f_equal. f_equal. unfold cnt. f_equal. destruct D as [D| ->].
  - assert (1 < n)%Z by (apply Z.even_spec in D as [q D]; lia). rewrite (proj2 (Z.ltb_lt 1 n)) by lia. apply Z.even_spec in D as [q D].
    assert (n / 2 = q)%Z by (rewrite D, Z.mul_comm, Z.div_mul; lia). destruct F as [->|[-> _]]; unfold half; cbn [Nat.eqb fst snd]; lia.
  - destruct F as [->|[_ F]]; [|lia]. unfold half; cbn [Nat.eqb fst snd]. change (1 / 2)%Z with 0%Z. cbn [Z.ltb Z.compare Pos.compare Pos.compare_cont]. lia.
Qed.
Lemma evens_seq : forall o e n, (e - o + 1 = n)%Z -> (1 < n)%Z -> Z.even n = true -> evens o e = map (fun m => (o + 2 * Z.of_nat m)%Z) (seq 0 (cnt n)).
Proof.
  intros o e n H Hn E. unfold evens, cnt. rewrite (proj2 (Z.ltb_lt 1 n)) by lia. f_equal. f_equal. f_equal. apply Z.even_spec in E as [q E]. replace (e - o + 2)%Z with (1 + q * 2)%Z by lia. rewrite Z.div_add by lia. rewrite E, Z.mul_comm, Z.div_mul by lia. reflexivity.
Qed.
Lemma both_sum : forall o e n (h : Z -> R), (e - o + 1 = n)%Z -> (1 <= n)%Z -> dir_ok n -> sum (map (fun m => sum (map h (both o n m))) (seq 0 (cnt n))) = sum (map h (upto o e)).
Proof.
  intros o e n h H Hn D. unfold both, cnt. destruct D as [D| ->].
  - assert (1 < n)%Z by (apply Z.even_spec in D as [q D]; lia). rewrite (proj2 (Z.ltb_lt 1 n)) by lia. apply Z.even_spec in D as [q D].
    replace (n / 2)%Z with q by (rewrite D, Z.mul_comm, Z.div_mul; lia). unfold upto. rewrite H, D. replace (Z.to_nat (2 * q)) with (2 * Z.to_nat q)%nat by lia. generalize (Z.to_nat q). intro N. rewrite map_map.
    induction N as [|N IH]; [reflexivity|]. rewrite seq_S. replace (2 * S N)%nat with (S (S (2 * N))) by lia. rewrite !seq_S. rewrite !map_app, !sum_app, IH. cbn [map]. rewrite !sum_cons, !sum_nil.
    replace (o + Z.of_nat (0 + 2 * N))%Z with (o + 2 * Z.of_nat (0 + N))%Z by lia. replace (o + Z.of_nat (0 + S (2 * N)))%Z with (o + 2 * Z.of_nat (0 + N) + 1)%Z by lia. ring.
  - cbn [Z.ltb Z.compare Pos.compare Pos.compare_cont]. change (Z.to_nat 1) with 1%nat. cbn [seq map]. assert (e = o) by lia. subst e. rewrite upto_one. cbn [map]. rewrite !sum_cons, !sum_nil. ring.
Qed.
Lemma both_eq : forall o a b n fi m, both o n m = (if Z.ltb 1 n then let q := (o + 2 * ((fst (half a b n fi) + Z.of_nat m) - fst (half a b n fi)))%Z in [q; (q + 1)%Z] else [o]).
Proof. intros. unfold both. destruct (Z.ltb 1 n); [|reflexivity]. cbn zeta. repeat f_equal; lia. Qed.

Definition grid (N M : nat) : list (nat * nat) := flat_map (fun n => map (fun m => (n, m)) (seq 0 M)) (seq 0 N).
Lemma in_grid : forall N M n m, In (n, m) (grid N M) <-> (n < N /\ m < M)%nat.
Proof.
  intros. unfold grid. rewrite in_flat_map. split.
  - intros [n' [H1 H2]]. apply in_map_iff in H2 as [m' [E H2]]. injection E; intros; subst. apply in_seq in H1, H2. lia.
  - intros [H1 H2]. exists n. split; [apply in_seq; lia|]. apply in_map. apply in_seq; lia.
Qed.
Lemma grid_map : forall X (f : nat -> nat -> X) N M, map (fun x => f (fst x) (snd x)) (grid N M) = flat_map (fun n => map (f n) (seq 0 M)) (seq 0 N).
Proof.
  intros. unfold grid. generalize (seq 0 N). intro l. induction l as [|n l IH]; [reflexivity|]. cbn [flat_map]. rewrite map_app, IH, map_map. reflexivity.
Qed.
Lemma flat_map_map : forall A B C (f : B -> list C) (h : A -> B) l, flat_map f (map h l) = flat_map (fun x => f (h x)) l.
Proof. induction l as [|x l IH]; [reflexivity|]. cbn [map flat_map]. rewrite IH. reflexivity. Qed.

(** A general side: outer direction (ac,bc) of n cells, inner direction (ac',bc') of n' cells. *)
Section G.
Variables (a b n : Z) (fi : nat) (a' b' n' : Z) (fi' : nat) (o e o' e' : Z) (pc pf : Z -> Z -> Z * Z * Z).
Hypothesis Hc : (b - a + 1 = n)%Z. Hypothesis Hn : (1 <= n)%Z. Hypothesis D : dir_ok n. Hypothesis F : (fi = 0 \/ (fi = 1 /\ (1 < n)%Z))%nat.
Hypothesis Hc' : (b' - a' + 1 = n')%Z. Hypothesis Hn' : (1 <= n')%Z. Hypothesis D' : dir_ok n'. Hypothesis F' : (fi' = 0 \/ (fi' = 1 /\ (1 < n')%Z))%nat.
Hypothesis He : (e - o + 1 = n)%Z. Hypothesis He' : (e' - o' + 1 = n')%Z.
Hypothesis inj : forall x y x' y', pc x y = pc x' y' -> x = x' /\ y = y'.
Let l := fst (half a b n fi). Let l' := fst (half a' b' n' fi').
Let P (x : nat * nat) := pc (l + Z.of_nat (fst x))%Z (l' + Z.of_nat (snd x))%Z.
Let ps := flat_map (fun x => map (fun y => pc x y) (upto l' (snd (half a' b' n' fi')))) (upto l (snd (half a b n fi))).
Lemma ps_grid : ps = map P (grid (cnt n) (cnt n')).
Proof using Hc Hn D F Hc' Hn' D' F'.
  unfold ps, P, l, l'. rewrite !upto_half by assumption. rewrite flat_map_map.
  rewrite (grid_map _ (fun x y => pc (fst (half a b n fi) + Z.of_nat x)%Z (fst (half a' b' n' fi') + Z.of_nat y)%Z)). apply flat_map_ext. intro x. rewrite map_map. reflexivity.
Qed.
Variable Q : nat -> nat -> R.
Let buf := flat_map (fun x => map (Q x) (seq 0 (cnt n'))) (seq 0 (cnt n)).
Lemma P_inj : forall x y, P x = P y -> x = y.
Proof using inj. intros [x1 x2] [y1 y2] H. unfold P in H. apply inj in H as [H1 H2]. cbn [fst snd] in H1, H2. apply Z.add_reg_l, Nat2Z.inj in H1. apply Z.add_reg_l, Nat2Z.inj in H2. congruence. Qed.
Lemma nn_dec : forall x y : nat * nat, {x = y} + {x <> y}.
Proof. decide equality; apply Nat.eq_dec. Qed.
Lemma stored : forall ar x y, (x < cnt n)%nat -> (y < cnt n')%nat -> at_ (store ar ps buf) (P (x, y)) = Q x y.
Proof using Hc Hn D F Hc' Hn' D' F' inj.
  intros ar x y Hx Hy. rewrite ps_grid. unfold buf. rewrite <- grid_map. rewrite (store_in _ P (fun x => Q (fst x) (snd x)) nn_dec); [reflexivity| |apply in_grid; auto]. intros; apply P_inj; assumption.
Qed.
Lemma untouched : forall ar q, ~ In q ps -> at_ (store ar ps buf) q = at_ ar q.
Proof using Hc Hn D F Hc' Hn' D' F'. intros ar q H. unfold buf. rewrite <- grid_map. rewrite ps_grid in *. apply store_other; assumption. Qed.
(** The fine faces under a coarse one. *)
Let ff (p : Z * Z) := flat_map (fun x => map (fun y => pf x y) (if Z.ltb 1 n' then let q := (o' + 2 * (snd p - l'))%Z in [q; (q + 1)%Z] else [o'])) (if Z.ltb 1 n then let q := (o + 2 * (fst p - l))%Z in [q; (q + 1)%Z] else [o]).
Lemma ff_both : forall x y, ff ((l + Z.of_nat x)%Z, (l' + Z.of_nat y)%Z) = flat_map (fun x => map (fun y => pf x y) (both o' n' y)) (both o n x).
Proof.
  intros. unfold ff. cbn [fst snd]. rewrite (both_eq o a b n fi x), (both_eq o' a' b' n' fi' y). reflexivity.
Qed.
Lemma all_fine : forall h, sum (map (fun x => sum (map h (ff ((l + Z.of_nat (fst x))%Z, (l' + Z.of_nat (snd x))%Z)))) (grid (cnt n) (cnt n'))) = sum (map h (flat_map (fun x => map (fun y => pf x y) (upto o' e')) (upto o e))).
Proof using Hn D Hn' D' He He'.
  intro h. rewrite sum_flat2. unfold grid. rewrite sum_flat2.
  rewrite <- (both_sum o e n) by assumption. apply sum_ext; intros x _.
  transitivity (sum (map (fun y => sum (map (fun x => sum (map (fun y => h (pf x y)) (both o' n' y))) (both o n x))) (seq 0 (cnt n')))).
  { apply sum_ext; intros y _. cbn [fst snd]. rewrite ff_both. rewrite sum_flat2. reflexivity. }
  rewrite sum_swap. apply sum_ext; intros z _. apply both_sum; assumption.
Qed.
Variables (ar : arr) (Af Ff Ac : Z * Z * Z -> R) (ff' : Z * Z * Z -> list (Z * Z * Z)).
Hypothesis Hff : forall x y, ff' (pc x y) = ff (x, y).
Hypothesis HQ : forall x y, let qs := flat_map (fun x => map (fun y => pf x y) (both o' n' y)) (both o n x) in sum (map Af qs) <> 0 -> Q x y * sum (map Af qs) = sum (map (fun q => Af q * Ff q) qs).
Lemma in_ps : forall p, In p ps -> exists x y, (x < cnt n)%nat /\ (y < cnt n')%nat /\ p = P (x, y).
Proof using Hc Hn D F Hc' Hn' D' F'. intros p H. rewrite ps_grid in H. apply in_map_iff in H as [[x y] [<- H]]. apply in_grid in H as [H1 H2]. exists x, y. split; [exact H1|split; [exact H2|reflexivity]]. Qed.
Lemma gen_each : forall p, In p ps -> sum (map Af (ff' p)) <> 0 -> at_ (store ar ps buf) p * sum (map Af (ff' p)) = sum (map (fun q => Af q * Ff q) (ff' p)).
Proof using Hc Hn D F Hc' Hn' D' F' inj Hff HQ.
  intros p H N. apply in_ps in H as [x [y [Hx [Hy ->]]]]. rewrite stored by assumption. unfold P in *. rewrite Hff in *. cbn [fst snd] in *. rewrite ff_both in *. apply HQ. assumption.
Qed.
Lemma gen_total : (forall p, In p ps -> Ac p = sum (map Af (ff' p)) /\ Ac p <> 0) ->
  sum (map (fun p => Ac p * at_ (store ar ps buf) p) ps) = sum (map (fun q => Af q * Ff q) (flat_map (fun x => map (fun y => pf x y) (upto o' e')) (upto o e))).
Proof using Hc Hn D F Hc' Hn' D' F' inj Hff HQ He He'.
  intro H. rewrite (sum_ext _ _ (fun p => sum (map (fun q => Af q * Ff q) (ff' p)))).
  - rewrite ps_grid, map_map. rewrite <- all_fine. apply sum_ext; intros [x y] _. unfold P. cbn [fst snd]. rewrite Hff. reflexivity.
  - intros p Hp. destruct (H p Hp) as [H1 H2]. rewrite <- gen_each; [rewrite H1; ring|assumption|congruence].
Qed.
End G.

Lemma sum4 : forall a b c d, sum [a; b; c; d] = a + b + c + d. Proof. intros. rewrite !sum_cons, sum_nil. ring. Qed.
Lemma sum2 : forall a b, sum [a; b] = a + b. Proof. intros. rewrite !sum_cons, sum_nil. ring. Qed.
Lemma sum1 : forall a, sum [a] = a. Proof. intros. rewrite !sum_cons, sum_nil. ring. Qed.
Lemma inj1 : forall (c x y x' y' : Z), (x, y, c) = (x', y', c) -> x = x' /\ y = y'. Proof. intros c x y x' y' H; injection H; auto. Qed.
Lemma inj2 : forall (c x y x' y' : Z), (x, c, y) = (x', c, y') -> x = x' /\ y = y'. Proof. intros c x y x' y' H; injection H; auto. Qed.
Lemma inj3 : forall (c x y x' y' : Z), (c, x, y) = (c, x', y') -> x = x' /\ y = y'. Proof. intros c x y x' y' H; injection H; auto. Qed.
Definition fi_ok (fi : nat) (n : Z) : Prop := (fi = 0 \/ (fi = 1 /\ (1 < n)%Z))%nat.
Definition corrected (dc df : dims) (gc gf : geom) (fc ff : vec) (fid fi1 fi2 : nat) : Prop :=
  let f' := SetFlux dc fc fid fi1 fi2 (LoadFlux df gf ff (opposite fid)) in
  (forall p, In p (slots dc fid fi1 fi2) -> sum (map (at_ (areas fid gf)) (fine_faces dc df fid fi1 fi2 p)) <> 0 ->
     at_ (comp fid f') p * sum (map (at_ (areas fid gf)) (fine_faces dc df fid fi1 fi2 p)) = sum (map (fun q => at_ (areas fid gf) q * at_ (comp fid ff) q) (fine_faces dc df fid fi1 fi2 p))) /\
  (forall p, ~ In p (slots dc fid fi1 fi2) -> at_ (comp fid f') p = at_ (comp fid fc) p) /\
  ((forall p, In p (slots dc fid fi1 fi2) -> at_ (areas fid gc) p = sum (map (at_ (areas fid gf)) (fine_faces dc df fid fi1 fi2 p)) /\ at_ (areas fid gc) p <> 0) ->
   sum (map (fun p => at_ (areas fid gc) p * at_ (comp fid f') p) (slots dc fid fi1 fi2)) = sum (map (fun q => at_ (areas fid gf) q * at_ (comp fid ff) q) (side df (opposite fid)))).
Ltac evs := repeat (rewrite evens_seq by (first [eassumption|reflexivity|lia])).
Lemma corrected1 : forall dc df gc gf fc ff fid fi1 fi2, nonempty dc -> same_size dc df -> dir_ok (nx2 dc) -> dir_ok (nx3 dc) -> In fid [0%nat; 1%nat] -> fi_ok fi1 (nx2 dc) -> fi_ok fi2 (nx3 dc) ->
  corrected dc df gc gf fc ff fid fi1 fi2.
Proof.
  intros dc df gc gf fc ff fid fi1 fi2 [[N1 [N2 N3]] ND] [S1 [S2 S3]] D2 D3 Hf F1 F2. unfold corrected.
  assert (L2 : Nat.ltb fid 2 = true) by (destruct Hf as [<-|[<-|[]]]; reflexivity). assert (Lo : Nat.ltb (opposite fid) 2 = true) by (destruct Hf as [<-|[<-|[]]]; reflexivity).
  set (ic := (is_ dc + (ie dc - is_ dc) * odd_ fid + odd_ fid)%Z). set (i_f := if Nat.eqb (Nat.modulo (opposite fid) 2) 0 then is_ df else (ie df + 1)%Z).
  assert (Ei : (is_ df + (ie df - is_ df + 1) * odd_ (opposite fid))%Z = i_f) by (unfold i_f, odd_; destruct Hf as [<-|[<-|[]]]; cbn [opposite Nat.eqb Nat.modulo Nat.divmod fst snd Nat.sub pred Z.of_nat Pos.of_succ_nat]; lia).
  assert (Es : (if Nat.eqb (opposite fid) 0 then is_ df else (ie df + 1)%Z) = i_f) by (unfold i_f; destruct Hf as [<-|[<-|[]]]; reflexivity).
  set (Q := fun x y : nat => if Z.ltb 1 (nx3 dc) then
        let k := (ks df + 2 * Z.of_nat x)%Z in let j := (js df + 2 * Z.of_nat y)%Z in let i := i_f in
        let amm := A1 gf k j i in let amp := A1 gf k (j + 1)%Z i in let apm := A1 gf (k + 1)%Z j i in let app := A1 gf (k + 1)%Z (j + 1)%Z i in
        (x1 ff k j i * amm + x1 ff k (j + 1)%Z i * amp + x1 ff (k + 1)%Z j i * apm + x1 ff (k + 1)%Z (j + 1)%Z i * app) / (amm + amp + apm + app)
     else if Z.ltb 1 (nx2 dc) then
        let k := ks df in let j := (js df + 2 * Z.of_nat y)%Z in let i := i_f in
        (x1 ff k j i * A1 gf k j i + x1 ff k (j + 1)%Z i * A1 gf k (j + 1)%Z i) / (A1 gf k j i + A1 gf k (j + 1)%Z i)
     else x1 ff (ks df) (js df) i_f).
  assert (X3 : (1 < nx3 dc)%Z -> (1 < nx2 dc)%Z). { intro. destruct (Z.eq_dec (nx2 dc) 1); [specialize (ND e); lia|unfold nx2 in *; lia]. }
  assert (EL : LoadFlux df gf ff (opposite fid) = flat_map (fun x => map (Q x) (seq 0 (cnt (nx2 dc)))) (seq 0 (cnt (nx3 dc)))).
  { unfold LoadFlux, Q. rewrite Lo, Ei, <- S3, <- S2. destruct (Z.ltb_spec 1 (nx3 dc)) as [H3|H3].
    - destruct D3 as [D3|D3]; [|lia]. destruct D2 as [D2|D2]; [|lia]. rewrite (evens_seq (js df) (je df) (nx2 dc)), (evens_seq (ks df) (ke df) (nx3 dc)) by (auto; lia || (unfold nx2, nx3 in *; lia)).
      rewrite flat_map_map. apply flat_map_ext. intro x. rewrite map_map. reflexivity.
    - assert (C3 : cnt (nx3 dc) = 1%nat) by (unfold cnt; rewrite (proj2 (Z.ltb_ge 1 (nx3 dc))) by lia; reflexivity). rewrite C3. cbn [seq flat_map]. rewrite app_nil_r.
      destruct (Z.ltb_spec 1 (nx2 dc)) as [H2|H2].
      + destruct D2 as [D2|D2]; [|lia]. rewrite (evens_seq (js df) (je df) (nx2 dc)) by (auto; unfold nx2 in *; lia). rewrite map_map. reflexivity.
      + assert (C2 : cnt (nx2 dc) = 1%nat) by (unfold cnt; rewrite (proj2 (Z.ltb_ge 1 (nx2 dc))) by lia; reflexivity). rewrite C2. reflexivity. }
  assert (ES : slots dc fid fi1 fi2 = flat_map (fun x => map (fun y => (x, y, ic)) (upto (fst (half (js dc) (je dc) (nx2 dc) fi1)) (snd (half (js dc) (je dc) (nx2 dc) fi1)))) (upto (fst (half (ks dc) (ke dc) (nx3 dc) fi2)) (snd (half (ks dc) (ke dc) (nx3 dc) fi2)))).
  { unfold slots. rewrite L2. destruct (half (js dc) (je dc) (nx2 dc) fi1), (half (ks dc) (ke dc) (nx3 dc) fi2). reflexivity. }
  assert (G3 : (1 <= nx3 dc)%Z) by (unfold nx3; lia). assert (G2 : (1 <= nx2 dc)%Z) by (unfold nx2; lia).
  assert (HQ : forall x y, let qs := flat_map (fun x => map (fun y => (x, y, i_f)) (both (js df) (nx2 dc) y)) (both (ks df) (nx3 dc) x) in sum (map (at_ (areas fid gf)) qs) <> 0 -> Q x y * sum (map (at_ (areas fid gf)) qs) = sum (map (fun q => at_ (areas fid gf) q * at_ (comp fid ff) q) qs)).
  { intros x y. unfold both, Q, areas, comp. rewrite L2. destruct (Z.ltb_spec 1 (nx3 dc)) as [H3|H3]; destruct (Z.ltb_spec 1 (nx2 dc)) as [H2|H2]; [|lia| |]; cbn [flat_map map app at_]; rewrite ?sum4, ?sum2, ?sum1; intro; try (field; lra); ring. }
  assert (EC : comp fid (SetFlux dc fc fid fi1 fi2 (LoadFlux df gf ff (opposite fid))) = store (x1 fc) (slots dc fid fi1 fi2) (LoadFlux df gf ff (opposite fid))) by (unfold comp, SetFlux; rewrite L2; reflexivity).
  assert (EF : comp fid fc = x1 fc) by (unfold comp; rewrite L2; reflexivity).
  cbv zeta. rewrite EC, EF, EL, ES.
  assert (Hff : forall x y, fine_faces dc df fid fi1 fi2 (x, y, ic) = flat_map (fun x' => map (fun y' => (x', y', i_f)) (if Z.ltb 1 (nx2 dc) then let q := (js df + 2 * (y - fst (half (js dc) (je dc) (nx2 dc) fi1)))%Z in [q; (q + 1)%Z] else [js df])) (if Z.ltb 1 (nx3 dc) then let q := (ks df + 2 * (x - fst (half (ks dc) (ke dc) (nx3 dc) fi2)))%Z in [q; (q + 1)%Z] else [ks df])).
  { intros. unfold fine_faces. rewrite L2. reflexivity. }
  split; [|split].
  - intros p Hp HN. eapply (gen_each (ks dc) (ke dc) (nx3 dc) fi2 (js dc) (je dc) (nx2 dc) fi1 (ks df) (js df) (fun x y => (x, y, ic)) (fun x y => (x, y, i_f))); eauto. intros; eapply inj1; eassumption.
  - intros p Hp. eapply (untouched (ks dc) (ke dc) (nx3 dc) fi2 (js dc) (je dc) (nx2 dc) fi1 (fun x y => (x, y, ic))); eauto.
  - intro Hp. unfold side. rewrite Lo, Es.
    eapply (gen_total (ks dc) (ke dc) (nx3 dc) fi2 (js dc) (je dc) (nx2 dc) fi1 (ks df) (ke df) (js df) (je df) (fun x y => (x, y, ic)) (fun x y => (x, y, i_f))); eauto. intros; eapply inj1; eassumption.
Qed.
Lemma corrected2 : forall dc df gc gf fc ff fid fi1 fi2, nonempty dc -> (1 < nx2 dc)%Z -> same_size dc df -> Z.even (nx1 dc) = true -> dir_ok (nx3 dc) -> In fid [2%nat; 3%nat] -> fi_ok fi1 (nx1 dc) -> fi_ok fi2 (nx3 dc) ->
  corrected dc df gc gf fc ff fid fi1 fi2.
Proof.
  intros dc df gc gf fc ff fid fi1 fi2 [[N1 [N2 N3]] ND] H2 [S1 [S2 S3]] D1 D3 Hf F1 F2. unfold corrected.
  assert (L2 : Nat.ltb fid 2 = false) by (destruct Hf as [<-|[<-|[]]]; reflexivity). assert (Lo : Nat.ltb (opposite fid) 2 = false) by (destruct Hf as [<-|[<-|[]]]; reflexivity).
  assert (L4 : Nat.ltb fid 4 = true) by (destruct Hf as [<-|[<-|[]]]; reflexivity). assert (Lo4 : Nat.ltb (opposite fid) 4 = true) by (destruct Hf as [<-|[<-|[]]]; reflexivity).
  set (ic := (js dc + (je dc - js dc) * odd_ fid + odd_ fid)%Z). set (i_f := if Nat.eqb (Nat.modulo (opposite fid) 2) 0 then js df else (je df + 1)%Z).
  assert (Ei : (js df + (je df - js df + 1) * odd_ (opposite fid))%Z = i_f) by (unfold i_f, odd_; destruct Hf as [<-|[<-|[]]]; cbn [opposite Nat.eqb Nat.modulo Nat.divmod fst snd Nat.sub pred Z.of_nat Pos.of_succ_nat]; lia).
  assert (Es : (if Nat.eqb (opposite fid) 2 then js df else (je df + 1)%Z) = i_f) by (unfold i_f; destruct Hf as [<-|[<-|[]]]; reflexivity).
  set (Q := fun x y : nat => if Z.ltb 1 (nx3 dc) then
        let k := (ks df + 2 * Z.of_nat x)%Z in let i := (is_ df + 2 * Z.of_nat y)%Z in let j := i_f in
        (x2 ff k j i * A2 gf k j i + x2 ff k j (i + 1)%Z * A2 gf k j (i + 1)%Z + x2 ff (k + 1)%Z j i * A2 gf (k + 1)%Z j i + x2 ff (k + 1)%Z j (i + 1)%Z * A2 gf (k + 1)%Z j (i + 1)%Z)
        / (A2 gf k j i + A2 gf k j (i + 1)%Z + A2 gf (k + 1)%Z j i + A2 gf (k + 1)%Z j (i + 1)%Z)
     else 
        let k := ks df in let i := (is_ df + 2 * Z.of_nat y)%Z in let j := i_f in
        (x2 ff k j i * A2 gf k j i + x2 ff k j (i + 1)%Z * A2 gf k j (i + 1)%Z) / (A2 gf k j i + A2 gf k j (i + 1)%Z)).
  assert (n1 : (1 < nx1 dc)%Z) by (pose proof D1 as X; apply Z.even_spec in X as [q X]; unfold nx1 in *; lia).
  assert (EL : LoadFlux df gf ff (opposite fid) = flat_map (fun x => map (Q x) (seq 0 (cnt (nx1 dc)))) (seq 0 (cnt (nx3 dc)))).
  { unfold LoadFlux, Q. rewrite Lo, Lo4, Ei, <- S3, <- S2. rewrite (proj2 (Z.ltb_lt 1 (nx2 dc))) by lia. rewrite (evens_seq (is_ df) (ie df) (nx1 dc)) by (auto; lia || (unfold nx1 in *; lia)). destruct (Z.ltb_spec 1 (nx3 dc)) as [H3|H3].
    - destruct D3 as [D3|D3]; [|lia]. rewrite (evens_seq (ks df) (ke df) (nx3 dc)) by (auto; lia || (unfold nx1, nx3 in *; lia)).
      rewrite flat_map_map. apply flat_map_ext. intro x. rewrite map_map. reflexivity.
    - assert (C3 : cnt (nx3 dc) = 1%nat) by (unfold cnt; rewrite (proj2 (Z.ltb_ge 1 (nx3 dc))) by lia; reflexivity). rewrite C3. cbn [seq flat_map]. rewrite app_nil_r.
      rewrite map_map. reflexivity. }
  assert (ES : slots dc fid fi1 fi2 = flat_map (fun x => map (fun y => (x, ic, y)) (upto (fst (half (is_ dc) (ie dc) (nx1 dc) fi1)) (snd (half (is_ dc) (ie dc) (nx1 dc) fi1)))) (upto (fst (half (ks dc) (ke dc) (nx3 dc) fi2)) (snd (half (ks dc) (ke dc) (nx3 dc) fi2)))).
  { unfold slots. rewrite L2, L4. destruct (half (is_ dc) (ie dc) (nx1 dc) fi1), (half (ks dc) (ke dc) (nx3 dc) fi2). reflexivity. }
  assert (G3 : (1 <= nx3 dc)%Z) by (unfold nx3; lia). assert (G1 : (1 <= nx1 dc)%Z) by lia.
  assert (HQ : forall x y, let qs := flat_map (fun x => map (fun y => (x, i_f, y)) (both (is_ df) (nx1 dc) y)) (both (ks df) (nx3 dc) x) in sum (map (at_ (areas fid gf)) qs) <> 0 -> Q x y * sum (map (at_ (areas fid gf)) qs) = sum (map (fun q => at_ (areas fid gf) q * at_ (comp fid ff) q) qs)).
  { intros x y. unfold both, Q, areas, comp. rewrite L2, L4. rewrite (proj2 (Z.ltb_lt 1 (nx1 dc)) n1). destruct (Z.ltb_spec 1 (nx3 dc)) as [H3|H3]; cbn [flat_map map app at_]; rewrite ?sum4, ?sum2, ?sum1; intro; field; lra. }
  assert (EC : comp fid (SetFlux dc fc fid fi1 fi2 (LoadFlux df gf ff (opposite fid))) = store (x2 fc) (slots dc fid fi1 fi2) (LoadFlux df gf ff (opposite fid))) by (unfold comp, SetFlux; rewrite L2, L4; reflexivity).
  assert (EF : comp fid fc = x2 fc) by (unfold comp; rewrite L2, L4; reflexivity).
  cbv zeta. rewrite EC, EF, EL, ES.
  assert (Hff : forall x y, fine_faces dc df fid fi1 fi2 (x, ic, y) = flat_map (fun x' => map (fun y' => (x', i_f, y')) (if Z.ltb 1 (nx1 dc) then let q := (is_ df + 2 * (y - fst (half (is_ dc) (ie dc) (nx1 dc) fi1)))%Z in [q; (q + 1)%Z] else [is_ df])) (if Z.ltb 1 (nx3 dc) then let q := (ks df + 2 * (x - fst (half (ks dc) (ke dc) (nx3 dc) fi2)))%Z in [q; (q + 1)%Z] else [ks df])).
  { intros. unfold fine_faces. rewrite L2, L4. reflexivity. }
  assert (D1' : dir_ok (nx1 dc)) by (left; assumption).
  split; [|split].
  - intros p Hp HN. eapply (gen_each (ks dc) (ke dc) (nx3 dc) fi2 (is_ dc) (ie dc) (nx1 dc) fi1 (ks df) (is_ df) (fun x y => (x, ic, y)) (fun x y => (x, i_f, y))); eauto. intros; eapply inj2; eassumption.
  - intros p Hp. eapply (untouched (ks dc) (ke dc) (nx3 dc) fi2 (is_ dc) (ie dc) (nx1 dc) fi1 (fun x y => (x, ic, y))); eauto.
  - intro Hp. unfold side. rewrite Lo, Lo4, Es.
    eapply (gen_total (ks dc) (ke dc) (nx3 dc) fi2 (is_ dc) (ie dc) (nx1 dc) fi1 (ks df) (ke df) (is_ df) (ie df) (fun x y => (x, ic, y)) (fun x y => (x, i_f, y))); eauto. intros; eapply inj2; eassumption.
Qed.
Lemma corrected3 : forall dc df gc gf fc ff fid fi1 fi2, nonempty dc -> (1 < nx3 dc)%Z -> same_size dc df -> Z.even (nx1 dc) = true -> dir_ok (nx2 dc) -> In fid [4%nat; 5%nat] -> fi_ok fi1 (nx1 dc) -> fi_ok fi2 (nx2 dc) ->
  corrected dc df gc gf fc ff fid fi1 fi2.
Proof.
  intros dc df gc gf fc ff fid fi1 fi2 [[N1 [N2 N3]] ND] H3 [S1 [S2 S3]] D1 D2 Hf F1 F2. unfold corrected.
  assert (L2 : Nat.ltb fid 2 = false) by (destruct Hf as [<-|[<-|[]]]; reflexivity). assert (Lo : Nat.ltb (opposite fid) 2 = false) by (destruct Hf as [<-|[<-|[]]]; reflexivity).
  assert (L4 : Nat.ltb fid 4 = false) by (destruct Hf as [<-|[<-|[]]]; reflexivity). assert (Lo4 : Nat.ltb (opposite fid) 4 = false) by (destruct Hf as [<-|[<-|[]]]; reflexivity).
  assert (H2 : (1 < nx2 dc)%Z). { destruct (Z.eq_dec (nx2 dc) 1); [specialize (ND e); lia|unfold nx2 in *; lia]. }
  set (ic := (ks dc + (ke dc - ks dc) * odd_ fid + odd_ fid)%Z). set (i_f := if Nat.eqb (Nat.modulo (opposite fid) 2) 0 then ks df else (ke df + 1)%Z).
  assert (Ei : (ks df + (ke df - ks df + 1) * odd_ (opposite fid))%Z = i_f) by (unfold i_f, odd_; destruct Hf as [<-|[<-|[]]]; cbn [opposite Nat.eqb Nat.modulo Nat.divmod fst snd Nat.sub pred Z.of_nat Pos.of_succ_nat]; lia).
  assert (Es : (if Nat.eqb (opposite fid) 4 then ks df else (ke df + 1)%Z) = i_f) by (unfold i_f; destruct Hf as [<-|[<-|[]]]; reflexivity).
  set (Q := fun x y : nat => 
        let j := (js df + 2 * Z.of_nat x)%Z in let i := (is_ df + 2 * Z.of_nat y)%Z in let k := i_f in
        (x3 ff k j i * A3 gf k j i + x3 ff k j (i + 1)%Z * A3 gf k j (i + 1)%Z + x3 ff k (j + 1)%Z i * A3 gf k (j + 1)%Z i + x3 ff k (j + 1)%Z (i + 1)%Z * A3 gf k (j + 1)%Z (i + 1)%Z)
        / (A3 gf k j i + A3 gf k j (i + 1)%Z + A3 gf k (j + 1)%Z i + A3 gf k (j + 1)%Z (i + 1)%Z)).
  assert (n1 : (1 < nx1 dc)%Z) by (pose proof D1 as X; apply Z.even_spec in X as [q X]; unfold nx1 in *; lia).
  assert (D2' : Z.even (nx2 dc) = true) by (destruct D2; [assumption|lia]).
  assert (EL : LoadFlux df gf ff (opposite fid) = flat_map (fun x => map (Q x) (seq 0 (cnt (nx1 dc)))) (seq 0 (cnt (nx2 dc)))).
  { unfold LoadFlux, Q. rewrite Lo, Lo4, Ei. rewrite (evens_seq (is_ df) (ie df) (nx1 dc)) by (auto; lia || (unfold nx1 in *; lia)).
    rewrite (evens_seq (js df) (je df) (nx2 dc)) by (auto; lia || (unfold nx1, nx2 in *; lia)).
    rewrite flat_map_map. apply flat_map_ext. intro x. rewrite map_map. reflexivity. }
  assert (ES : slots dc fid fi1 fi2 = flat_map (fun x => map (fun y => (ic, x, y)) (upto (fst (half (is_ dc) (ie dc) (nx1 dc) fi1)) (snd (half (is_ dc) (ie dc) (nx1 dc) fi1)))) (upto (fst (half (js dc) (je dc) (nx2 dc) fi2)) (snd (half (js dc) (je dc) (nx2 dc) fi2)))).
  { unfold slots. rewrite L2, L4. destruct (half (is_ dc) (ie dc) (nx1 dc) fi1), (half (js dc) (je dc) (nx2 dc) fi2). reflexivity. }
  assert (G2 : (1 <= nx2 dc)%Z) by lia. assert (G1 : (1 <= nx1 dc)%Z) by lia.
  assert (HQ : forall x y, let qs := flat_map (fun x => map (fun y => (i_f, x, y)) (both (is_ df) (nx1 dc) y)) (both (js df) (nx2 dc) x) in sum (map (at_ (areas fid gf)) qs) <> 0 -> Q x y * sum (map (at_ (areas fid gf)) qs) = sum (map (fun q => at_ (areas fid gf) q * at_ (comp fid ff) q) qs)).
  { intros x y. unfold both, Q, areas, comp. rewrite L2, L4. rewrite (proj2 (Z.ltb_lt 1 (nx1 dc)) n1), (proj2 (Z.ltb_lt 1 (nx2 dc)) H2). cbn [flat_map map app at_]; rewrite ?sum4; intro; field; lra. }
  assert (EC : comp fid (SetFlux dc fc fid fi1 fi2 (LoadFlux df gf ff (opposite fid))) = store (x3 fc) (slots dc fid fi1 fi2) (LoadFlux df gf ff (opposite fid))) by (unfold comp, SetFlux; rewrite L2, L4; reflexivity).
  assert (EF : comp fid fc = x3 fc) by (unfold comp; rewrite L2, L4; reflexivity).
  cbv zeta. rewrite EC, EF, EL, ES.
  assert (Hff : forall x y, fine_faces dc df fid fi1 fi2 (ic, x, y) = flat_map (fun x' => map (fun y' => (i_f, x', y')) (if Z.ltb 1 (nx1 dc) then let q := (is_ df + 2 * (y - fst (half (is_ dc) (ie dc) (nx1 dc) fi1)))%Z in [q; (q + 1)%Z] else [is_ df])) (if Z.ltb 1 (nx2 dc) then let q := (js df + 2 * (x - fst (half (js dc) (je dc) (nx2 dc) fi2)))%Z in [q; (q + 1)%Z] else [js df])).
  { intros. unfold fine_faces. rewrite L2, L4. reflexivity. }
  assert (D1' : dir_ok (nx1 dc)) by (left; assumption).
  split; [|split].
  - intros p Hp HN. eapply (gen_each (js dc) (je dc) (nx2 dc) fi2 (is_ dc) (ie dc) (nx1 dc) fi1 (js df) (is_ df) (fun x y => (ic, x, y)) (fun x y => (i_f, x, y))); eauto. intros; eapply inj3; eassumption.
  - intros p Hp. eapply (untouched (js dc) (je dc) (nx2 dc) fi2 (is_ dc) (ie dc) (nx1 dc) fi1 (fun x y => (ic, x, y))); eauto.
  - intro Hp. unfold side. rewrite Lo, Lo4, Es.
    eapply (gen_total (js dc) (je dc) (nx2 dc) fi2 (is_ dc) (ie dc) (nx1 dc) fi1 (js df) (je df) (is_ df) (ie df) (fun x y => (ic, x, y)) (fun x y => (i_f, x, y))); eauto. intros; eapply inj3; eassumption.
Qed.
Lemma part_ok : forall d fid fi1 fi2, nonempty d -> In (Part fid fi1 fi2) (parts d fid) -> (fi1 = 0 \/ (fi1 = 1 /\ (1 < nx2 d)%Z))%nat /\ fi_ok fi2 (nx3 d).
Proof.
  intros d fid fi1 fi2 [[N1 [N2 N3]] ND] H. assert (X3 : (1 < nx3 d)%Z -> (1 < nx2 d)%Z). { intro. destruct (Z.eq_dec (nx2 d) 1); [specialize (ND e); lia|unfold nx2 in *; lia]. }
  unfold parts in H. destruct (Z.ltb_spec 1 (nx2 d)), (Z.ltb_spec 1 (nx3 d)); cbn [In] in H; decompose [or] H; try tauto; match goal with E : Part _ _ _ = Part _ _ _ |- _ => injection E; intros; subst end; unfold fi_ok; auto; split; auto; right; split; auto; lia.
Qed.
Lemma corrected_all : forall dc df gc gf fc ff fid fi1 fi2, nonempty dc -> same_size dc df -> Z.even (nx1 dc) = true -> dir_ok (nx2 dc) -> dir_ok (nx3 dc) -> In fid (sides dc) -> In (Part fid fi1 fi2) (parts dc fid) ->
  corrected dc df gc gf fc ff fid fi1 fi2.
Proof.
  intros dc df gc gf fc ff fid fi1 fi2 N S D1 D2 D3 Hin Hp. destruct (part_ok _ _ _ _ N Hp) as [P1 P2].
  assert (D : In fid [0%nat; 1%nat] \/ (In fid [2%nat; 3%nat] /\ (1 < nx2 dc)%Z) \/ (In fid [4%nat; 5%nat] /\ (1 < nx3 dc)%Z)).
  { unfold sides in Hin. destruct (Z.ltb_spec 1 (nx2 dc)), (Z.ltb_spec 1 (nx3 dc)); rewrite !in_app_iff in Hin; destruct Hin as [I|[I|I]]; auto; destruct I. }
  assert (n1 : (1 < nx1 dc)%Z) by (pose proof D1 as X; apply Z.even_spec in X as [q X]; destruct N as [[N1 _] _]; unfold nx1 in *; lia).
  assert (W : fi_ok fi1 (nx1 dc)) by (unfold fi_ok; lia).
  destruct D as [D|[[D HD]|[D HD]]]; [apply corrected1|apply corrected2|apply corrected3]; auto.
  unfold fi_ok in *. destruct N as [[_ [N2 _]] ND]. destruct P2 as [P2|P2]; [left; assumption|right]. split; [tauto|]. destruct (Z.eq_dec (nx2 dc) 1) as [E|E]; [specialize (ND E); lia|unfold nx2 in *; lia].
Qed.
Lemma opp_sign : forall fid, (fid < 6)%nat -> out_sign (opposite fid) = - out_sign fid.
Proof. intros fid H. do 6 (destruct fid as [|fid]; [unfold out_sign; cbn; ring|]). lia. Qed.
Lemma opp_areas : forall fid g, (fid < 6)%nat -> areas (opposite fid) g = areas fid g.
Proof. intros fid g H. do 6 (destruct fid as [|fid]; [reflexivity|]). lia. Qed.
Lemma opp_comp : forall fid g, (fid < 6)%nat -> comp (opposite fid) g = comp fid g.
Proof. intros fid g H. do 6 (destruct fid as [|fid]; [reflexivity|]). lia. Qed.
Lemma sides_lt : forall d fid, In fid (sides d) -> (fid < 6)%nat.
Proof. intros d fid. unfold sides. destruct (Z.ltb 1 (nx2 d)), (Z.ltb 1 (nx3 d)); cbn [app In]; intuition lia. Qed.
Lemma flow_at : forall g f fid ps, flow g f fid ps = out_sign fid * sum (map (fun p => at_ (areas fid g) p * at_ (comp fid f) p) ps).
Proof. intros. unfold flow. f_equal. apply sum_ext. intros [[k j] i] _. reflexivity. Qed.
Lemma area_at : forall g fid ps, area_of g fid ps = sum (map (at_ (areas fid g)) ps).
Proof. intros. unfold area_of. apply sum_ext. intros [[k j] i] _. reflexivity. Qed.
(** Parts are disjoint. *)
Lemma half_range : forall a b n fi x, (b - a + 1 = n)%Z -> dir_ok n -> (fi = 0 \/ fi = 1)%nat -> (fst (half a b n fi) <= x <= snd (half a b n fi))%Z -> (a <= x <= b)%Z /\ (fi = if Z.ltb x (a + n / 2) then 0 else if Z.ltb 1 n then 1 else fi)%nat.
Proof.
  intros a b n fi x H D F R. destruct D as [D| ->].
  - apply Z.even_spec in D as [q D]. assert (E : (n / 2)%Z = q) by (rewrite D, Z.mul_comm, Z.div_mul; lia). unfold half in R. rewrite E in *. destruct F as [-> | ->]; cbn [Nat.eqb fst snd] in R.
    + split; [lia|]. rewrite (proj2 (Z.ltb_lt x (a + q))) by lia. reflexivity.
    + split; [lia|]. rewrite (proj2 (Z.ltb_ge x (a + q))) by lia. rewrite (proj2 (Z.ltb_lt 1 n)) by lia. reflexivity.
  - unfold half in R. change (1 / 2)%Z with 0%Z in *. destruct F as [-> | ->]; cbn [Nat.eqb fst snd] in R; (split; [lia|]); rewrite (proj2 (Z.ltb_ge x (a + 0))) by lia; reflexivity.
Qed.
Definition which (a n x : Z) : nat := if Z.ltb 1 n then if Z.ltb x (a + n / 2) then 0%nat else 1%nat else 0%nat.
Lemma half_which : forall a b n fi x, (b - a + 1 = n)%Z -> dir_ok n -> fi_ok fi n -> (fst (half a b n fi) <= x <= snd (half a b n fi))%Z -> fi = which a n x.
Proof.
  intros a b n fi x H D F R. unfold which. destruct (half_range a b n fi x H D) as [_ E]; [unfold fi_ok in F; lia|assumption|]. destruct (Z.ltb_spec 1 n) as [H1|H1].
  - exact E.
  - unfold fi_ok in F. lia.
Qed.
Lemma slots_which : forall d fid fi1 fi2 p, nonempty d -> Z.even (nx1 d) = true -> dir_ok (nx2 d) -> dir_ok (nx3 d) -> In fid (sides d) -> In (Part fid fi1 fi2) (parts d fid) -> In p (slots d fid fi1 fi2) ->
  let '(k, j, i) := p in
  if Nat.ltb fid 2 then i = (if Nat.eqb fid 0 then is_ d else (ie d + 1)%Z) /\ fi1 = which (js d) (nx2 d) j /\ fi2 = which (ks d) (nx3 d) k
  else if Nat.ltb fid 4 then j = (if Nat.eqb fid 2 then js d else (je d + 1)%Z) /\ fi1 = which (is_ d) (nx1 d) i /\ fi2 = which (ks d) (nx3 d) k
  else k = (if Nat.eqb fid 4 then ks d else (ke d + 1)%Z) /\ fi1 = which (is_ d) (nx1 d) i /\ fi2 = which (js d) (nx2 d) j.
Proof.
  intros d fid fi1 fi2 [[k j] i] N D1 D2 D3 Hin Hp Hs. pose proof (sides_lt _ _ Hin) as L. destruct (part_ok _ _ _ _ N Hp) as [P1 P2].
  assert (n1 : (1 < nx1 d)%Z) by (pose proof D1 as X; apply Z.even_spec in X as [q X]; destruct N as [[N1 _] _]; unfold nx1 in *; lia).
  assert (W : fi_ok fi1 (nx1 d)) by (unfold fi_ok; lia).
  assert (W2 : fi_ok fi2 (nx2 d)). { unfold fi_ok in *. destruct N as [[_ [N2 _]] ND]. destruct P2 as [P2|P2]; [left; assumption|right]. split; [tauto|]. destruct (Z.eq_dec (nx2 d) 1) as [E|E]; [specialize (ND E); lia|unfold nx2 in *; lia]. }
  assert (D1' : dir_ok (nx1 d)) by (left; assumption).
  unfold slots in Hs. destruct (Nat.ltb fid 2) eqn:F2; [|destruct (Nat.ltb fid 4) eqn:F4].
  - destruct (half (js d) (je d) (nx2 d) fi1) as [jl ju] eqn:HJ. destruct (half (ks d) (ke d) (nx3 d) fi2) as [kl ku] eqn:HK.
    apply in_flat_map in Hs as [k' [Hk Hs]]. apply in_map_iff in Hs as [j' [E Hj]]. injection E; intros; subst. apply in_upto in Hk, Hj. split; [|split].
    + apply Nat.ltb_lt in F2. destruct fid as [|[|fid]]; [| |lia]; unfold odd_; cbn [Nat.eqb Nat.modulo Nat.divmod fst snd Nat.sub Z.of_nat Pos.of_succ_nat]; lia.
    + apply (half_which (js d) (je d)); auto. rewrite HJ; cbn; lia.
    + apply (half_which (ks d) (ke d)); auto. rewrite HK; cbn; lia.
  - destruct (half (is_ d) (ie d) (nx1 d) fi1) as [jl ju] eqn:HJ. destruct (half (ks d) (ke d) (nx3 d) fi2) as [kl ku] eqn:HK.
    apply in_flat_map in Hs as [k' [Hk Hs]]. apply in_map_iff in Hs as [j' [E Hj]]. injection E; intros; subst. apply in_upto in Hk, Hj. split; [|split].
    + apply Nat.ltb_ge in F2. apply Nat.ltb_lt in F4. do 2 (destruct fid as [|fid]; [lia|]). destruct fid as [|[|fid]]; [| |lia]; unfold odd_; cbn [Nat.eqb Nat.modulo Nat.divmod fst snd Nat.sub Z.of_nat Pos.of_succ_nat]; lia.
    + apply (half_which (is_ d) (ie d)); auto. rewrite HJ; cbn; lia.
    + apply (half_which (ks d) (ke d)); auto. rewrite HK; cbn; lia.
  - destruct (half (is_ d) (ie d) (nx1 d) fi1) as [jl ju] eqn:HJ. destruct (half (js d) (je d) (nx2 d) fi2) as [kl ku] eqn:HK.
    apply in_flat_map in Hs as [k' [Hk Hs]]. apply in_map_iff in Hs as [j' [E Hj]]. injection E; intros; subst. apply in_upto in Hk, Hj. split; [|split].
    + apply Nat.ltb_ge in F4. do 4 (destruct fid as [|fid]; [lia|]). destruct fid as [|[|fid]]; [| |lia]; unfold odd_; cbn [Nat.eqb Nat.modulo Nat.divmod fst snd Nat.sub Z.of_nat Pos.of_succ_nat]; lia.
    + apply (half_which (is_ d) (ie d)); auto. rewrite HJ; cbn; lia.
    + apply (half_which (js d) (je d)); auto. rewrite HK; cbn; lia.
Qed.
Lemma set_other : forall d g f fid fi1 fi2 df gf ff fid' fi1' fi2', nonempty d -> Z.even (nx1 d) = true -> dir_ok (nx2 d) -> dir_ok (nx3 d) -> same_size d df ->
  In fid (sides d) -> In (Part fid fi1 fi2) (parts d fid) -> In fid' (sides d) -> In (Part fid' fi1' fi2') (parts d fid') -> (fid, fi1, fi2) <> (fid', fi1', fi2') ->
  patch_flow d g (SetFlux d f fid fi1 fi2 (LoadFlux df gf ff (opposite fid))) (Part fid' fi1' fi2') = patch_flow d g f (Part fid' fi1' fi2').
Proof.
  intros d g f fid fi1 fi2 df gf ff fid' fi1' fi2' N D1 D2 D3 S Hin Hp Hin' Hp' NE. unfold patch_flow. rewrite !flow_at. f_equal. apply sum_ext. intros p Hp0. f_equal.
  destruct (corrected_all d df g gf f ff fid fi1 fi2 N S D1 D2 D3 Hin Hp) as [_ [U _]].
  pose proof (slots_which d fid' fi1' fi2' p N D1 D2 D3 Hin' Hp' Hp0) as W'.
  assert (Same : comp fid = comp fid' -> Nat.ltb fid 2 = Nat.ltb fid' 2 -> Nat.ltb fid 4 = Nat.ltb fid' 4 -> at_ (comp fid' (SetFlux d f fid fi1 fi2 (LoadFlux df gf ff (opposite fid)))) p = at_ (comp fid' f) p).
  { intros EC E2 E4. rewrite <- EC. apply U. intro Hs. pose proof (slots_which d fid fi1 fi2 p N D1 D2 D3 Hin Hp Hs) as W. destruct p as [[k j] i]. rewrite E2, E4 in W. destruct N as [[N1 [N2 N3]] _]. apply NE.
    destruct (Nat.ltb fid' 2) eqn:F2; [|destruct (Nat.ltb fid' 4) eqn:F4].
    - destruct W as [W1 [W2 W3]], W' as [W1' [W2' W3']]. assert (fid = fid') by (apply Nat.ltb_lt in F2, E2; destruct fid as [|[|fid]], fid' as [|[|fid']]; cbn [Nat.eqb] in *; lia). congruence.
    - destruct W as [W1 [W2 W3]], W' as [W1' [W2' W3']]. assert (fid = fid') by (apply Nat.ltb_ge in F2, E2; apply Nat.ltb_lt in F4, E4; destruct fid as [|[|[|[|fid]]]], fid' as [|[|[|[|fid']]]]; cbn [Nat.eqb] in *; lia). congruence.
    - destruct W as [W1 [W2 W3]], W' as [W1' [W2' W3']]. pose proof (sides_lt _ _ Hin). pose proof (sides_lt _ _ Hin'). assert (fid = fid') by (apply Nat.ltb_ge in F4, E4; destruct fid as [|[|[|[|[|[|fid]]]]]], fid' as [|[|[|[|[|[|fid']]]]]]; cbn [Nat.eqb] in *; lia). congruence. }
  destruct (Nat.ltb fid 2) eqn:F2, (Nat.ltb fid' 2) eqn:F2', (Nat.ltb fid 4) eqn:F4, (Nat.ltb fid' 4) eqn:F4'; try (apply Same; [unfold comp; rewrite ?F2, ?F2', ?F4, ?F4'; reflexivity|reflexivity|reflexivity]);
  try (apply Nat.ltb_lt in F2; apply Nat.ltb_ge in F4; lia); try (apply Nat.ltb_lt in F2'; apply Nat.ltb_ge in F4'; lia);
  unfold comp, SetFlux; rewrite ?F2, ?F2', ?F4, ?F4'; reflexivity.
Qed.
Lemma all_corrections : forall dc gc fc (cs : list correction), nonempty dc -> Z.even (nx1 dc) = true -> dir_ok (nx2 dc) -> dir_ok (nx3 dc) -> NoDup (map key cs) ->
  (forall c, In c cs -> same_size dc (c_d c) /\ In (c_fid c) (sides dc) /\ In (Part (c_fid c) (c_fi1 c) (c_fi2 c)) (parts dc (c_fid c)) /\
     forall p, In p (slots dc (c_fid c) (c_fi1 c) (c_fi2 c)) -> at_ (areas (c_fid c) gc) p = area_of (c_g c) (c_fid c) (fine_faces dc (c_d c) (c_fid c) (c_fi1 c) (c_fi2 c) p) /\ at_ (areas (c_fid c) gc) p <> 0) ->
  forall c, In c cs -> patch_flow dc gc (fold_left (correct dc) cs fc) (Part (c_fid c) (c_fi1 c) (c_fi2 c)) = - patch_flow (c_d c) (c_g c) (c_f c) (Whole (opposite (c_fid c))).
Proof.
  intros dc gc fc cs N D1 D2 D3. revert fc. induction cs as [|c0 cs IH]; intros fc ND H c Hc; [destruct Hc|]. cbn [map] in ND. inversion ND as [|? ? Hn ND']; subst. cbn [fold_left].
  assert (Keep : forall cs' f', (forall c', In c' cs' -> In c' cs) -> patch_flow dc gc (fold_left (correct dc) cs' f') (Part (c_fid c0) (c_fi1 c0) (c_fi2 c0)) = patch_flow dc gc f' (Part (c_fid c0) (c_fi1 c0) (c_fi2 c0))).
  { induction cs' as [|c1 cs' IH']; intros f' Hs; [reflexivity|]. cbn [fold_left]. rewrite IH' by (intros; apply Hs; right; assumption). unfold correct.
    destruct (H c1 (or_intror (Hs c1 (or_introl eq_refl)))) as [S1 [I1 [P1 _]]]. destruct (H c0 (or_introl eq_refl)) as [S0 [I0 [P0 _]]]. apply set_other; auto.
    intro E. apply Hn. change (key c1 = key c0) in E. rewrite <- E. apply in_map. apply Hs; left; reflexivity. }
  destruct Hc as [<-|Hc].
  - rewrite Keep by auto. destruct (H c0 (or_introl eq_refl)) as [S0 [I0 [P0 A0]]]. unfold correct.
    destruct (corrected_all dc (c_d c0) gc (c_g c0) fc (c_f c0) (c_fid c0) (c_fi1 c0) (c_fi2 c0) N S0 D1 D2 D3 I0 P0) as [_ [_ H3]].
    pose proof (sides_lt _ _ I0) as L. unfold patch_flow. rewrite !flow_at, opp_sign, opp_areas, opp_comp by assumption. rewrite H3; [ring|]. intros p Hin. rewrite <- area_at. apply A0; assumption.
  - apply IH; auto. intros; apply H; right; assumption.
Qed.
