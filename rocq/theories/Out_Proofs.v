(** Proofs for C84: slices, sums, Cartesian vectors, orbital conversion. *)
From Coq Require Import Reals ZArith List Bool Lra Lia ZifyBool.
Import ListNotations.
From Verif Require Import Fv_Model Met_Model Src_Model Lud_Spec Lud_Proofs Out_Model Out_Spec.
Local Open Scope R_scope.

Lemma ltb_iff x y : ltb x y = true <-> x < y.
Proof. unfold ltb. destruct (Rlt_dec x y); split; intros; auto; try discriminate; lra. Qed.
Lemma leb_iff x y : leb x y = true <-> x <= y.
Proof. unfold leb. destruct (Rle_dec x y); split; intros; auto; try discriminate; lra. Qed.

(** ** Slices *)
Lemma first_above_in xf s n : forall i, xf (i - 1)%Z <= s -> (exists m, (m < n)%nat /\ s < xf (i + Z.of_nat m)%Z) ->
  let c := first_above xf s n i in (i - 1 <= c < i - 1 + Z.of_nat n)%Z /\ xf c <= s < xf (c + 1)%Z.
Proof.
  induction n; intros i L (m & Hm & U); [lia|]. cbn [first_above]. destruct (ltb s (xf i)) eqn:E.
  - apply ltb_iff in E. cbv zeta. replace (i - 1 + 1)%Z with i by lia. split; [lia|split; auto].
  - assert (E' : xf i <= s). { apply Rnot_lt_le. intros C. apply ltb_iff in C. congruence. }
    destruct m as [|m]; [rewrite Z.add_0_r in U; lra|].
    destruct (IHn (i + 1)%Z) as (A & B); [replace (i + 1 - 1)%Z with i by lia; auto|exists m; split; [lia|]; replace (i + 1 + Z.of_nat m)%Z with (i + Z.of_nat (S m))%Z by lia; auto|].
    cbv zeta. split; [lia|auto].
Qed.
Lemma slice_holds xf lo hi m M s : axis xf lo hi m M -> m <= s < M -> holds xf lo hi s (slice_index xf s lo hi).
Proof.
  intros (L & _ & -> & ->) (A & B). unfold slice_index, holds.
  destruct (first_above_in xf s (Z.to_nat (hi - lo + 1)) (lo + 1)%Z) as (C & D).
  - replace (lo + 1 - 1)%Z with lo by lia. auto.
  - exists (Z.to_nat (hi - lo)). split; [lia|]. replace (lo + 1 + Z.of_nat (Z.to_nat (hi - lo)))%Z with (hi + 1)%Z by lia. auto.
  - split; [lia|auto].
Qed.
Lemma axis_mono xf lo hi m M : axis xf lo hi m M -> forall a b, (lo <= a)%Z -> (a <= b)%Z -> (b <= hi + 1)%Z -> xf a <= xf b.
Proof.
  intros (_ & I & _) a b La Lab Lb. replace b with (a + Z.of_nat (Z.to_nat (b - a)))%Z by lia. assert (T : (Z.to_nat (b - a) <= Z.to_nat (hi + 1 - a))%nat) by lia. revert T.
  induction (Z.to_nat (b - a)) as [|n IH]; intros T; [rewrite Z.add_0_r; lra|]. specialize (IH ltac:(lia)). pose proof (I (a + Z.of_nat n)%Z ltac:(lia)). replace (a + Z.of_nat (S n))%Z with (a + Z.of_nat n + 1)%Z by lia. lra.
Qed.
Lemma holds_unique xf lo hi m M s c c' : axis xf lo hi m M -> holds xf lo hi s c -> holds xf lo hi s c' -> c = c'.
Proof.
  intros A (B & C) (B' & C'). destruct (Z.lt_trichotomy c c') as [H|[H|H]]; auto; exfalso.
  - pose proof (axis_mono _ _ _ _ _ A (c + 1)%Z c' ltac:(lia) ltac:(lia) ltac:(lia)). lra.
  - pose proof (axis_mono _ _ _ _ _ A (c' + 1)%Z c ltac:(lia) ltac:(lia) ltac:(lia)). lra.
Qed.

(** ** Sums *)
Lemma accumulate_total f n lo : accumulate f n lo = total n (fun m => f (lo + Z.of_nat m)%Z).
Proof. induction n; cbn [accumulate total]; congruence. Qed.
Lemma loop_zsum lo hi f : loop_sum lo hi f = zsum lo hi f.
Proof. apply accumulate_total. Qed.
Lemma zsum_ext lo hi f g : (forall i, (lo <= i <= hi)%Z -> f i = g i) -> zsum lo hi f = zsum lo hi g.
Proof. intros H. apply total_ext. intros k Hk. apply H. lia. Qed.
Lemma zsum_swap a b c d (f : Z -> Z -> R) : zsum a b (fun i => zsum c d (fun j => f i j)) = zsum c d (fun j => zsum a b (fun i => f i j)).
Proof. unfold zsum. apply (total_swap _ _ (fun i j => f (a + Z.of_nat i)%Z (c + Z.of_nat j)%Z)). Qed.
Lemma zsum_one f : zsum 0 0 f = f 0%Z.
Proof. unfold zsum. change (Z.to_nat (0 - 0 + 1)) with 1%nat. cbn [total]. rewrite Rplus_0_l. reflexivity. Qed.

Lemma range_false m M s : leb m s && ltb s M = false -> ~ (m <= s < M).
Proof. intros H (A & B). apply leb_iff in A. apply ltb_iff in B. rewrite A, B in H. discriminate. Qed.
Lemma range_true m M s : leb m s && ltb s M = true -> m <= s < M.
Proof. rewrite andb_true_iff, leb_iff, ltb_iff. auto. Qed.
Lemma map_forall2 {A B} (P : A -> B -> Prop) (g : A -> B) l : (forall a, P a (g a)) -> Forall2 P l (map g l).
Proof. intros H. induction l; cbn [map]; constructor; auto. Qed.

Lemma transform_flag b q o : fst (TransformOutputData b q o) = true <-> within_block b q.
Proof.
  unfold TransformOutputData, within_block, try_slice, Slice1, Slice2, Slice3. cbn [fst]. cbv zeta.
  destruct (slice3 q) as [s3|]; [destruct (leb (x3min b) s3 && ltb s3 (x3max b)) eqn:E3|]; (destruct (slice2 q) as [s2|]; [destruct (leb (x2min b) s2 && ltb s2 (x2max b)) eqn:E2|]);
  (destruct (slice1 q) as [s1|]; [destruct (leb (x1min b) s1 && ltb s1 (x1max b)) eqn:E1|]); cbn [fst snd]; rewrite ?E1, ?E2, ?E3; cbn [fst snd];
  repeat match goal with H : _ && _ = true |- _ => apply range_true in H | H : _ && _ = false |- _ => apply range_false in H end;
  (split; [intros HH; first [discriminate HH | split; [|split]; intros s HS; first [discriminate HS | injection HS as <-; assumption]]
          |intros (H1 & H2 & H3); auto; exfalso; try (specialize (H1 _ eq_refl)); try (specialize (H2 _ eq_refl)); try (specialize (H3 _ eq_refl)); tauto]).
Qed.

Lemma forall2_same {A} (P : A -> A -> Prop) l : (forall a, P a a) -> Forall2 P l l.
Proof. intros H. induction l; [apply Forall2_nil|apply Forall2_cons; auto]. Qed.
Ltac ins := unfold inside; lia.
Ltac run := repeat first
  [ rewrite loop_zsum
  | match goal with |- (if ?b then _ else _) = _ => replace b with true by (symmetry; ins) end
  | match goal with |- (if ?b then _ else _) = _ => is_var b; fail 1 end
  | apply zsum_ext; intros
  | reflexivity ].
Lemma transform_values b q o : sound b -> covers b o -> no_conflict q -> within_block b q -> let o' := snd (TransformOutputData b q o) in let d := o_dims b in
  exists c1 c2 c3, located (f1 b) (is_ d) (ie d) (slice1 q) c1 /\ located (f2 b) (js d) (je d) (slice2 q) c2 /\ located (f3 b) (ks d) (ke d) (slice3 q) c3 /\
  (out_is o', out_ie o') = range_of (slice1 q) (sum1 q) (out_is o) (out_ie o) /\ (out_js o', out_je o') = range_of (slice2 q) (sum2 q) (out_js o) (out_je o) /\ (out_ks o', out_ke o') = range_of (slice3 q) (sum3 q) (out_ks o) (out_ke o) /\
  Forall2 (fun a a' => forall k j i, (out_ks o' <= k <= out_ke o')%Z -> (out_js o' <= j <= out_je o')%Z -> (out_is o' <= i <= out_ie o')%Z ->
    a' k j i = along c1 (sum1 q) (out_is o) (out_ie o) i (fun i => along c2 (sum2 q) (out_js o) (out_je o) j (fun j => along c3 (sum3 q) (out_ks o) (out_ke o) k (fun k => a k j i)))) (nodes o) (nodes o').
Proof.
  intros (A1 & A2 & A3) (V1 & V2 & V3 & V4 & V5 & V6) (N1 & N2 & N3) (W1 & W2 & W3) o' d. subst o'. fold d in V1, V2, V3, V4, V5, V6.
  assert (Q1 : exists c1, located (f1 b) (is_ d) (ie d) (slice1 q) c1 /\ (forall s, slice1 q = Some s -> leb (x1min b) s && ltb s (x1max b) = true /\ c1 = Some (slice_index (f1 b) s (is_ d) (ie d)) /\ (is_ d <= slice_index (f1 b) s (is_ d) (ie d) <= ie d)%Z)).
  { destruct (slice1 q) as [s|]; cbn [located]; [|exists None; split; [auto|discriminate]]. pose proof (slice_holds _ _ _ _ _ s A1 (W1 s eq_refl)) as H. fold d in H. exists (Some (slice_index (f1 b) s (is_ d) (ie d))). split; [eauto|]. intros s' E. injection E as <-.
    destruct (W1 s eq_refl). rewrite (proj2 (leb_iff _ _)), (proj2 (ltb_iff _ _)) by auto. destruct H. auto. }
  assert (Q2 : exists c1, located (f2 b) (js d) (je d) (slice2 q) c1 /\ (forall s, slice2 q = Some s -> leb (x2min b) s && ltb s (x2max b) = true /\ c1 = Some (slice_index (f2 b) s (js d) (je d)) /\ (js d <= slice_index (f2 b) s (js d) (je d) <= je d)%Z)).
  { destruct (slice2 q) as [s|]; cbn [located]; [|exists None; split; [auto|discriminate]]. pose proof (slice_holds _ _ _ _ _ s A2 (W2 s eq_refl)) as H. fold d in H. exists (Some (slice_index (f2 b) s (js d) (je d))). split; [eauto|]. intros s' E. injection E as <-.
    destruct (W2 s eq_refl). rewrite (proj2 (leb_iff _ _)), (proj2 (ltb_iff _ _)) by auto. destruct H. auto. }
  assert (Q3 : exists c1, located (f3 b) (ks d) (ke d) (slice3 q) c1 /\ (forall s, slice3 q = Some s -> leb (x3min b) s && ltb s (x3max b) = true /\ c1 = Some (slice_index (f3 b) s (ks d) (ke d)) /\ (ks d <= slice_index (f3 b) s (ks d) (ke d) <= ke d)%Z)).
  { destruct (slice3 q) as [s|]; cbn [located]; [|exists None; split; [auto|discriminate]]. pose proof (slice_holds _ _ _ _ _ s A3 (W3 s eq_refl)) as H. fold d in H. exists (Some (slice_index (f3 b) s (ks d) (ke d))). split; [eauto|]. intros s' E. injection E as <-.
    destruct (W3 s eq_refl). rewrite (proj2 (leb_iff _ _)), (proj2 (ltb_iff _ _)) by auto. destruct H. auto. }
  destruct Q1 as (c1 & L1 & S1), Q2 as (c2 & L2 & S2), Q3 as (c3 & L3 & S3). exists c1, c2, c3. split; [exact L1|split; [exact L2|split; [exact L3|]]]. clear A1 A2 A3 W1 W2 W3.
  assert (U1 : forall s o, slice1 q = Some s -> Slice1 b s o = Some (mkOD 0 0 (out_js o) (out_je o) (out_ks o) (out_ke o) (map (fun a k j i => if inside (out_ks o) (out_ke o) k && inside (out_js o) (out_je o) j && Z.eqb i 0 then a k j (slice_index (f1 b) s (is_ d) (ie d)) else 0) (nodes o)))).
  { intros s p E. unfold Slice1. rewrite (proj1 (S1 s E)). reflexivity. }
  assert (U2 : forall s o, slice2 q = Some s -> Slice2 b s o = Some (mkOD (out_is o) (out_ie o) 0 0 (out_ks o) (out_ke o) (map (fun a k j i => if inside (out_ks o) (out_ke o) k && Z.eqb j 0 && inside (out_is o) (out_ie o) i then a k (slice_index (f2 b) s (js d) (je d)) i else 0) (nodes o)))).
  { intros s p E. unfold Slice2. rewrite (proj1 (S2 s E)). reflexivity. }
  assert (U3 : forall s o, slice3 q = Some s -> Slice3 b s o = Some (mkOD (out_is o) (out_ie o) (out_js o) (out_je o) 0 0 (map (fun a k j i => if Z.eqb k 0 && inside (out_js o) (out_je o) j && inside (out_is o) (out_ie o) i then a (slice_index (f3 b) s (ks d) (ke d)) j i else 0) (nodes o)))).
  { intros s p E. unfold Slice3. rewrite (proj1 (S3 s E)). reflexivity. }
  unfold TransformOutputData, try_slice.
  destruct (slice3 q) as [s3|]; [destruct (S3 s3 eq_refl) as (_ & -> & I3); destruct N3 as [N3|N3]; [discriminate N3|]; rewrite N3; cbn [fst snd]; rewrite (U3 s3 _ eq_refl)|cbn [located] in L3; subst c3; destruct (sum3 q)]; cbn [fst snd];
  (destruct (slice2 q) as [s2|]; [destruct (S2 s2 eq_refl) as (_ & -> & I2); destruct N2 as [N2|N2]; [discriminate N2|]; rewrite N2; cbn [fst snd]; rewrite (U2 s2 _ eq_refl)|cbn [located] in L2; subst c2; destruct (sum2 q)]); cbn [fst snd];
  (destruct (slice1 q) as [s1|]; [destruct (S1 s1 eq_refl) as (_ & -> & I1); destruct N1 as [N1|N1]; [discriminate N1|]; rewrite N1; cbn [fst snd]; rewrite (U1 s1 _ eq_refl)|cbn [located] in L1; subst c1; destruct (sum1 q)]); cbn [fst snd];
  clear U1 U2 U3 S1 S2 S3; unfold Sum1, Sum2, Sum3;
  cbn [fst snd out_is out_ie out_js out_je out_ks out_ke nodes range_of along]; (split; [reflexivity|split; [reflexivity|split; [reflexivity|]]]); rewrite ?map_map;
  (apply map_forall2 || (rewrite <- (map_id (nodes o)) at 2; apply map_forall2)); intros a k j i Hk Hj Hi; cbv beta; unfold id; run.
Qed.

(** Sums keep the total. *)
Lemma sums_total b q o : slice1 q = None -> slice2 q = None -> slice3 q = None -> let o' := snd (TransformOutputData b q o) in
  Forall2 (fun a a' => zsum (out_ks o') (out_ke o') (fun k => zsum (out_js o') (out_je o') (fun j => zsum (out_is o') (out_ie o') (fun i => a' k j i)))
    = zsum (out_ks o) (out_ke o) (fun k => zsum (out_js o) (out_je o) (fun j => zsum (out_is o) (out_ie o) (fun i => a k j i)))) (nodes o) (nodes o').
Proof.
  intros E1 E2 E3. unfold TransformOutputData. rewrite E1, E2, E3. cbv zeta. cbn [fst snd].
  set (tot := fun (o : odata) (a : Z -> Z -> Z -> R) => zsum (out_ks o) (out_ke o) (fun k => zsum (out_js o) (out_je o) (fun j => zsum (out_is o) (out_ie o) (fun i => a k j i)))).
  assert (F3 : forall o, Forall2 (fun a a' => tot (Sum3 o) a' = tot o a) (nodes o) (nodes (Sum3 o))).
  { intros p. unfold Sum3. cbn [nodes]. apply map_forall2. intros a. unfold tot. cbn [out_is out_ie out_js out_je out_ks out_ke]. rewrite zsum_one.
    transitivity (zsum (out_js p) (out_je p) (fun j => zsum (out_is p) (out_ie p) (fun i => zsum (out_ks p) (out_ke p) (fun k => a k j i)))).
    { apply zsum_ext. intros j Hj. apply zsum_ext. intros i Hi. run. }
    rewrite (zsum_swap (out_ks p) (out_ke p)). apply zsum_ext. intros j Hj. rewrite (zsum_swap (out_ks p) (out_ke p)). reflexivity. }
  assert (F2 : forall o, Forall2 (fun a a' => tot (Sum2 o) a' = tot o a) (nodes o) (nodes (Sum2 o))).
  { intros p. unfold Sum2. cbn [nodes]. apply map_forall2. intros a. unfold tot. cbn [out_is out_ie out_js out_je out_ks out_ke]. apply zsum_ext. intros k Hk. rewrite zsum_one.
    transitivity (zsum (out_is p) (out_ie p) (fun i => zsum (out_js p) (out_je p) (fun j => a k j i))).
    { apply zsum_ext. intros i Hi. run. }
    rewrite (zsum_swap (out_js p) (out_je p)). reflexivity. }
  assert (F1 : forall o, Forall2 (fun a a' => tot (Sum1 o) a' = tot o a) (nodes o) (nodes (Sum1 o))).
  { intros p. unfold Sum1. cbn [nodes]. apply map_forall2. intros a. unfold tot. cbn [out_is out_ie out_js out_je out_ks out_ke]. apply zsum_ext. intros k Hk. apply zsum_ext. intros j Hj. rewrite zsum_one. run. }
  assert (C : forall P (f : odata -> odata), (forall o, Forall2 (fun a a' => tot (f o) a' = tot o a) (nodes o) (nodes (f o))) ->
     Forall2 (fun a a' => tot P a' = tot o a) (nodes o) (nodes P) -> Forall2 (fun a a' => tot (f P) a' = tot o a) (nodes o) (nodes (f P))).
  { intros P f Hf H. specialize (Hf P). revert Hf. generalize (nodes (f P)). induction H; intros m' Hf; inversion Hf; subst; constructor; auto. congruence. }
  assert (I : Forall2 (fun a a' => tot o a' = tot o a) (nodes o) (nodes o)) by (apply forall2_same; reflexivity).
  change (Forall2 (fun a a' => tot (if sum1 q then Sum1 (if sum2 q then Sum2 (if sum3 q then Sum3 o else o) else (if sum3 q then Sum3 o else o)) else (if sum2 q then Sum2 (if sum3 q then Sum3 o else o) else (if sum3 q then Sum3 o else o))) a' = tot o a) (nodes o)
    (nodes (if sum1 q then Sum1 (if sum2 q then Sum2 (if sum3 q then Sum3 o else o) else (if sum3 q then Sum3 o else o)) else (if sum2 q then Sum2 (if sum3 q then Sum3 o else o) else (if sum3 q then Sum3 o else o))))).
  destruct (sum1 q), (sum2 q), (sum3 q); auto.
Qed.

(** Blocks that share their ends: one of them holds the position. *)
Lemma one_block (X : nat -> R) n s : (forall b, (b < n)%nat -> X b < X (S b)) -> X 0%nat <= s < X n -> exists b, (b < n)%nat /\ X b <= s < X (S b) /\ forall b', (b' < n)%nat -> X b' <= s < X (S b') -> b' = b.
Proof.
  intros I (A & B).
  assert (M : forall b b', (b <= b')%nat -> (b' <= n)%nat -> X b <= X b'). { intros b b' L U. induction L; [lra|]. pose proof (I m ltac:(lia)). specialize (IHL ltac:(lia)). lra. }
  assert (E : exists b, (b < n)%nat /\ X b <= s < X (S b)).
  { clear M. induction n as [|n IH]; [lra|]. destruct (Rlt_dec s (X n)) as [H|H].
    - destruct IH as (b & L & C); auto. exists b. split; [lia|auto].
    - exists n. split; [lia|lra]. }
  destruct E as (b & L & C). exists b. split; [auto|split; [auto|]]. intros b' L' C'. destruct (Nat.lt_trichotomy b b') as [H|[H|H]]; auto; exfalso.
  - pose proof (M (S b) b' ltac:(lia) ltac:(lia)). lra.
  - pose proof (M (S b') b ltac:(lia) ltac:(lia)). lra.
Qed.
