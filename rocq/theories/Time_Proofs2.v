(** Proofs for the output schedule. *)
From Coq Require Import Reals List ZArith Bool Lra Lia.
From Verif Require Import Time_Model Time_Spec Time_Proofs.
Import ListNotations.
Local Open Scope R_scope.

Lemma Int_part_eq : forall x z, IZR z <= x < IZR z + 1 -> Int_part x = z.
Proof.
  intros x z [H1 H2]. destruct (base_Int_part x) as [B1 B2]. 
  assert (IZR (Int_part x) < IZR z + 1) by lra. assert (IZR z < IZR (Int_part x) + 1) by lra.
  rewrite <- plus_IZR in *. apply lt_IZR in H. apply lt_IZR in H0. lia.
Qed.
Lemma trunc_pos : forall x z, (0 <= z)%Z -> IZR z <= x < IZR z + 1 -> trunc x = z.
Proof.
  intros x z Hz H. unfold trunc. replace (leR 0 x) with true by (symmetry; apply leR_true; apply IZR_le in Hz; lra). apply Int_part_eq. exact H.
Qed.
Lemma trunc_neg : forall x z, (0 <= z)%Z -> IZR z <= - x < IZR z + 1 -> trunc x = (- z)%Z.
Proof.
  intros x z Hz H. unfold trunc. destruct (leR 0 x) eqn:E.
  - apply leR_true in E. apply IZR_le in Hz. assert (z = 0%Z) by (apply eq_IZR; lra). subst z. rewrite (Int_part_eq x 0); [reflexivity|]. lra.
  - rewrite (Int_part_eq _ _ H). reflexivity.
Qed.
Lemma trunc_nonneg : forall x, 0 <= x -> (0 <= trunc x)%Z /\ IZR (trunc x) <= x < IZR (trunc x) + 1.
Proof.
  intros x H. unfold trunc. replace (leR 0 x) with true by (symmetry; apply leR_true; exact H). destruct (base_Int_part x) as [B1 B2]. split; [|lra].
  apply Z.lt_succ_r. apply lt_IZR. unfold Z.succ. rewrite plus_IZR. lra.
Qed.

(** ** Periodic outputs *)
Lemma due_periodic : forall start tlim t n o, 0 < odt o -> dcycle o = 0%Z -> t < tlim -> due start tlim t n false o = leR (next o) t.
Proof.
  intros start tlim t n o Hd Hc Ht. unfold due. rewrite Hc. replace (leR tlim t) with false by (symmetry; apply leR_false; exact Ht).
  replace (ltR 0 (odt o)) with true by (symmetry; apply ltR_true; exact Hd). rewrite Z.ltb_irrefl. cbn [andb]. rewrite !orb_false_r.
  destruct (eqR t start) eqn:E; [|reflexivity]. apply eqR_true in E. subst t. destruct (leR (next o) start); reflexivity.
Qed.
Lemma steps_incr : forall d ts, steps_at_most d ts -> increasing ts.
Proof. induction ts as [|t [|t' ts] IH]; cbn [steps_at_most increasing]; auto. intros [H1 H2]. split; [lra|]. apply IH. exact H2. Qed.
Lemma incr_head : forall ts t, increasing (t :: ts) -> forall t', In t' ts -> t < t'.
Proof.
  induction ts as [|a ts IH]; intros t H t' Hin; [destruct Hin|]. cbn [increasing] in H. destruct H as [H1 H2]. destruct Hin as [<-|Hin]; [exact H1|].
  apply Rlt_trans with a; [exact H1|]. apply IH; assumption.
Qed.
Definition after (o : out) : out := mkO (next o + odt o) (odt o) (dcycle o) (fnum o + 1) (isrst o).
Lemma outputs_cons : forall start tlim t n calls o, 0 < odt o -> dcycle o = 0%Z -> t < tlim -> outputs start tlim ((t, n) :: calls) o =
  if leR (next o) t then (fst (outputs start tlim calls (after o)), (fnum o, t) :: snd (outputs start tlim calls (after o))) else outputs start tlim calls o.
Proof.
  intros start tlim t n calls o Hd Hc Ht. cbn [outputs]. unfold MakeOutput. rewrite due_periodic by assumption. destruct (leR (next o) t).
  - change (counted false o) with (after o). destruct (outputs start tlim calls (after o)). reflexivity.
  - destruct (outputs start tlim calls o). reflexivity.
Qed.

Lemma counting : forall start tlim calls o, 0 < odt o -> dcycle o = 0%Z -> (forall c, In c calls -> fst c < tlim) ->
  let r := outputs start tlim calls o in
  fnum (fst r) = (fnum o + Z.of_nat (length (snd r)))%Z /\ next (fst r) = scheduled o (length (snd r)) /\ odt (fst r) = odt o /\
  forall k f t, nth_error (snd r) k = Some (f, t) -> f = (fnum o + Z.of_nat k)%Z /\ In t (times calls) /\ scheduled o k <= t.
Proof.
  intros start tlim calls. induction calls as [|[t n] calls IH]; intros o Hd Hc Ht r.
  - unfold r. cbn [outputs fst snd length]. split; [lia|]. split; [unfold scheduled; cbn [INR]; ring|]. split; [reflexivity|]. intros k f t H. destruct k; discriminate H.
  - assert (Ht0 : t < tlim) by (apply (Ht (t, n)); left; reflexivity). assert (Ht1 : forall c, In c calls -> fst c < tlim) by (intros; apply Ht; right; assumption).
    unfold r. rewrite outputs_cons by assumption. destruct (leR (next o) t) eqn:E.
    + apply leR_true in E. destruct (IH (after o) Hd Hc Ht1) as [I1 [I2 [I3 I4]]]. cbn [fst snd length]. cbn [after fnum odt] in I1, I3.
      split; [rewrite I1; lia|]. split; [rewrite I2; unfold scheduled; cbn [after next odt]; rewrite S_INR; ring|]. split; [exact I3|].
      intros [|k] f x H; cbn [nth_error] in H.
      * injection H; intros; subst. split; [lia|]. split; [left; reflexivity|]. unfold scheduled. cbn [INR]. lra.
      * destruct (I4 k f x H) as [J1 [J2 J3]]. cbn [after fnum] in J1. split; [lia|]. split; [right; exact J2|]. unfold scheduled in *. cbn [after next odt] in J3. rewrite S_INR. lra.
    + destruct (IH o Hd Hc Ht1) as [I1 [I2 [I3 I4]]]. split; [exact I1|]. split; [exact I2|]. split; [exact I3|].
      intros k f x H. destruct (I4 k f x H) as [J1 [J2 J3]]. split; [exact J1|]. split; [right; exact J2|exact J3].
Qed.

Lemma promptly : forall start tlim calls o, 0 < odt o -> dcycle o = 0%Z -> (forall c, In c calls -> fst c < tlim) -> steps_at_most (odt o) (times calls) ->
  (forall t, nth_error (times calls) 0 = Some t -> t < next o + odt o) ->
  let r := outputs start tlim calls o in
  (forall k f t, nth_error (snd r) k = Some (f, t) -> forall t', In t' (times calls) -> scheduled o k <= t' -> t <= t') /\
  (forall k t', In t' (times calls) -> scheduled o k <= t' -> (k < length (snd r))%nat).
Proof.
  intros start tlim calls. induction calls as [|[t n] calls IH]; intros o Hd Hc Ht Hs H0 r.
  - split; intros k; [intros f t _ t' []|intros t' []].
  - assert (Ht0 : t < tlim) by (apply (Ht (t, n)); left; reflexivity). assert (Ht1 : forall c, In c calls -> fst c < tlim) by (intros; apply Ht; right; assumption).
    specialize (H0 t eq_refl).
    assert (Hs1 : steps_at_most (odt o) (times calls)) by apply Hs.
    assert (Hi := steps_incr _ _ Hs). change (times ((t, n) :: calls)) with (t :: times calls) in *. assert (Hh := incr_head _ _ Hi).
    assert (Hn : forall t1, nth_error (times calls) 0 = Some t1 -> t < t1 <= t + odt o).
    { intros t1 E. cbn [steps_at_most] in Hs. destruct (times calls) as [|a l]; [discriminate E|]. cbn [nth_error] in E. injection E; intros <-. apply Hs. }
    unfold r. rewrite outputs_cons by assumption. destruct (leR (next o) t) eqn:E.
    + apply leR_true in E. destruct (IH (after o) Hd Hc Ht1 Hs1) as [I1 I2].
      { intros t1 E1. cbn [after next odt]. specialize (Hn t1 E1). lra. }
      assert (Hk : forall k t', In t' (t :: times calls) -> scheduled o (S k) <= t' -> In t' (times calls) /\ scheduled (after o) k <= t').
      { intros k t' Hin Hle. unfold scheduled in *. cbn [after next odt]. rewrite S_INR in Hle. split; [|lra]. destruct Hin as [<-|Hin]; [exfalso|exact Hin].
        pose proof (pos_INR k) as Pk. pose proof (Rmult_le_pos (INR k) (odt o) Pk (Rlt_le _ _ Hd)). lra. }
      cbn [fst snd length]. split.
      * intros [|k] f x H t' Hin Hle; cbn [nth_error] in H.
        -- injection H; intros; subst. destruct Hin as [<-|Hin]; [lra|]. left. apply Hh. exact Hin.
        -- destruct (Hk k t' Hin Hle) as [A B]. apply (I1 k f x H t' A B).
      * intros [|k] t' Hin Hle; [lia|]. destruct (Hk k t' Hin Hle) as [A B]. apply -> Nat.succ_lt_mono. apply (I2 k t' A B).
    + apply leR_false in E. destruct (IH o Hd Hc Ht1 Hs1) as [I1 I2].
      { intros t1 E1. specialize (Hn t1 E1). lra. }
      assert (Hk : forall k t', In t' (t :: times calls) -> scheduled o k <= t' -> In t' (times calls)).
      { intros k t' [<-|Hin] Hle; [exfalso|exact Hin]. unfold scheduled in Hle. pose proof (Rmult_le_pos (INR k) (odt o) (pos_INR k) (Rlt_le _ _ Hd)). lra. }
      split.
      * intros k f x H t' Hin Hle. apply (I1 k f x H t' (Hk k t' Hin Hle) Hle).
      * intros k t' Hin Hle. apply (I2 k t' (Hk k t' Hin Hle) Hle).
Qed.

(** Outputs by cycle number: exactly the calls whose cycle number is a multiple. *)
Lemma by_cycle : forall start tlim calls o, odt o = 0 -> (0 < dcycle o)%Z -> (forall c, In c calls -> fst c < tlim /\ fst c <> start) ->
  map snd (snd (outputs start tlim calls o)) = map fst (filter (fun c => Z.eqb (Z.rem (snd c) (dcycle o)) 0) calls) /\
  map fst (snd (outputs start tlim calls o)) = map (fun k => (fnum o + Z.of_nat k)%Z) (seq 0 (length (snd (outputs start tlim calls o)))).
Proof.
  intros start tlim calls. induction calls as [|[t n] calls IH]; intros o Hd Hc Ht; [split; reflexivity|].
  destruct (Ht (t, n) (or_introl eq_refl)) as [T1 T2]. cbn [fst] in T1, T2. assert (Ht1 : forall c, In c calls -> fst c < tlim /\ fst c <> start) by (intros; apply Ht; right; assumption).
  cbn [outputs filter snd]. unfold MakeOutput.
  assert (due start tlim t n false o = Z.eqb (Z.rem n (dcycle o)) 0) as ->.
  { unfold due. rewrite Hd. replace (ltR 0 0) with false by (symmetry; apply ltR_false; lra). replace (eqR t start) with false by (symmetry; apply eqR_false; exact T2).
    replace (leR tlim t) with false by (symmetry; apply leR_false; exact T1). replace (Z.ltb 0 (dcycle o)) with true by (symmetry; apply Z.ltb_lt; exact Hc).
    cbn [andb orb]. rewrite !orb_false_r. reflexivity. }
  destruct (Z.eqb (Z.rem n (dcycle o)) 0).
  - change (counted false o) with (after o). destruct (IH (after o) Hd Hc Ht1) as [I1 I2]. destruct (outputs start tlim calls (after o)) as [o2 l]. cbn [snd map fst length seq] in *.
    split; [f_equal; exact I1|]. f_equal; [lia|]. rewrite I2, <- seq_shift, map_map. apply map_ext. intros k. cbn [after fnum]. lia.
  - destruct (IH o Hd Hc Ht1) as [I1 I2]. destruct (outputs start tlim calls o) as [o2 l]. split; [exact I1|exact I2].
Qed.

(** ** Restart *)
Lemma to_int_pos : forall a b, 0 < b -> to_int a b = Some (trunc (a / b)).
Proof. intros a b Hb. unfold to_int. replace (eqR b 0) with false by (symmetry; apply eqR_false; lra). reflexivity. Qed.
Lemma mul_div : forall a b c, 0 < b -> (c <= a / b <-> c * b <= a) /\ (a / b < c <-> a < c * b).
Proof.
  intros a b c Hb. assert (E : a = a / b * b) by (field; lra). split; split; intros H.
  - rewrite E. apply Rmult_le_compat_r; lra.
  - apply (Rmult_le_reg_r b); [exact Hb|]. rewrite <- E. exact H.
  - rewrite E. apply Rmult_lt_compat_r; lra.
  - apply (Rmult_lt_reg_r b); [exact Hb|]. rewrite <- E. exact H.
Qed.
Lemma quot_bounds : forall a b, 0 < b -> 0 <= a -> let q := IZR (trunc (a / b)) in 0 <= q /\ q * b <= a < (q + 1) * b.
Proof.
  intros a b Hb Ha q. assert (Hq : 0 <= a / b) by (apply (proj1 (mul_div a b 0 Hb)); lra).
  destruct (trunc_nonneg (a / b) Hq) as [P1 [P2 P3]]. split; [apply IZR_le in P1; exact P1|]. split; [apply (proj1 (mul_div a b _ Hb)); exact P2|apply (proj2 (mul_div a b _ Hb)); exact P3].
Qed.
Lemma forward_past : forall t n d, 0 < d -> n <= t -> exists k, Forward t false (Some n) d = Some (false, n + IZR k * d) /\ t < n + IZR k * d <= t + d.
Proof.
  intros t n d Hd Hn. destruct (quot_bounds (t - n) d Hd) as [Q1 [Q2 Q3]]; [lra|]. exists (trunc ((t - n) / d) + 1)%Z. rewrite plus_IZR.
  unfold Forward. rewrite to_int_pos by exact Hd. set (q := IZR (trunc ((t - n) / d))) in *.
  assert (0 <= q * d) by (apply Rmult_le_pos; lra).
  replace (ltR 0 (d * q + d)) with true by (symmetry; apply ltR_true; lra). split; [do 2 f_equal; ring|]. split; lra.
Qed.
Lemma forward_soon : forall t n d, 0 < d -> t < n < t + d -> Forward t false (Some n) d = Some (false, n + d).
Proof.
  intros t n d Hd Hn. unfold Forward. rewrite to_int_pos by exact Hd. assert (A : - ((t - n) / d) = (n - t) / d) by (field; lra).
  assert (A1 : 0 <= - ((t - n) / d)) by (rewrite A; apply (proj1 (mul_div _ _ _ Hd)); lra). assert (A2 : - ((t - n) / d) < 0 + 1) by (rewrite A; apply (proj2 (mul_div _ _ _ Hd)); lra).
  rewrite (trunc_neg _ 0 (Z.le_refl _) (conj A1 A2)).
  replace (ltR 0 (d * IZR (- 0) + d)) with true by (symmetry; apply ltR_true; cbn [Z.opp]; lra). do 2 f_equal. cbn [Z.opp]. ring.
Qed.
Lemma forward_far : forall t n d, 0 < d -> t + d <= n -> Forward t false (Some n) d = Some (false, n).
Proof.
  intros t n d Hd Hn. unfold Forward. rewrite to_int_pos by exact Hd. set (x := (t - n) / d).
  assert (Hx : - x = (n - t) / d) by (unfold x; field; lra). assert (H1 : 1 <= - x) by (rewrite Hx; apply (proj1 (mul_div _ _ _ Hd)); lra).
  assert (Hx0 : 0 <= - x) by lra. destruct (trunc_nonneg (- x) Hx0) as [P1 [P2 P3]]. rewrite (trunc_neg x (trunc (- x)) P1 (conj P2 P3)).
  assert (1 <= trunc (- x))%Z. { apply Z.lt_pred_le. apply lt_IZR. unfold Z.pred. rewrite plus_IZR. lra. }
  apply IZR_le in H. rewrite opp_IZR.
  assert (d * 1 <= d * IZR (trunc (- x))) by (apply Rmult_le_compat_l; lra).
  replace (ltR 0 (d * - IZR (trunc (- x)) + d)) with false; [reflexivity|]. symmetry. apply ltR_false. lra.
Qed.
Lemma forward_fresh : forall t f d, 0 < d -> 0 <= t -> exists k, Forward t f None d = Some (true, IZR k * d) /\ t - d < IZR k * d <= t.
Proof.
  intros t f d Hd Ht. unfold Forward. rewrite to_int_pos by exact Hd. replace ((t - t) / d) with 0 by (field; lra). rewrite (trunc_pos 0 0); [|lia|lra].
  replace (ltR 0 (d * 0 + d)) with true by (symmetry; apply ltR_true; lra). replace (t + (d * 0 + d)) with (t + d) by ring. unfold fmod.
  destruct (quot_bounds (t + d) d Hd) as [Q1 [Q2 Q3]]; [lra|]. set (q := trunc ((t + d) / d)) in *. exists (q - 1)%Z. rewrite minus_IZR. split; [do 2 f_equal; ring|]. lra.
Qed.
