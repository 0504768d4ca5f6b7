(** Shares of the groups. *)
From Coq Require Import Reals Lra Bool List Arith Lia Psatz.
From Verif Require Import Time_Model Mf_Model Mf_Spec.
Local Open Scope R_scope.

Lemma ltR_true x y : ltR x y = true <-> x < y.
Proof. unfold ltR. destruct (Rlt_dec x y); split; intros; try discriminate; try reflexivity; lra. Qed.
Lemma ltR_false x y : ltR x y = false <-> y <= x.
Proof. unfold ltR. destruct (Rlt_dec x y); split; intros; try discriminate; try reflexivity; lra. Qed.
Lemma tiny_pos : 0 < TINY_NUMBER.
Proof. unfold TINY_NUMBER. apply Rinv_0_lt_compat, pow_lt. lra. Qed.
(** Sums. *)
Lemma sumn_ext n f g : (forall i, (i < n)%nat -> f i = g i) -> sumn n f = sumn n g.
Proof. induction n as [ | n IH]; intros H; [reflexivity | ]. cbn [sumn]. rewrite IH, H; auto with arith. Qed.
Lemma sumn_plus n f g : sumn n (fun i => f i + g i) = sumn n f + sumn n g.
Proof. induction n as [ | n IH]; cbn [sumn]; [ring | rewrite IH; ring]. Qed.
Lemma sumn_scal n c f : sumn n (fun i => c * f i) = c * sumn n f.
Proof. induction n as [ | n IH]; cbn [sumn]; [ring | rewrite IH; ring]. Qed.
Lemma sumn_zero n : sumn n (fun _ => 0) = 0.
Proof. induction n as [ | n IH]; cbn [sumn]; [ring | rewrite IH; ring]. Qed.
Lemma sumn_swap n m f : sumn n (fun i => sumn m (fun j => f i j)) = sumn m (fun j => sumn n (fun i => f i j)).
Proof.
  induction n as [ | n IH]; cbn [sumn]; [symmetry; apply sumn_zero | ]. rewrite IH, <- sumn_plus. reflexivity.
Qed.
Lemma sumn_nonneg n f : (forall i, (i < n)%nat -> 0 <= f i) -> 0 <= sumn n f.
Proof. induction n as [ | n IH]; intros H; cbn [sumn]; [lra | ]. pose proof (IH ltac:(auto with arith)). pose proof (H n ltac:(lia)). lra. Qed.
Lemma sumn_telescope n g : sumn n (fun i => g (S i) - g i) = g n - g O.
Proof. induction n as [ | n IH]; cbn [sumn]; [ring | rewrite IH; ring]. Qed.
(** The sum over all groups of a row. *)
Definition coef (w : row) (m : nat) : R := if Nat.leb (start w) m && Nat.leb m (stop w) then ratio w (m - start w)%nat else 0.
Lemma map_coef n rows inp m : MapIrcmFrequency n rows inp m = sumn n (fun i => inp i * coef (rows i) m).
Proof. unfold MapIrcmFrequency, coef. apply sumn_ext. intros i _. destruct (_ && _); ring. Qed.
Lemma sum_window n s k f : (s + k <= n)%nat -> sumn n (fun m => if Nat.leb s m && Nat.ltb m (s + k) then f (m - s)%nat else 0) = sumn k f.
Proof.
  revert k. induction n as [ | n IH]; intros k H.
  - replace k with O by lia. reflexivity.
  - cbn [sumn]. destruct (Nat.eq_dec (s + k) (S n)) as [E | E].
    + destruct k as [ | k].
      * cbn [sumn]. rewrite (sumn_ext n _ (fun _ => 0)).
        -- rewrite sumn_zero. destruct (Nat.leb_spec s n), (Nat.ltb_spec n (s + 0)); cbn [andb]; try lia; ring.
        -- intros i Hi. destruct (Nat.leb_spec s i), (Nat.ltb_spec i (s + 0)); cbn [andb]; try lia; reflexivity.
      * replace (Nat.leb s n && Nat.ltb n (s + S k)) with true by (symmetry; apply andb_true_iff; rewrite Nat.leb_le, Nat.ltb_lt; lia).
        replace (n - s)%nat with k by lia. cbn [sumn]. f_equal. rewrite <- (IH k ltac:(lia)). apply sumn_ext. intros i Hi.
        destruct (Nat.leb_spec s i), (Nat.ltb_spec i (s + S k)), (Nat.ltb_spec i (s + k)); cbn [andb]; try lia; reflexivity.
    + rewrite (IH k ltac:(lia)). destruct (Nat.leb_spec s n), (Nat.ltb_spec n (s + k)); cbn [andb]; try lia; ring.
Qed.
Lemma coef_sum n w : (start w <= stop w)%nat -> (stop w < n)%nat -> sumn n (coef w) = sumn (stop w - start w + 1) (ratio w).
Proof.
  intros H1 H2. rewrite <- (sum_window n (start w) (stop w - start w + 1) (ratio w)) by lia. apply sumn_ext. intros i Hi. unfold coef.
  destruct (Nat.leb_spec (start w) i), (Nat.leb_spec i (stop w)), (Nat.ltb_spec i (start w + (stop w - start w + 1))); cbn [andb]; try lia; reflexivity.
Qed.
Lemma closed_sum (g : nat -> R) k : sumn (k + 1) (fun j => if Nat.ltb j k then g j else 1 - sumn k g) = 1.
Proof.
  rewrite Nat.add_1_r. cbn [sumn]. rewrite Nat.ltb_irrefl. rewrite (sumn_ext k _ g); [ring | ]. intros i Hi. replace (Nat.ltb i k) with true by (symmetry; apply Nat.ltb_lt; exact Hi). reflexivity.
Qed.
Lemma split_sum l r nu nl nr fl fr : (l <= r)%nat -> sumn (r - l + 1) (SplitFrequencyBinLinear l r nu nl nr fl fr) = 1.
Proof.
  intros H. unfold SplitFrequencyBinLinear. destruct (Nat.eqb_spec r l) as [E | E].
  - subst. rewrite Nat.sub_diag. cbn [Nat.add sumn]. ring.
  - apply closed_sum.
Qed.

(** Cumulative share below x. *)
Definition cum (a b fa fb x : R) : R := (spectrum a b fa fb x + fa) / (fa + fb) * ((x - a) / (b - a)).
Lemma cum_lo a b fa fb : cum a b fa fb a = 0.
Proof. unfold cum. replace (a - a) with 0 by ring. unfold Rdiv. ring. Qed.
Lemma cum_hi a b fa fb : a < b -> fa + fb <> 0 -> cum a b fa fb b = 1.
Proof. intros. unfold cum, spectrum. field. lra. Qed.
Lemma cum_diff a b fa fb x y : a < b -> fa + fb <> 0 -> cum a b fa fb y - cum a b fa fb x = content a b fa fb x y / content a b fa fb a b.
Proof.
  intros. unfold cum, content. assert (E : (spectrum a b fa fb a + spectrum a b fa fb b) / 2 * (b - a) = (fa + fb) / 2 * (b - a)) by (unfold spectrum; field; lra).
  rewrite E. unfold spectrum. field. lra.
Qed.
Lemma spectrum_nonneg a b fa fb x : a < b -> 0 <= fa -> 0 <= fb -> a <= x <= b -> 0 <= spectrum a b fa fb x.
Proof.
  intros Hab Ha Hb Hx. unfold spectrum. replace (fa + (fb - fa) * (x - a) / (b - a)) with ((fa * (b - x) + fb * (x - a)) / (b - a)) by (field; lra).
  apply Rmult_le_pos; [ | left; apply Rinv_0_lt_compat; lra]. apply Rplus_le_le_0_compat; apply Rmult_le_pos; lra.
Qed.
Lemma content_nonneg a b fa fb x y : a < b -> 0 <= fa -> 0 <= fb -> a <= x <= y -> y <= b -> 0 <= content a b fa fb x y.
Proof.
  intros. unfold content. pose proof (spectrum_nonneg a b fa fb x ltac:(lra) ltac:(lra) ltac:(lra) ltac:(lra)).
  pose proof (spectrum_nonneg a b fa fb y ltac:(lra) ltac:(lra) ltac:(lra) ltac:(lra)). apply Rmult_le_pos; lra.
Qed.
Lemma inside_in a b x : a <= b -> a <= inside a b x <= b.
Proof. intros H. unfold inside. split; [apply Rmax_l | apply Rmax_lub; [exact H | apply Rmin_l]]. Qed.
Lemma inside_mono a b x y : x <= y -> inside a b x <= inside a b y.
Proof. intros. unfold inside. apply Rmax_case_strong; intros; [apply Rmax_l | ]. eapply Rle_trans; [ | apply Rmax_r]. apply Rle_min_compat_l. assumption. Qed.
Lemma inside_low a b x : a <= b -> x <= a -> inside a b x = a.
Proof. intros. unfold inside. rewrite Rmin_right by lra. apply Rmax_left. lra. Qed.
Lemma inside_high a b x : a <= b -> b <= x -> inside a b x = b.
Proof. intros. unfold inside. rewrite Rmin_left by lra. apply Rmax_right. lra. Qed.
Lemma inside_mid a b x : a <= x <= b -> inside a b x = x.
Proof. intros. unfold inside. rewrite Rmin_right by lra. apply Rmax_right. lra. Qed.
Lemma share_nonneg a b fa fb x y : a < b -> 0 <= fa -> 0 <= fb -> 0 < fa + fb -> x <= y -> 0 <= share a b fa fb x y.
Proof.
  intros Hab Ha Hb Hs Hxy. unfold share. pose proof (inside_in a b x ltac:(lra)). pose proof (inside_in a b y ltac:(lra)). pose proof (inside_mono a b x y Hxy).
  apply Rmult_le_pos; [apply content_nonneg; lra | ]. left. apply Rinv_0_lt_compat. unfold content, spectrum.
  replace ((fa + (fb - fa) * (a - a) / (b - a) + (fa + (fb - fa) * (b - a) / (b - a))) / 2 * (b - a)) with ((fa + fb) / 2 * (b - a)) by (field; lra). apply Rmult_lt_0_compat; lra.
Qed.
(** The spectrum used: flat when both edges vanish. *)
Definition eff (fl fr f : R) : R := if ltR (fl + fr) TINY_NUMBER then 1 else f.
Lemma eff_pos fl fr : 0 < eff fl fr fl + eff fl fr fr.
Proof. pose proof tiny_pos. unfold eff. destruct (ltR _ _) eqn:C; [lra | ]. apply ltR_false in C. lra. Qed.
Lemma first_cum nu nl nr fl fr l : nl < nr -> first_piece nu nl nr fl fr l = cum nl nr (eff fl fr fl) (eff fl fr fr) (nu (S l)).
Proof.
  intros H. pose proof (eff_pos fl fr) as P. unfold first_piece, cum, spectrum, eff in *. destruct (ltR (fl + fr) TINY_NUMBER); field; lra.
Qed.
Lemma middle_cum nu nl nr fl fr m : nl < nr -> middle_piece nu nl nr fl fr m = cum nl nr (eff fl fr fl) (eff fl fr fr) (nu (S m)) - cum nl nr (eff fl fr fl) (eff fl fr fr) (nu m).
Proof.
  intros H. pose proof (eff_pos fl fr) as P. unfold middle_piece, cum, spectrum, eff in *. destruct (ltR (fl + fr) TINY_NUMBER); field; lra.
Qed.
Lemma pieces_cum nu nl nr fl fr l k : nl < nr -> sumn (S k) (piece nu nl nr fl fr l) = cum nl nr (eff fl fr fl) (eff fl fr fr) (nu (l + S k)%nat).
Proof.
  intros H. induction k as [ | k IH].
  - cbn [sumn piece]. rewrite first_cum by exact H. replace (l + 1)%nat with (S l) by lia. ring.
  - change (sumn (S (S k)) (piece nu nl nr fl fr l)) with (sumn (S k) (piece nu nl nr fl fr l) + piece nu nl nr fl fr l (S k)). rewrite IH. cbn [piece].
    rewrite middle_cum by exact H. replace (S (l + S k)) with (l + S (S k))%nat by lia. ring.
Qed.
(** Where group m ends; the last one has no end. *)
Definition upper (n : nat) (nu : nat -> R) (nr : R) (m : nat) : R := if Nat.eqb (S m) n then Rmax nr (nu m) else nu (S m).
Section Row.
Variables (n : nat) (nu : nat -> R) (nl nr fl fr : R) (l r : nat).
Hypothesis Hnu : forall i j, (i <= j)%nat -> (j < n)%nat -> nu i <= nu j.
Hypothesis Hlr : (l <= r)%nat.
Hypothesis Hrn : (r < n)%nat.
Hypothesis Hn : nl < nr.
Hypothesis H1 : nu l <= nl.
Hypothesis H2 : (l < r)%nat -> nl <= nu (S l).
Hypothesis H3 : (l < r)%nat -> nu r <= nr.
Hypothesis H4 : (S r = n)%nat \/ nr <= nu (S r).
Let w := {| start := l; stop := r; ratio := SplitFrequencyBinLinear l r nu nl nr fl fr |}.
Let C := cum nl nr (eff fl fr fl) (eff fl fr fr).
Lemma row_share m : (m < n)%nat -> coef w m = share nl nr (eff fl fr fl) (eff fl fr fr) (nu m) (upper n nu nr m).
Proof.
  intros Hm. pose proof (eff_pos fl fr) as P. unfold share. rewrite <- cum_diff by lra. fold C.
  assert (C0 : C nl = 0) by apply cum_lo. assert (C1 : C nr = 1) by (apply cum_hi; lra).
  assert (U : forall i, (i < n)%nat -> (i <= r)%nat -> ((S i = n)%nat \/ nr <= nu (S i)) -> inside nl nr (upper n nu nr i) = nr).
  { intros i Hi Hir [E | E]; unfold upper; destruct (Nat.eqb_spec (S i) n); try lia.
    - apply inside_high; [lra | apply Rmax_l].
    - apply inside_high; [lra | apply Rmax_l].
    - apply inside_high; lra. }
  unfold coef. cbn [w start stop ratio]. destruct (Nat.leb_spec l m) as [L | L]; [destruct (Nat.leb_spec m r) as [Rm | Rm] | ]; cbn [andb].
  - unfold SplitFrequencyBinLinear. destruct (Nat.eqb_spec r l) as [E | E].
    + replace m with l by lia. rewrite (inside_low nl nr (nu l)) by lra. rewrite U by (lia || (subst; exact H4)). lra.
    + specialize (H2 ltac:(lia)). specialize (H3 ltac:(lia)). destruct (Nat.ltb_spec (m - l) (r - l)) as [Q | Q].
      * assert (Em : upper n nu nr m = nu (S m)) by (unfold upper; destruct (Nat.eqb_spec (S m) n); [lia | reflexivity]). rewrite Em.
        pose proof (Hnu (S l) (S m) ltac:(lia) ltac:(lia)). pose proof (Hnu (S m) r ltac:(lia) ltac:(lia)). rewrite (inside_mid nl nr (nu (S m))) by lra.
        destruct (Nat.eq_dec m l) as [-> | N].
        -- rewrite Nat.sub_diag. cbn [piece]. rewrite first_cum by exact Hn. fold C. rewrite (inside_low nl nr (nu l)) by lra. lra.
        -- replace (m - l)%nat with (S (m - l - 1)) by lia. cbn [piece]. replace (l + S (m - l - 1))%nat with m by lia. rewrite middle_cum by exact Hn. fold C.
           pose proof (Hnu (S l) m ltac:(lia) ltac:(lia)). pose proof (Hnu m (S m) ltac:(lia) ltac:(lia)). rewrite (inside_mid nl nr (nu m)) by lra. reflexivity.
      * replace m with r by lia. replace (r - l)%nat with (S (r - l - 1)) by lia. rewrite pieces_cum by exact Hn. fold C. replace (l + S (r - l - 1))%nat with r by lia.
        rewrite U by (lia || exact H4). pose proof (Hnu (S l) r ltac:(lia) ltac:(lia)). rewrite (inside_mid nl nr (nu r)) by lra. lra.
  - destruct H4 as [E | E]; [lia | ]. pose proof (Hnu (S r) m ltac:(lia) ltac:(lia)). rewrite (inside_high nl nr (nu m)) by lra.
    assert (V : nr <= upper n nu nr m). { unfold upper. destruct (Nat.eqb_spec (S m) n); [apply Rmax_l | ]. pose proof (Hnu m (S m) ltac:(lia) ltac:(lia)). lra. }
    rewrite (inside_high nl nr (upper n nu nr m)) by lra. ring.
  - pose proof (Hnu (S m) l ltac:(lia) ltac:(lia)). pose proof (Hnu m (S m) ltac:(lia) ltac:(lia)). rewrite (inside_low nl nr (nu m)) by lra.
    unfold upper. destruct (Nat.eqb_spec (S m) n); [lia | ]. rewrite (inside_low nl nr (nu (S m))) by lra. ring.
Qed.
End Row.
