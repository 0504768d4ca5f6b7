From Coq Require Import Reals ZArith List Bool Lia Lra Psatz.
From Verif Require Import Fv_Model Fv_Spec Fv_Proofs Fv_Proofs2 Ref_Model Ref_Spec.
Import ListNotations.
Local Open Scope R_scope.

(** ** Restriction *)
Lemma fI_eq : forall d c x, fI d c x = (is_ d + 2 * (x - cis c))%Z. Proof. intros; unfold fI; lia. Qed.
Lemma fJ_eq : forall d c x, fJ d c x = (js d + 2 * (x - cjs c))%Z. Proof. intros; unfold fJ; lia. Qed.
Lemma fK_eq : forall d c x, fK d c x = (ks d + 2 * (x - cks c))%Z. Proof. intros; unfold fK; lia. Qed.
Lemma sum_pos : forall l, (forall x, In x l -> 0 < x) -> l <> [] -> 0 < sum l.
Proof.
  induction l as [|x l IH]; intros H N; [congruence|]. rewrite sum_cons. pose proof (H x (or_introl eq_refl)). destruct l as [|y l]; [rewrite sum_nil; lra|].
  assert (0 < sum (y :: l)) by (apply IH; [intros z Hz; apply H; right; exact Hz|congruence]). lra.
Qed.
Lemma avg : forall w u l, positive w l -> l <> [] -> forall x, x = sum (map (fun p => at_ w p * at_ u p) l) / sum (map (at_ w) l) -> average_of w u l x.
Proof.
  intros w u l P N x ->. assert (HS : 0 < sum (map (at_ w) l)). { apply sum_pos; [|destruct l; [congruence|discriminate]]. intros y Hy. apply in_map_iff in Hy. destruct Hy as [p [<- Hp]]. apply P; exact Hp. }
  split; [field; lra|]. intros lo hi B.
  assert (HL : lo * sum (map (at_ w) l) <= sum (map (fun p => at_ w p * at_ u p) l) <= hi * sum (map (at_ w) l)).
  { clear HS N. induction l as [|p l IH]; [cbn; lra|]. cbn [map]. rewrite !sum_cons. specialize (IH (fun q Hq => P q (or_intror Hq)) (fun q Hq => B q (or_intror Hq))).
    pose proof (P p (or_introl eq_refl)). pose proof (B p (or_introl eq_refl)). nra. }
  assert (0 < / sum (map (at_ w) l)) by (apply Rinv_0_lt_compat; exact HS). unfold Rdiv. split.
  - apply (Rmult_le_reg_r (sum (map (at_ w) l))); [exact HS|]. rewrite Rmult_assoc, Rinv_l by lra. lra.
  - apply (Rmult_le_reg_r (sum (map (at_ w) l))); [exact HS|]. rewrite Rmult_assoc, Rinv_l by lra. lra.
Qed.
Lemma nx_cases : forall d c, layout d c -> ((1 < nx3 d)%Z /\ (1 < nx2 d)%Z) \/ (nx3 d = 1%Z /\ (1 < nx2 d)%Z) \/ (nx3 d = 1%Z /\ nx2 d = 1%Z).
Proof. intros d c [H1 [H2 [H3 H4]]]. unfold nx2, nx3 in *. destruct (Z.eq_dec (je d - js d + 1) 1) as [E|E]; [right; right; destruct (H3 E); lia|]. destruct (Z.eq_dec (ke d - ks d + 1) 1); lia. Qed.
Ltac dims3 L := destruct (nx_cases _ _ L) as [[D3 D2]|[[D3 D2]|[D3 D2]]]; pose proof (proj1 (proj2 (proj2 L))) as L2; pose proof (proj2 (proj2 (proj2 L))) as L3;
  [ | specialize (L3 D3); destruct L3 as [L3 L3'] | specialize (L3 D3); destruct L3 as [L3 L3']; specialize (L2 D2); destruct L2 as [_ [L2 L2']]].
Lemma ltb1 : forall n, (1 < n)%Z -> Z.ltb 1 n = true. Proof. intros; apply Z.ltb_lt; assumption. Qed.
Lemma ltb0 : forall n, n = 1%Z -> Z.ltb 1 n = false. Proof. intros; subst; reflexivity. Qed.
Ltac nxs := repeat match goal with
  | H : (1 < nx3 ?d)%Z |- _ => rewrite ?(ltb1 _ H); revert H | H : (1 < nx2 ?d)%Z |- _ => rewrite ?(ltb1 _ H); revert H
  | H : nx3 ?d = 1%Z |- _ => rewrite ?(ltb0 _ H); revert H | H : nx2 ?d = 1%Z |- _ => rewrite ?(ltb0 _ H); revert H end; intros.

Lemma restrict_cc : forall d c v fine b coarse q, layout d c -> in_box d c b q -> positive v (cells d c q) -> average_of v fine (cells d c q) (at_ (RestrictCC d c v fine b coarse) q).
Proof.
  intros d c v fine b coarse [[ck cj] ci] L B P. apply avg; [exact P| |].
  - unfold cells, duo. destruct (Z.ltb 1 (nx3 d)), (Z.ltb 1 (nx2 d)); discriminate.
  - unfold in_box in B. dims3 L; cbn [at_]; unfold RestrictCC, cells, combine3, duo, two in *; cbv zeta; nxs.
    + rewrite (ltb1 _ D2), (ltb1 _ D3) in B. rewrite !within_true by lia. cbn [andb flat_map map app at_]. rewrite !sum_cons, !sum_nil, fI_eq, fJ_eq, fK_eq. f_equal; ring.
    + rewrite (ltb1 _ D2), (ltb0 _ D3) in B. rewrite !within_true by lia. destruct B as [_ [_ ->]]. rewrite L3, L3'. cbn [andb flat_map map app at_ Z.eqb]. rewrite !sum_cons, !sum_nil, fI_eq, fJ_eq. f_equal; ring.
    + rewrite (ltb0 _ D2), (ltb0 _ D3) in B. rewrite !within_true by lia. destruct B as [_ [-> ->]]. rewrite !Z.eqb_refl. cbn [andb flat_map map app at_]. rewrite !sum_cons, !sum_nil, fI_eq. f_equal; ring.
Qed.
Lemma restrict_x1 : forall d c v fine b coarse q, layout d c -> box_ok d c b -> in_box d c b q -> positive v (faces1 d c q) -> average_of v fine (faces1 d c q) (at_ (RestrictX1 d c v fine b coarse) q).
Proof.
  intros d c v fine b coarse [[ck cj] ci] L BO B P. apply avg; [exact P| |].
  - unfold faces1, duo. destruct (Z.ltb 1 (nx3 d)), (Z.ltb 1 (nx2 d)); discriminate.
  - unfold in_box in B. destruct BO as [BO1 BO2]. dims3 L; cbn [at_]; unfold RestrictX1, faces1, combine3, duo, two in *; cbv zeta; nxs.
    + rewrite (ltb1 _ D2), (ltb1 _ D3) in B. rewrite !within_true by lia. cbn [andb flat_map map app at_]. rewrite !sum_cons, !sum_nil, fI_eq, fJ_eq, fK_eq. f_equal; ring.
    + rewrite (ltb1 _ D2), (ltb0 _ D3) in B. rewrite !within_true by lia. destruct B as [_ [_ ->]]. rewrite (BO2 D3), Z.eqb_refl. cbn [andb flat_map map app at_]. rewrite !sum_cons, !sum_nil, fI_eq, fJ_eq. f_equal; ring.
    + rewrite (ltb0 _ D2), (ltb0 _ D3) in B. rewrite !within_true by lia. destruct B as [_ [-> ->]]. rewrite (BO2 D3), (BO1 D2), !Z.eqb_refl. cbn [andb flat_map map app at_]. rewrite !sum_cons, !sum_nil, fI_eq.
      unfold positive, faces1, combine3, duo in P. rewrite (ltb0 _ D2), (ltb0 _ D3) in P. specialize (P _ (or_introl eq_refl)). cbn [at_] in P. field. lra.
Qed.
Lemma restrict_x2 : forall d c v fine dx o0 o1 b coarse q, layout d c -> in_box d c b q -> IsPole d (js d + 2 * (snd (fst q) - cjs c))%Z = false -> positive v (faces2 d c q) ->
  average_of v fine (faces2 d c q) (at_ (RestrictX2 d c v fine dx o0 o1 b coarse) q).
Proof.
  intros d c v fine dx o0 o1 b coarse [[ck cj] ci] L B IP P. cbn [fst snd] in IP. apply avg; [exact P| |].
  - unfold faces2, duo. destruct (Z.ltb 1 (nx3 d)); discriminate.
  - unfold in_box in B. dims3 L; cbn [at_]; unfold RestrictX2, faces2, combine3, duo, two in *; cbv zeta; nxs.
    + rewrite (ltb1 _ D2), (ltb1 _ D3) in B. rewrite !within_true by lia. rewrite fJ_eq, IP. cbn [andb flat_map map app at_]. rewrite !sum_cons, !sum_nil, fI_eq, fK_eq. f_equal; ring.
    + rewrite (ltb1 _ D2), (ltb0 _ D3) in B. rewrite !within_true by lia. rewrite fJ_eq, IP. destruct B as [_ [_ ->]]. rewrite Z.eqb_refl. cbn [andb flat_map map app at_]. rewrite !sum_cons, !sum_nil, fI_eq. f_equal; ring.
    + rewrite (ltb0 _ D2), (ltb0 _ D3) in B. rewrite !within_true by lia. destruct B as [_ [-> ->]]. rewrite !Z.eqb_refl. cbn [andb flat_map map app at_]. rewrite !sum_cons, !sum_nil, fI_eq.
      replace (js d + 2 * (cjs c - cjs c))%Z with (js d) by lia. f_equal; ring.
Qed.
Lemma restrict_x3 : forall d c v fine b coarse q, layout d c -> in_box d c b q -> positive v (faces3 d c q) -> average_of v fine (faces3 d c q) (at_ (RestrictX3 d c v fine b coarse) q).
Proof.
  intros d c v fine b coarse [[ck cj] ci] L B P. apply avg; [exact P| |].
  - unfold faces3, duo. destruct (Z.ltb 1 (nx2 d)); discriminate.
  - unfold in_box in B. dims3 L; cbn [at_]; unfold RestrictX3, faces3, combine3, duo, two in *; cbv zeta; nxs.
    + rewrite (ltb1 _ D2), (ltb1 _ D3) in B. rewrite !within_true by lia. cbn [andb flat_map map app at_]. rewrite !sum_cons, !sum_nil, fI_eq, fJ_eq, fK_eq. f_equal; ring.
    + rewrite (ltb1 _ D2), (ltb0 _ D3) in B. rewrite !within_true by lia. destruct B as [_ [_ ->]]. rewrite Z.eqb_refl. cbn [andb flat_map map app at_]. rewrite !sum_cons, !sum_nil, fI_eq, fJ_eq.
      replace (ks d + 2 * (cks c - cks c))%Z with (ks d) by lia. f_equal; ring.
    + rewrite (ltb0 _ D2), (ltb0 _ D3) in B. rewrite !within_true by lia. destruct B as [_ [-> ->]]. rewrite !Z.eqb_refl. cbn [andb flat_map map app at_]. rewrite !sum_cons, !sum_nil, fI_eq.
      replace (ks d + 2 * (cks c - cks c))%Z with (ks d) by lia. f_equal; ring.
Qed.
(** Entries outside the range are left alone. *)
Ltac out B := match goal with |- (if ?t then _ else _) = _ => let E := fresh in destruct t eqn:E; [exfalso; apply B; clear B; repeat (apply andb_true_iff in E; destruct E as [E ?]); unfold within in *;
   repeat match goal with H : (Z.leb _ _ && Z.leb _ _)%bool = true |- _ => apply andb_true_iff in H; destruct H end; repeat match goal with H : Z.leb _ _ = true |- _ => apply Z.leb_le in H | H : Z.eqb _ _ = true |- _ => apply Z.eqb_eq in H end; lia|reflexivity] end.
Lemma restrict_out : forall d c v fine dx o0 o1 b coarse q, layout d c -> box_ok d c b -> ~ in_box d c b q ->
  at_ (RestrictCC d c v fine b coarse) q = at_ coarse q /\ at_ (RestrictX1 d c v fine b coarse) q = at_ coarse q /\ at_ (RestrictX2 d c v fine dx o0 o1 b coarse) q = at_ coarse q /\ at_ (RestrictX3 d c v fine b coarse) q = at_ coarse q.
Proof.
  intros d c v fine dx o0 o1 b coarse [[ck cj] ci] L [BO1 BO2] B. unfold in_box in B. cbn [at_]. unfold RestrictCC, RestrictX1, RestrictX2, RestrictX3; cbv zeta.
  dims3 L; try specialize (BO2 D3); try specialize (BO1 D2); nxs; rewrite ?(ltb1 _ D2), ?(ltb1 _ D3), ?(ltb0 _ D2), ?(ltb0 _ D3) in B; repeat split; out B.
Qed.

(** ** The limiter *)
Lemma sign_neg : forall x, x < 0 -> sign_ x = -1. Proof. intros x H; unfold sign_; destruct (Rlt_dec x 0); lra. Qed.
Lemma sign_pos : forall x, 0 <= x -> sign_ x = 1. Proof. intros x H; unfold sign_; destruct (Rlt_dec x 0); lra. Qed.
(** the limited slope lies between zero and both slopes *)
Lemma limited_pos : forall a b, 0 <= a -> 0 <= b -> limited a b = Rmin a b.
Proof. intros a b A B. unfold limited. rewrite !sign_pos, !Rabs_right by lra. lra. Qed.
Lemma limited_neg : forall a b, a < 0 -> b < 0 -> limited a b = - Rmin (- a) (- b).
Proof. intros a b A B. unfold limited. rewrite !sign_neg, !Rabs_left by lra. lra. Qed.
Lemma limited_mixed : forall a b, (a < 0 <= b) \/ (b < 0 <= a) -> limited a b = 0.
Proof. intros a b [[A B]|[A B]]; unfold limited; rewrite (sign_neg _ A), (sign_pos _ B); lra. Qed.
Lemma limited_bounds : forall a b, (0 <= limited a b <= a \/ a <= limited a b <= 0) /\ (0 <= limited a b <= b \/ b <= limited a b <= 0).
Proof.
  intros a b. destruct (Rlt_dec a 0) as [A|A], (Rlt_dec b 0) as [B|B].
  - rewrite limited_neg by lra. pose proof (Rmin_l (- a) (- b)). pose proof (Rmin_r (- a) (- b)). assert (0 <= Rmin (- a) (- b)) by (apply Rmin_glb; lra). lra.
  - rewrite limited_mixed by lra. lra.
  - rewrite limited_mixed by lra. lra.
  - rewrite limited_pos by lra. pose proof (Rmin_l a b). pose proof (Rmin_r a b). assert (0 <= Rmin a b) by (apply Rmin_glb; lra). lra.
Qed.
Lemma limited_same : forall a, limited a a = a.
Proof. intros a. destruct (Rlt_dec a 0). - rewrite limited_neg by lra. rewrite Rmin_left; lra. - rewrite limited_pos by lra. rewrite Rmin_left; lra. Qed.

(** ** Prolongation in one direction *)
Lemma shift_linear : forall upper um uc up_ b xm xc xp fm fp, xm < xc < xp -> uc - um = b * (xc - xm) -> up_ - uc = b * (xp - xc) -> shift upper (slope um uc up_ xm xc xp) xc fm fp = b * ((if upper then fp else fm) - xc).
Proof.
  intros upper um uc up_ b xm xc xp fm fp H E1 E2. unfold slope. rewrite E1, E2. replace (b * (xc - xm) / (xc - xm)) with b by (field; lra). replace (b * (xp - xc) / (xp - xc)) with b by (field; lra).
  rewrite limited_same. unfold shift. destruct upper; ring.
Qed.
Lemma mul_div_le : forall g h dx df, 0 < dx -> 0 <= df -> 3 * df <= dx -> (0 <= g <= h / dx \/ h / dx <= g <= 0) -> (0 <= 3 * (g * df) <= h \/ h <= 3 * (g * df) <= 0).
Proof.
  intros g h dx df D F T [[A B]|[A B]].
  - left. assert (E : g * dx <= h) by (apply (Rmult_le_compat_r dx) in B; [|lra]; unfold Rdiv in B; rewrite Rmult_assoc, Rinv_l in B by lra; lra). split; [nra|]. nra.
  - right. assert (E : h <= g * dx) by (apply (Rmult_le_compat_r dx) in A; [|lra]; unfold Rdiv in A; rewrite Rmult_assoc, Rinv_l in A by lra; lra). split; nra.
Qed.
(** The shift of a fine cell goes at most a third of the way to the coarse value on its side. *)
Lemma shift_bound : forall upper um uc up_ xm xc xp fm fp, xm < xc < xp -> 0 <= xc - fm -> 3 * (xc - fm) <= xc - xm -> 0 <= fp - xc -> 3 * (fp - xc) <= xp - xc ->
  let s := shift upper (slope um uc up_ xm xc xp) xc fm fp in let n := if upper then up_ else um in (0 <= 3 * s <= n - uc \/ n - uc <= 3 * s <= 0).
Proof.
  intros upper um uc up_ xm xc xp fm fp H F1 F2 F3 F4. cbv zeta. unfold slope. destruct (limited_bounds ((uc - um) / (xc - xm)) ((up_ - uc) / (xp - xc))) as [B1 B2]. unfold shift. destruct upper.
  - apply mul_div_le with (dx := xp - xc); try assumption; lra.
  - assert (D : 0 < xc - xm) by lra. destruct (mul_div_le _ _ _ _ D F1 F2 B1); [right|left]; lra.
Qed.
(** The two shifts cancel in the weighted sum when the coarse centre is the centroid. *)
Lemma shift_centroid : forall g xc fm fp wm wp, (wm + wp) * xc = wm * fm + wp * fp -> wm * shift false g xc fm fp + wp * shift true g xc fm fp = 0.
Proof. intros g xc fm fp wm wp H. unfold shift. replace (wm * - (g * (xc - fm)) + wp * (g * (fp - xc))) with (g * (wm * fm + wp * fp - (wm + wp) * xc)) by ring. rewrite H. ring. Qed.

(** ** Fine indices *)
Lemma up0 : forall s cs x, (cs + up s (s + 2 * (x - cs)))%Z = x. Proof. intros; unfold up. replace (s + 2 * (x - cs) - s)%Z with ((x - cs) * 2)%Z by ring. rewrite Z.div_mul by lia. lia. Qed.
Lemma up1 : forall s cs x, (cs + up s (s + 2 * (x - cs) + 1))%Z = x.
Proof. intros; unfold up. replace (s + 2 * (x - cs) + 1 - s)%Z with (1 + (x - cs) * 2)%Z by ring. rewrite Z.div_add by lia. change (1 / 2)%Z with 0%Z. lia. Qed.
Lemma is0 : forall s cs x, isup s (s + 2 * (x - cs))%Z = false. Proof. intros; unfold isup. replace (s + 2 * (x - cs) - s)%Z with ((x - cs) * 2)%Z by ring. rewrite Z.mod_mul by lia. reflexivity. Qed.
Lemma is1 : forall s cs x, isup s (s + 2 * (x - cs) + 1)%Z = true. Proof. intros; unfold isup. replace (s + 2 * (x - cs) + 1 - s)%Z with (1 + (x - cs) * 2)%Z by ring. rewrite Z.mod_add by lia. reflexivity. Qed.
Lemma in_combine : forall k j i K J I, In (k, j, i) (combine3 K J I) <-> In k K /\ In j J /\ In i I.
Proof.
  intros. unfold combine3. rewrite in_flat_map. split.
  - intros [k' [HK H]]. apply in_flat_map in H. destruct H as [j' [HJ H]]. apply in_map_iff in H. destruct H as [i' [E HI]]. injection E; intros; subst. auto.
  - intros [HK [HJ HI]]. exists k. split; [exact HK|]. apply in_flat_map. exists j. split; [exact HJ|]. apply in_map_iff. exists i. auto.
Qed.
Lemma in_two : forall s cs x i, In i (two s cs x) -> (cs + up s i)%Z = x /\ (i = (s + 2 * (x - cs))%Z /\ isup s i = false \/ i = (s + 2 * (x - cs) + 1)%Z /\ isup s i = true).
Proof. intros s cs x i [<-|[<-|[]]]; [rewrite up0, is0|rewrite up1, is1]; auto. Qed.
