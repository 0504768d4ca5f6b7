(** Conservation in the frame of the grid, equilibrium, exchange with the gas. *)
From Coq Require Import Reals List Bool Lra Psatz.
From Verif Require Import Time_Model Nr_Model Nr_Spec Nr_Proofs Nr_Proofs2.
Import ListNotations.
Local Open Scope R_scope.

Lemma exchange : forall rf tr ts tp te T' L, proper L -> transfer rf tr ts tp te T' L ->
  total L (fun d => w d * ((m d * i' d - i d) / t d)) = rf * (tp * T' ^ 4 - te * mean L).
Proof.
  intros rf tr ts tp te T' L [W P] H. unfold transfer in H. rewrite Forall_forall in P, H. set (J := mean L) in *.
  transitivity (total L (fun d => rf * (tp * T' ^ 4 + (ts + tr - te) * J) * w d + (- rf * (tr + ts)) * (w d * i' d))).
  - apply total_ext. intros d D. rewrite (H d D). destruct (P d D) as [? [? [? ?]]]. field. lra.
  - rewrite total_plus, !total_scal, W. fold (mean L). fold J. ring.
Qed.
(** The gas frame as CalSourceTerms sets it up. *)
Definition rays_ok (l : list angle) : Prop := 0 < total l (fun a => snd (dirw a)) /\ Forall (fun a => norm2 (fst (dirw a)) = 1 /\ 0 <= snd (dirw a) /\ 0 <= coef a) l.
Lemma tran_pos : forall c v r, 0 < c -> norm2 v < c * c -> norm2 (fst r) = 1 -> 0 < tran c v r.
Proof. intros c v r Hc H N. unfold tran. pose proof (vnc_pos c v (fst r) Hc H N). destruct (lorz_sq c v Hc H). nra. Qed.
Lemma cm_pos : forall c v r, 0 < tran c v r -> 0 < cm_to_lab c v r.
Proof. intros c v r H. unfold cm_to_lab. set (x := tran c v r) in *. clearbody x. repeat apply Rmult_lt_0_compat; auto. Qed.
Definition weight_sum (c : R) (v : R * R * R) (l : list angle) : R := total l (fun a => snd (dirw a) / (tran c v (dirw a) * tran c v (dirw a))).
Lemma weight_sum_pos : forall c v l, 0 < c -> norm2 v < c * c -> rays_ok l -> 0 < weight_sum c v l.
Proof.
  intros c v l Hc H [S F]. rewrite Forall_forall in F. unfold weight_sum. unfold Rdiv.
  apply (total_wpos l (fun a => snd (dirw a)) (fun a => / (tran c v (dirw a) * tran c v (dirw a)))); auto.
  intros a A. destruct (F a A) as [N [W _]]. split; auto. pose proof (tran_pos c v (dirw a) Hc H N). apply Rinv_0_lt_compat. nra.
Qed.
Lemma com_proper : forall c v l, 0 < c -> norm2 v < c * c -> rays_ok l -> proper_c (to_com c v l).
Proof.
  intros c v l Hc H O. pose proof (weight_sum_pos c v l Hc H O) as N. pose proof O as [_ F]. rewrite Forall_forall in F. unfold to_com. rewrite sum_total. fold (weight_sum c v l). set (n := weight_sum c v l) in *. split.
  - rewrite total_map. cbn [wmu_cm]. transitivity (1 / n * total l (fun a => snd (dirw a) / (tran c v (dirw a) * tran c v (dirw a)))); [rewrite <- total_scal; apply total_ext; intros; ring|]. fold (weight_sum c v l). fold n. field. lra.
  - rewrite Forall_map, Forall_forall. intros a A. cbn [wmu_cm tcoef imcoef ircm]. destruct (F a A) as [U [W C]]. pose proof (tran_pos c v (dirw a) Hc H U) as T. pose proof TINY_pos.
    repeat split; auto; try lra.
    + apply Rmult_le_pos; [apply Rle_mult_inv_pos; auto; nra|]. apply Rle_mult_inv_pos; lra.
    + eapply Rlt_le_trans; [apply TINY_pos|apply Rmax_r].
Qed.
Lemma combine_map : forall {A B C} (f : A -> C) (g : A -> B) (l : list A), combine (map f l) (map g l) = map (fun a => (f a, g a)) l.
Proof. induction l as [|a l IH]; cbn; auto. rewrite IH. auto. Qed.
Lemma map_pairs : forall {A B} (f : A -> B) (l : list A) (L : list B), map f l = L -> forall {C} (h : B -> C), combine l (map h L) = map (fun a => (a, h (f a))) l.
Proof. intros A B f l L <- C h. rewrite map_map. rewrite <- (map_id l) at 1. apply (combine_map (fun a => a) (fun a => h (f a))). Qed.
(** The explicit step: what the gas gains, the radiation loses, measured in the frame of the gas. *)
Definition gas_frame_change (c : R) (v : R * R * R) (l : list angle) (out : list R) : R :=
  lorz c v * (total (combine l out) (fun '(a, o) => snd (dirw a) * (o - ini a)) - total (combine l out) (fun '(a, o) => snd (dirw a) * (o - ini a) * dot v (fst (dirw a))) / c).
Lemma combine_old : forall (ls : list angle) (f : angle -> cang) (L : list dirn), map old L = map f ls ->
  (forall a d, In (a, d) (combine ls L) -> old d = f a) /\ (forall d, In d L -> exists a, In (a, d) (combine ls L)) /\ (forall q : dirn -> R, total L q = total (combine ls L) (fun '(_, d) => q d)) /\
  (forall h : dirn -> R, combine ls (map h L) = map (fun '(a, d) => (a, h d)) (combine ls L)) /\ (forall a, In a ls -> exists d, In (a, d) (combine ls L)).
Proof.
  induction ls as [|a ls IH]; intros f [|d L] H; cbn [map] in H; try discriminate.
  - repeat split; cbn; intros; try contradiction; auto.
  - injection H as H1 H2. destruct (IH f L H2) as [I1 [I2 [I3 [I4 I5]]]]. split; [|split; [|split; [|split]]].
    + intros b e [E|E]; [injection E as <- <-; auto|eauto].
    + intros e [E|E]; [subst; exists a; left; auto|]. destruct (I2 e E) as [b B]. exists b. right. auto.
    + intros q. unfold total in *. cbn [combine fold_right]. f_equal. apply I3.
    + intros h. cbn [map combine]. f_equal. apply I4.
    + intros b [E|E]; [subst; exists d; left; auto|]. destruct (I5 b E) as [e B]. exists e. right. auto.
Qed.
Lemma Rmax_above : forall a b, b < Rmax a b -> Rmax a b = a.
Proof. intros a b H. unfold Rmax in *. destruct (Rle_dec a b); lra. Qed.
Lemma lab_energy : forall p v rho T l, valid p rho -> norm2 v < crat p * crat p -> 0 <= T -> rays_ok l -> Forall (fun a => add a = 0 /\ coef a = 0) l ->
  let c := crat p in
  Forall (fun a => TINY <= ini a * cm_to_lab c v (dirw a)) l ->
  forall T' out, CalSourceTerms p 1 v rho T l = (T', out) ->
  (forall a o, In (a, o) (combine l out) -> TINY < o /\ TINY < o * cm_to_lab c v (dirw a)) ->
  0 <= T' /\ Rabs (rho / (gamma p - 1) * (T' - T) + prat p / (reduced_c p / c) * (gas_frame_change c v l out / weight_sum c v l)) <=
    / 10 ^ 20 * (rho / (gamma p - 1) * (T + T' ^ 4) + prat p * dtcs p (sigma_pe p) * (total (combine l out) (fun '(a, o) => snd (dirw a) * (tran c v (dirw a) * tran c v (dirw a)) * o) / weight_sum c v l)).
Proof.
  intros p v rho T l V Hv HT O EX c FL T' out H OUT. pose proof V as [Vc [Vr [Vp [Vg [Vd [Va [Vs [Vpp [Ve Vrho]]]]]]]]]. fold c in Vc, Hv.
  pose proof (com_proper c v l Vc Hv O) as PC. pose proof (weight_sum_pos c v l Vc Hv O) as NP.
  destruct (AS_solves p rho T (to_com c v l) V HT PC) as [T1 [L [E [OL [TR [T0 [MP IMB]]]]]]].
  unfold CalSourceTerms in H. fold c in H. rewrite E in H. rewrite (ltR_t (Rabs (1 - 1)) TINY) in H by (rewrite Rminus_diag_eq, Rabs_R0 by auto; apply TINY_pos).
  injection H as <- <-. split; auto.
  assert (PL : proper L) by (apply proper_old; rewrite OL; auto).
  assert (X := exchange _ _ _ _ _ _ L PL TR). unfold to_com in OL.
  destruct (combine_old l _ L OL) as [I1 [I2 [I3 [I4 I5]]]]. rewrite I4 in *. rewrite map_map in *.
  assert (OUTE : map (fun x => let '(a, o) := let '(a0, d) := x in (a0, Rmax (i' d) TINY) in Rmax (o / cm_to_lab c v (dirw a)) TINY) (combine l L) = map (fun '(a, d) => i' d / cm_to_lab c v (dirw a)) (combine l L)
    /\ forall a d, In (a, d) (combine l L) -> tran c v (dirw a) <> 0 /\ i d = ini a * cm_to_lab c v (dirw a) /\ m d = 1 /\ t d = tran c v (dirw a) /\ w d = snd (dirw a) / (tran c v (dirw a) * tran c v (dirw a)) * (1 / weight_sum c v l)).
  { assert (CL : forall (h : angle * dirn -> R) a d, In (a, d) (combine l L) -> In (a, h (a, d)) (combine l (map h (combine l L)))).
    { clear -OL. intros h. assert (LL : length l = length L) by (rewrite <- (map_length old), OL, map_length; auto). clear OL. revert L LL h. induction l as [|a l IH]; intros [|d L] LL h a0 d0 Hin; cbn in *; try contradiction; try discriminate.
      destruct Hin as [Q|Q]; [injection Q as <- <-; left; auto|]. right. apply IH; auto. }
    rewrite Forall_forall in FL, EX. destruct O as [_ F]. rewrite Forall_forall in F. split.
    - apply map_ext_in. intros [a d] Hin. pose proof (OUT a _ (CL _ a d Hin)) as [Q1 Q2]. cbv beta iota in Q1, Q2.
      pose proof (in_combine_l _ _ _ _ Hin) as HA. destruct (F a HA) as [U [W C]]. pose proof (tran_pos c v (dirw a) Vc Hv U) as TP. assert (CP : 0 < cm_to_lab c v (dirw a)) by (apply cm_pos; auto).
      pose proof (Rmax_above _ _ Q1) as R1. rewrite R1 in Q2 |- *. replace (Rmax (i' d) TINY / cm_to_lab c v (dirw a) * cm_to_lab c v (dirw a)) with (Rmax (i' d) TINY) in Q2 by (field; lra). rewrite (Rmax_above _ _ Q2). auto.
    - intros a d Hin. pose proof (I1 a d Hin) as Q. unfold old in Q. rewrite sum_total in Q. fold (weight_sum c v l) in Q. injection Q as Q1 Q2 Q3 Q4.
      pose proof (in_combine_l _ _ _ _ Hin) as HA. destruct (F a HA) as [U [W C]]. pose proof (tran_pos c v (dirw a) Vc Hv U) as TP. destruct (EX a HA) as [Y1 Y2]. rewrite Y1, Rplus_0_r in Q4. rewrite Y2, Rplus_0_r in Q3.
      rewrite Rmax_left in Q4 by (apply FL; auto). repeat split; auto. lra. }
  destruct OUTE as [OE DE]. rewrite OE in *. clear OE OUT.
  assert (CP : combine l (map (fun '(a, d) => i' d / cm_to_lab c v (dirw a)) (combine l L)) = map (fun '(a, d) => (a, i' d / cm_to_lab c v (dirw a))) (combine l L)).
  { clear - OL. assert (LL : length l = length L) by (rewrite <- (map_length old), OL, map_length; auto). clear OL. revert L LL. induction l as [|a l IH]; intros [|d L] LL; cbn in *; try discriminate; auto. f_equal. apply IH. auto. }
  unfold gas_frame_change. rewrite CP, !total_map. set (N := weight_sum c v l) in *.
  assert (MN : mean L = total (combine l L) (fun x => let '(a, o) := let '(a, d) := x in (a, i' d / cm_to_lab c v (dirw a)) in snd (dirw a) * (tran c v (dirw a) * tran c v (dirw a)) * o) / N).
  { unfold mean. rewrite I3. unfold Rdiv. rewrite Rmult_comm, <- total_scal. apply total_ext. intros [a d] Hin. destruct (DE a d Hin) as [D0 [D1 [D2 [D3 D4]]]]. rewrite D4. unfold cm_to_lab. field. split; auto. lra. }
  rewrite <- MN.
  assert (GX : total L (fun d => w d * ((m d * i' d - i d) / t d)) =
    lorz c v * (total (combine l L) (fun x => let '(a, o) := let '(a, d) := x in (a, i' d / cm_to_lab c v (dirw a)) in snd (dirw a) * (o - ini a)) -
                total (combine l L) (fun x => let '(a, o) := let '(a, d) := x in (a, i' d / cm_to_lab c v (dirw a)) in snd (dirw a) * (o - ini a) * dot v (fst (dirw a))) / c) / N).
  { rewrite I3. match goal with |- _ = lorz c v * (?a - ?b / c) / N => transitivity (lorz c v / N * a + (- lorz c v / (c * N)) * b) end; [|field; split; lra].
    rewrite <- !total_scal, <- total_plus. apply total_ext. intros [a d] Hin. destruct (DE a d Hin) as [D0 [D1 [D2 [D3 D4]]]]. rewrite D1, D2, D3, D4.
    set (tt := tran c v (dirw a)) in *. unfold cm_to_lab. fold tt.
    assert (TT : tt = lorz c v * (1 - dot v (fst (dirw a)) / c)) by (unfold tt, tran; rewrite vnc_dot; auto).
    transitivity (tt * (snd (dirw a) * (i' d / (tt * tt * tt * tt) - ini a)) / N); [field; split; auto; lra|]. rewrite TT at 1. field. repeat split; auto; lra. }
  rewrite <- GX, X. assert (RF : reduced_c p / c <> 0) by (apply Rgt_not_eq; apply Rdiv_lt_0_compat; auto). fold c. fold c in IMB.
  unfold close_bound in IMB. unfold imbalance in IMB.
  replace (prat p / (reduced_c p / c) * (reduced_c p / c * (dtcs p (sigma_p p) * T1 ^ 4 - dtcs p (sigma_pe p) * mean L))) with (prat p * (dtcs p (sigma_p p) * T1 ^ 4 - dtcs p (sigma_pe p) * mean L)) by (field; split; lra). exact IMB.
Qed.
(** Thermal equilibrium. *)
Lemma equilibrium : forall p rho T l, valid p rho -> proper_c l -> TINY <= T ^ 4 -> 0 <= T -> Forall (fun a => imcoef a = 1 /\ ircm a = T ^ 4) l ->
  sigma_pe p = sigma_p p -> sigma_p p <= sigma_a p + sigma_s p ->
  forall T' irs, AbsorptionScattering p rho T l = (T', irs) ->
  Rabs (T' - T) <= / 10 ^ 20 * (T + T' ^ 4 + (gamma p - 1) / rho * prat p * dtcs p (sigma_p p) * Rmax (T ^ 4) (T' ^ 4)) /\ Forall (fun j => Rabs (j - T ^ 4) <= Rabs (T' ^ 4 - T ^ 4)) irs.
Proof.
  intros p rho T l V PC T4 HT EQ SE SL T' irs H.
  destruct (AS_solves p rho T l V HT PC) as [T1 [L [E [OL [TR [T0 [MP IMB]]]]]]]. rewrite E in H. injection H as <- <-.
  pose proof V as [Vc [Vr [Vp [Vg [Vd [Va [Vs [Vpp [Ve Vrho]]]]]]]]].
  set (rf := reduced_c p / crat p) in *. assert (Hrf : 0 < rf) by (apply Rdiv_lt_0_compat; auto).
  assert (Hd : forall s, 0 <= s -> 0 <= dtcs p s) by (intros s Hs; unfold dtcs; apply Rmult_le_pos; auto; apply Rmult_le_pos; lra).
  rewrite SE in *. set (tr := dtcs p (sigma_a p)) in *. set (ts := dtcs p (sigma_s p)) in *. set (tp := dtcs p (sigma_p p)) in *.
  assert (Ha : 0 <= tr) by (apply Hd; auto). assert (Hs : 0 <= ts) by (apply Hd; auto). assert (Hp : 0 <= tp) by (apply Hd; auto).
  assert (LE : tp <= tr + ts) by (unfold tp, tr, ts, dtcs; rewrite <- Rmult_plus_distr_l; apply Rmult_le_compat_l; auto; apply Rmult_le_pos; lra).
  assert (K : 0 <= rf * (tr + ts)) by (apply Rmult_le_pos; lra). assert (KE : 0 <= rf * tp) by (apply Rmult_le_pos; lra).
  assert (PL : proper L) by (apply proper_old; rewrite OL; auto). pose proof PL as [W F]. rewrite Forall_forall in F.
  assert (MI : forall d, In d L -> m d = 1 /\ i d = T ^ 4) by (intros d D; rewrite Forall_forall in EQ; apply (EQ (old d)); rewrite <- OL; apply in_map; auto).
  set (q := T ^ 4) in *. set (q1 := T1 ^ 4) in *. assert (Q0 : 0 <= q) by (apply pow_le; auto). assert (Q1 : 0 <= q1) by (apply pow_le; auto).
  destruct (transfer_form rf tr ts tp tp T1 L K KE PL TR) as [FI FM]. set (k := rf * (tr + ts)) in *. destruct (sums k L K PL) as [SA0 [S20 [SB0 SS]]]. fold q1 in FI, FM.
  assert (S2E : S2 k L = q * SB k L) by (unfold S2, SB; rewrite <- total_scal; apply total_ext; intros d D; destruct (MI d D) as [-> ->]; ring).
  set (th := rf * tp * SA k L / (SB k L + rf * tp * SA k L)). assert (0 <= rf * tp * SA k L) by (apply Rmult_le_pos; auto).
  assert (TH : 0 <= th <= 1). { unfold th. split; [apply Rle_mult_inv_pos; lra|]. apply (Rmult_le_reg_r (SB k L + rf * tp * SA k L)); [lra|]. unfold Rdiv. rewrite Rmult_assoc, Rinv_l by lra. lra. }
  assert (MM : mean L = q + th * (q1 - q)) by (rewrite FM, S2E; unfold th; field; lra).
  assert (MX : mean L <= Rmax q q1). { rewrite MM. pose proof (Rmax_l q q1). pose proof (Rmax_r q q1). destruct (Rle_or_lt q q1); nra. }
  split.
  - set (g := fun a => {| w := wmu_cm a; t := tcoef a; m := imcoef a; i := ircm a; i' := ircm a |}).
    assert (OE : map old (map g l) = l) by (rewrite map_map; rewrite <- map_id; apply map_ext; intros [a1 a2 a3 a4]; reflexivity).
    assert (ME : mean (map g l) = q).
    { unfold mean. rewrite total_map. cbn [g w i']. transitivity (q * total l wmu_cm); [|destruct PC as [-> _]; ring]. rewrite <- total_scal. apply total_ext. intros a A. rewrite Forall_forall in EQ. destruct (EQ a A) as [_ ->]. ring. }
    assert (C := AS_close p rho T l V HT PC T1 L T (map g l) OL OE). fold rf tr ts in C. rewrite SE in C. fold tp in C.
    eapply Rle_trans; [apply C; auto|].
    + unfold transfer. rewrite ME. rewrite Forall_map, Forall_forall. intros a A. cbn [g m i' i t]. rewrite Forall_forall in EQ. destruct (EQ a A) as [-> ->]. fold q. ring.
    + unfold imbalance. rewrite ME. fold q. ring.
    + unfold close_bound. fold q1. set (M := mean L) in *. fold TINY. pose proof TINY_pos.
      replace ((gamma p - 1) / rho * (TINY * (rho / (gamma p - 1) * (T + q1) + prat p * tp * M))) with (TINY * (T + q1 + (gamma p - 1) / rho * prat p * tp * M)) by (field; lra).
      apply Rmult_le_compat_l; [lra|]. apply Rplus_le_compat_l. apply Rmult_le_compat_l; auto. apply Rmult_le_pos; auto. apply Rmult_le_pos; [apply Rle_mult_inv_pos; lra|lra].
  - rewrite Forall_map, Forall_forall. intros d D. destruct (MI d D) as [M1' I1']. destruct (F d D) as [_ [TP _]]. destruct (vd_pos k L d K PL D) as [V1 V2]. rewrite M1' in V2.
    assert (ID : i' d - q = vd k d * t d * (rf * (tp * (1 - th) + (ts + tr) * th)) * (q1 - q)).
    { rewrite (FI d D), MM, I1'. fold q. assert (QE : q = ((1 + k * t d) * vd k d) * q) by (rewrite V2; ring).
      transitivity (vd k d * (q + t d * (rf * (tp * q1 + (ts + tr - tp) * (q + th * (q1 - q))))) - ((1 + k * t d) * vd k d) * q); [rewrite <- QE; reflexivity|]. set (x := vd k d). unfold k. ring. }
    set (cc := vd k d * t d * (rf * (tp * (1 - th) + (ts + tr) * th))) in *.
    assert (CC : 0 <= cc <= 1).
    { assert (B1 : 0 <= tp * (1 - th) + (ts + tr) * th) by (assert (0 <= tp * (1 - th)) by (apply Rmult_le_pos; lra); assert (0 <= (ts + tr) * th) by (apply Rmult_le_pos; lra); lra).
      assert (B2 : tp * (1 - th) + (ts + tr) * th <= tr + ts) by nra. set (y := tp * (1 - th) + (ts + tr) * th) in *.
      assert (0 <= vd k d * t d) by (apply Rmult_le_pos; lra). split; [apply Rmult_le_pos; auto; apply Rmult_le_pos; lra|].
      apply Rle_trans with (vd k d * t d * k); [|nra]. unfold cc, k. apply Rmult_le_compat_l; auto. apply Rmult_le_compat_l; lra. }
    assert (B : Rabs (i' d - q) <= Rabs (q1 - q)) by (rewrite ID, Rabs_mult, (Rabs_pos_eq cc) by lra; pose proof (Rabs_pos (q1 - q)); nra).
    eapply Rle_trans; [|exact B]. unfold Rmax. destruct (Rle_dec (i' d) TINY); [|lra]. rewrite !Rabs_left1 by lra. lra.
Qed.

(** Exchange with the gas. *)
Lemma total_diff : forall {A} (h : A -> R) (x y : list A), length x = length y -> total (combine x y) (fun '(a, b) => h b - h a) = total y h - total x h.
Proof.
  induction x as [|a x IH]; intros [|b y] L; cbn in L; try discriminate; unfold total in *; cbn [combine fold_right]; [lra|]. rewrite IH by auto. lra.
Qed.
Lemma delta_moment : forall rays before after f, length before = length after -> delta rays before after f = moment rays after f - moment rays before f.
Proof.
  intros rays before after f LE. rewrite !moment_total. rewrite <- (total_diff _ before after LE). unfold delta. rewrite sum_total. apply total_ext. intros [x y] _.
  rewrite !sum_total. apply (f_equal2 Rminus); apply total_ext; intros [[d w0] i0] _; ring.
Qed.
Definition speed2 (u : gas) : R := (M1 u / DN u) * (M1 u / DN u) + (M2 u / DN u) * (M2 u / DN u) + (M3 u / DN u) * (M3 u / DN u).
Definition eint (pb : R) (u : gas) : R := EN u - (M1 u * M1 u + M2 u * M2 u + M3 u * M3 u) / (2 * DN u) - pb.
(** The gas after the source terms have been added without any limit. *)
Definition plain (src : R * R * R * R) (u : gas) : gas := let '(s0, s1, s2, s3) := src in {| DN := DN u; M1 := M1 u + s1; M2 := M2 u + s2; M3 := M3 u + s3; EN := EN u + s0 |}.
Lemma add_plain : forall p vmax ceil pb tn src u, 0 < crat p -> 0 < vmax -> 0 < DN u ->
  speed2 (plain src u) <= (vmax * crat p) * (vmax * crat p) -> 0 <= eint pb (plain src u) -> eint pb (plain src u) * (gamma p - 1) / DN u <= ceil ->
  AddSourceTerms p vmax ceil false pb tn src u = plain src u.
Proof.
  intros p vmax ceil pb tn [[[s0 s1] s2] s3] u Hc Hv Hd S E C. unfold AddSourceTerms, plain in *. unfold speed2, eint in *. cbn [DN M1 M2 M3 EN] in *.
  set (q := _ + _ + _ : R) in S. assert (SQ : sqrt q <= vmax * crat p) by (rewrite <- (sqrt_square (vmax * crat p)) by nra; apply sqrt_le_1_alt; auto). fold q.
  rewrite (ltR_f vmax). 2: { apply (Rmult_le_reg_r (crat p)); auto. replace (sqrt q * (1 / crat p) * crat p) with (sqrt q) by (field; lra). lra. }
  set (ek := (M1 u + s1) * (M1 u + s1) + (M2 u + s2) * (M2 u + s2) + (M3 u + s3) * (M3 u + s3)) in *.
  replace (1 / 2 * ek / DN u) with (ek / (2 * DN u)) by (field; lra). rewrite ltR_f by lra. rewrite ltR_f by lra. reflexivity.
Qed.
Lemma add_momentum : forall p vmax ceil fl pb tn src u, 0 < crat p -> 0 < vmax -> 0 < DN u ->
  let u1 := plain src u in let u' := AddSourceTerms p vmax ceil fl pb tn src u in
  DN u' = DN u /\
  (speed2 u1 <= (vmax * crat p) * (vmax * crat p) -> M1 u' = M1 u1 /\ M2 u' = M2 u1 /\ M3 u' = M3 u1) /\
  ((vmax * crat p) * (vmax * crat p) < speed2 u1 -> speed2 u' = (vmax * crat p) * (vmax * crat p) /\ exists f, 0 < f < 1 /\ M1 u' = f * M1 u1 /\ M2 u' = f * M2 u1 /\ M3 u' = f * M3 u1).
Proof.
  intros p vmax ceil fl pb tn [[[s0 s1] s2] s3] u Hc Hv Hd u1 u'. subst u1 u'. unfold AddSourceTerms, plain, speed2. cbn [DN M1 M2 M3 EN].
  set (a := M1 u + s1). set (b := M2 u + s2). set (d := M3 u + s3). set (q := a / DN u * (a / DN u) + b / DN u * (b / DN u) + d / DN u * (d / DN u)).
  assert (Q0 : 0 <= q) by (unfold q; nra).
  destruct (Rle_or_lt q (vmax * crat p * (vmax * crat p))) as [S|S].
  - assert (SQ : sqrt q <= vmax * crat p) by (rewrite <- (sqrt_square (vmax * crat p)) by nra; apply sqrt_le_1_alt; auto).
    rewrite (ltR_f vmax). 2: { apply (Rmult_le_reg_r (crat p)); auto. replace (sqrt q * (1 / crat p) * crat p) with (sqrt q) by (field; lra). lra. }
    cbn [DN M1 M2 M3]. repeat split; auto; lra.
  - assert (SQ : vmax * crat p < sqrt q) by (rewrite <- (sqrt_square (vmax * crat p)) by nra; apply sqrt_lt_1_alt; split; auto; nra).
    rewrite (ltR_t vmax). 2: { apply (Rmult_lt_reg_r (crat p)); auto. replace (sqrt q * (1 / crat p) * crat p) with (sqrt q) by (field; lra). lra. }
    cbn [DN M1 M2 M3]. assert (VC : 0 < vmax * crat p) by nra. assert (QP : 0 < sqrt q) by lra.
    set (f := vmax / (sqrt q * (1 / crat p))). assert (FE : f = vmax * crat p / sqrt q) by (unfold f; field; split; lra).
    assert (FP : 0 < f < 1) by (rewrite FE; split; [apply Rdiv_lt_0_compat; lra|]; apply (Rmult_lt_reg_r (sqrt q)); auto; unfold Rdiv; rewrite Rmult_assoc, Rinv_l by lra; lra).
    split; auto. split; [intros; lra|]. intros _. split.
    + transitivity (f * f * q); [unfold q; field; lra|]. rewrite FE. assert (QQ : sqrt q * sqrt q = q) by (apply sqrt_sqrt; auto). rewrite <- QQ at 3. field. lra.
    + exists f. repeat split; try lra; ring.
Qed.
Lemma add_energy : forall p vmax ceil fl pb tn src u, 1 < gamma p -> 0 < DN u -> 0 <= tn -> 0 <= ceil ->
  0 <= eint pb (AddSourceTerms p vmax ceil fl pb tn src u) /\ eint pb (AddSourceTerms p vmax ceil fl pb tn src u) * (gamma p - 1) / DN u <= Rmax ceil tn.
Proof.
  intros p vmax ceil fl pb tn [[[s0 s1] s2] s3] u Hg Hd Ht Hc. unfold AddSourceTerms, eint.
  match goal with |- context [ltR vmax ?r] => set (rr := r) end.
  assert (G : exists a b d, (if ltR vmax rr then ((M1 u + s1) * (vmax / rr), (M2 u + s2) * (vmax / rr), (M3 u + s3) * (vmax / rr)) else (M1 u + s1, M2 u + s2, M3 u + s3)) = (a, b, d)) by (destruct (ltR vmax rr); eauto).
  destruct G as [a [b [d G]]]. cbv zeta. rewrite G. cbn [DN M1 M2 M3 EN]. set (ek := a * a + b * b + d * d). replace (1 / 2 * ek / DN u) with (ek / (2 * DN u)) by (field; lra). set (e := ek / (2 * DN u)).
  pose proof (Rmax_l ceil tn). pose proof (Rmax_r ceil tn).
  assert (A : forall x y, 0 <= x -> x <= Rmax ceil tn -> y = x * DN u / (gamma p - 1) -> 0 <= y /\ y * (gamma p - 1) / DN u <= Rmax ceil tn).
  { intros x y X1 X2 ->. split; [apply Rle_mult_inv_pos; [nra|lra]|]. replace (x * DN u / (gamma p - 1) * (gamma p - 1) / DN u) with x by (field; lra). auto. }
  destruct fl; [apply (A tn); auto; ring|].
  unfold ltR. destruct (Rlt_dec (EN u + s0 - e - pb) 0); [apply (A tn); auto; ring|].
  destruct (Rlt_dec ceil ((EN u + s0 - e - pb) * (gamma p - 1) / DN u)); [apply (A ceil); auto; ring|]. lra.
Qed.
