(** The implicit absorption and scattering step. *)
From Coq Require Import Reals List Bool Lra Psatz.
From Verif Require Import Time_Model Qrt_Model Qrt_Spec Qrt_Props Nr_Model Nr_Spec Nr_Proofs.
Import ListNotations.
Local Open Scope R_scope.

Lemma ltR_t : forall a b, a < b -> ltR a b = true.
Proof. intros a b H. unfold ltR. destruct (Rlt_dec a b); auto; lra. Qed.
Lemma ltR_f : forall a b, b <= a -> ltR a b = false.
Proof. intros a b H. unfold ltR. destruct (Rlt_dec a b); auto; lra. Qed.
Lemma TINY_pos : 0 < TINY.
Proof. unfold TINY. apply Rinv_0_lt_compat. apply pow_lt. lra. Qed.
(** A weighted sum of positive numbers is positive. *)
Lemma total_wpos : forall {A} (l : list A) (a b : A -> R), (forall x, In x l -> 0 <= a x /\ 0 < b x) -> 0 < total l a -> 0 < total l (fun x => a x * b x).
Proof.
  induction l as [|x l IH]; intros a b H P; unfold total in *; cbn [fold_right] in *; [lra|].
  destruct (H x (or_introl eq_refl)) as [X1 X2]. fold (total l (fun y => a y * b y)).
  assert (0 <= total l (fun y => a y * b y)) by (apply total_nonneg; intros y Y; destruct (H y (or_intror Y)); nra).
  destruct (Rlt_or_le 0 (a x)); [nra|]. assert (a x = 0) by lra. pose proof (IH a b (fun y Y => H y (or_intror Y))). unfold total in *. nra.
Qed.

(** Sums of the solution. *)
Definition vd (k : R) (d : dirn) : R := / (m d + k * t d).
Definition SA (k : R) (l : list dirn) : R := total l (fun d => w d * (t d * vd k d)).
Definition S2 (k : R) (l : list dirn) : R := total l (fun d => w d * (i d * vd k d)).
Definition SB (k : R) (l : list dirn) : R := total l (fun d => w d * (m d * vd k d)).
Lemma vd_pos : forall k l d, 0 <= k -> proper l -> In d l -> 0 < vd k d /\ (m d + k * t d) * vd k d = 1.
Proof.
  intros k l d K [_ P] H. rewrite Forall_forall in P. destruct (P d H) as [? [? [? ?]]]. assert (0 <= k * t d) by (apply Rmult_le_pos; lra). unfold vd.
  split; [apply Rinv_0_lt_compat; lra|]. apply Rinv_r. lra.
Qed.
Lemma sums : forall k l, 0 <= k -> proper l -> 0 <= SA k l /\ 0 < S2 k l /\ 0 < SB k l /\ SB k l + k * SA k l = 1.
Proof.
  intros k l K P. pose proof P as [W F]. rewrite Forall_forall in F.
  assert (Q : forall x, In x l -> 0 <= w x /\ 0 < t x /\ 1 <= m x /\ 0 < i x /\ 0 < vd k x) by (intros x X; destruct (F x X) as [? [? [? ?]]]; destruct (vd_pos k l x K P X); auto).
  split. { apply total_nonneg. intros x X. destruct (Q x X) as [? [? [? [? ?]]]]. apply Rmult_le_pos; auto. nra. }
  split. { apply (total_wpos l w (fun d => i d * vd k d)). { intros x X. destruct (Q x X) as [? [? [? [? ?]]]]. split; auto. nra. } rewrite W. lra. }
  split. { apply (total_wpos l w (fun d => m d * vd k d)). { intros x X. destruct (Q x X) as [? [? [? [? ?]]]]. split; auto. nra. } rewrite W. lra. }
  unfold SB, SA. rewrite <- total_scal, <- total_plus, <- W. apply total_ext. intros x X. destruct (vd_pos k l x K P X) as [_ E].
  transitivity (w x * ((m x + k * t x) * vd k x)); [ring|]. rewrite E. ring.
Qed.
(** What a solution of the transfer equations looks like. *)
Lemma transfer_form : forall rf tr ts tp te T l, 0 <= rf * (tr + ts) -> 0 <= rf * te -> proper l -> let k := rf * (tr + ts) in
  transfer rf tr ts tp te T l ->
  (forall d, In d l -> i' d = vd k d * (i d + t d * (rf * (tp * T ^ 4 + (ts + tr - te) * mean l)))) /\
  mean l = (rf * tp * SA k l * T ^ 4 + S2 k l) / (SB k l + rf * te * SA k l).
Proof.
  intros rf tr ts tp te T l K E P k H. unfold transfer in H. rewrite Forall_forall in H.
  assert (I : forall d, In d l -> i' d = vd k d * (i d + t d * (rf * (tp * T ^ 4 + (ts + tr - te) * mean l)))).
  { intros d D. specialize (H d D). destruct (vd_pos k l d K P D) as [V1 V2]. set (J := mean l) in *. clearbody J.
    transitivity (vd k d * ((m d + k * t d) * i' d)). { transitivity (((m d + k * t d) * vd k d) * i' d); [rewrite V2; ring|ring]. }
    f_equal. unfold k. lra. }
  split; auto. destruct (sums k l K P) as [A [B [C D]]]. assert (0 <= rf * te * SA k l) by (apply Rmult_le_pos; auto).
  set (J := mean l) in *.
  assert (M : J = S2 k l + (rf * (tp * T ^ 4 + (ts + tr - te) * J)) * SA k l).
  { unfold J at 1, mean, S2, SA. rewrite <- total_scal, <- total_plus. apply total_ext. intros d X. rewrite (I d X). ring. }
  apply (Rmult_eq_reg_r (SB k l + rf * te * SA k l)); [|lra]. transitivity (rf * tp * SA k l * T ^ 4 + S2 k l); [|field; lra].
  assert (G : SB k l = 1 - k * SA k l) by lra. rewrite G. unfold k in *. lra.
Qed.
Definition c1 (rho gm1 prat rf tr ts tp te : R) (l : list dirn) : R := let k := rf * (tr + ts) in gm1 / rho * prat * (tp * SB k l / (SB k l + rf * te * SA k l)).
Definition c0 (rho gm1 prat rf tr ts te T : R) (l : list dirn) : R := let k := rf * (tr + ts) in - T - gm1 / rho * prat * (te * S2 k l / (SB k l + rf * te * SA k l)).
Lemma imbalance_form : forall rho gm1 prat rf tr ts tp te T T' l, 0 < rho -> 0 < gm1 -> 0 <= rf * (tr + ts) -> 0 <= rf * te -> proper l ->
  transfer rf tr ts tp te T' l ->
  gm1 / rho * imbalance rho gm1 prat tp te T T' l = c1 rho gm1 prat rf tr ts tp te l * T' ^ 4 + T' + c0 rho gm1 prat rf tr ts te T l.
Proof.
  intros rho gm1 prat rf tr ts tp te T T' l Hr Hg K E P H. destruct (transfer_form rf tr ts tp te T' l K E P H) as [_ M]. unfold imbalance. rewrite M. unfold c1, c0.
  destruct (sums _ l K P) as [A [B [C D]]]. set (k := rf * (tr + ts)) in *. assert (0 <= rf * te * SA k l) by (apply Rmult_le_pos; auto).
  assert (N : SB k l + rf * te * SA k l <> 0) by lra.
  field_simplify_eq; [|repeat split; lra]. ring.
Qed.
(** Monotone in the temperature. *)
Lemma mono_close : forall c T1 T2 e, 0 <= c -> 0 <= T1 -> 0 <= T2 -> Rabs ((c * T1 ^ 4 + T1) - (c * T2 ^ 4 + T2)) <= e -> Rabs (T1 - T2) <= e.
Proof.
  intros c T1 T2 e C H1 H2 H. eapply Rle_trans; [|apply H].
  assert (G : forall a b, 0 <= b <= a -> a - b <= (c * a ^ 4 + a) - (c * b ^ 4 + b)).
  { intros a b [? ?]. assert (b ^ 4 <= a ^ 4) by (apply pow_incr; lra). nra. }
  destruct (Rle_or_lt T2 T1).
  - pose proof (G T1 T2 (conj H2 H0)). rewrite !Rabs_pos_eq by lra. auto.
  - pose proof (G T2 T1 (conj H1 (Rlt_le _ _ H0))). rewrite !Rabs_left1 by lra. lra.
Qed.

(** The routine. *)
Definition valid (p : params) (rho : R) : Prop :=
  0 < crat p /\ 0 < reduced_c p /\ 0 < prat p /\ 1 < gamma p /\ 0 <= dt p /\ 0 <= sigma_a p /\ 0 <= sigma_s p /\ 0 <= sigma_p p /\ 0 <= sigma_pe p /\ 0 < rho.
(** The directions with new intensities that solve the equations for the temperature T'. *)
Definition old (d : dirn) : cang := {| wmu_cm := w d; tcoef := t d; imcoef := m d; ircm := i d |}.
Definition proper_c (l : list cang) : Prop := total l wmu_cm = 1 /\ Forall (fun a => 0 <= wmu_cm a /\ 0 < tcoef a /\ 1 <= imcoef a /\ 0 < ircm a) l.
Lemma proper_old : forall L, proper_c (map old L) -> proper L.
Proof.
  intros L [H1 H2]. rewrite total_map in H1. cbn [old wmu_cm] in H1. split; [exact H1|]. rewrite Forall_map in H2. exact H2.
Qed.
(** The temperature part: some T' that nearly solves. *)
Lemma temperature : forall a b, 0 <= a -> b <= 0 -> exists T, (if ltR TINY (Rabs a) then FouthPolyRoot a b else Some (- b)) = Some T /\ 0 <= T /\
  Rabs (a * T ^ 4 + T + b) <= TINY * (T ^ 4 + - b).
Proof.
  intros a b A B. pose proof TINY_pos as TP. rewrite (Rabs_pos_eq a) by auto. destruct (Rlt_or_le TINY a) as [H|H].
  - rewrite ltR_t by auto. assert (a0 : 0 < a) by lra. destruct (Rle_or_lt (1 / 4 - 64 * b ^ 3 * a / 27) (10 ^ 20)) as [D|D].
    + destruct (C77_root a b a0 B D) as [x [F [[S1 S2] _]]]. exists x. repeat split; auto. rewrite S2, Rabs_R0. apply Rmult_le_pos; [lra|]. assert (0 <= x ^ 4) by (apply pow_le; auto). lra.
    + destruct (C77_large a b a0 B D) as [x [b' [F [[S1 S2] E]]]]. exists x. repeat split; auto.
      replace (a * x ^ 4 + x + b) with (- (b' - b)) by lra. rewrite Rabs_Ropp. fold TINY in E. rewrite (Rabs_left1 b) in E by auto.
      assert (0 <= x ^ 4) by (apply pow_le; auto). assert (0 <= TINY * x ^ 4) by (apply Rmult_le_pos; lra). lra.
  - rewrite ltR_f by auto. exists (- b). repeat split; [lra|]. set (q := (- b) ^ 4). assert (0 <= q) by (apply pow_le; lra).
    replace (a * q + - b + b) with (a * q) by ring. rewrite Rabs_pos_eq by (apply Rmult_le_pos; auto).
    assert (a * q <= TINY * q) by (apply Rmult_le_compat_r; auto). assert (0 <= TINY * - b) by (apply Rmult_le_pos; lra). lra.
Qed.
Definition close_bound (rho gm1 prat te T T' : R) (L : list dirn) : R := / 10 ^ 20 * (rho / gm1 * (T + T' ^ 4) + prat * te * mean L).
Lemma AS_solves : forall p rho T l, valid p rho -> 0 <= T -> proper_c l ->
  let rf := reduced_c p / crat p in let tr := dtcs p (sigma_a p) in let ts := dtcs p (sigma_s p) in let tp := dtcs p (sigma_p p) in let te := dtcs p (sigma_pe p) in
  exists T' L, AbsorptionScattering p rho T l = (T', map (fun d => Rmax (i' d) TINY) L) /\ map old L = l /\ transfer rf tr ts tp te T' L /\ 0 <= T' /\ 0 <= mean L /\
    Rabs (imbalance rho (gamma p - 1) (prat p) tp te T T' L) <= close_bound rho (gamma p - 1) (prat p) te T T' L.
Proof.
  intros p rho T l V HT P rf tr ts tp te. destruct V as [Vc [Vr [Vp [Vg [Vd [Va [Vs [Vpp [Ve Vrho]]]]]]]]].
  assert (Hrf : 0 < rf) by (apply Rdiv_lt_0_compat; auto).
  assert (Hd : forall s, 0 <= s -> 0 <= dtcs p s) by (intros s Hs; unfold dtcs; apply Rmult_le_pos; auto; apply Rmult_le_pos; lra).
  pose proof (Hd _ Va) as Ha. pose proof (Hd _ Vs) as Hs. pose proof (Hd _ Vpp) as Hp. pose proof (Hd _ Ve) as He. fold tr in Ha. fold ts in Hs. fold tp in Hp. fold te in He.
  assert (K : 0 <= rf * (tr + ts)) by (apply Rmult_le_pos; lra). assert (KE : 0 <= rf * te) by (apply Rmult_le_pos; lra).
  set (g := fun (f : cang -> R) a => {| w := wmu_cm a; t := tcoef a; m := imcoef a; i := ircm a; i' := f a |}).
  assert (OLD : forall f, map old (map (g f) l) = l) by (intros f; rewrite map_map; rewrite <- map_id; apply map_ext; intros [a1 a2 a3 a4]; reflexivity).
  assert (PL : forall f, proper (map (g f) l)) by (intros f; apply proper_old; rewrite OLD; auto).
  set (k := rf * (tr + ts)) in *. set (L0 := map (g (fun _ => 0)) l).
  assert (SAf : forall f, SA k (map (g f) l) = SA k L0) by (intros f; unfold L0, SA; rewrite !total_map; reflexivity).
  assert (SBf : forall f, SB k (map (g f) l) = SB k L0) by (intros f; unfold L0, SB; rewrite !total_map; reflexivity).
  assert (S2f : forall f, S2 k (map (g f) l) = S2 k L0) by (intros f; unfold L0, S2; rewrite !total_map; reflexivity).
  destruct (sums k L0 K (PL _)) as [A [B [C D]]].
  assert (VN : forall a, vn p a = vd k (g (fun _ => 0) a)).
  { intros a. unfold vn, vd, rdtcs, k. fold rf tr ts. cbn [g m t]. unfold Rdiv. rewrite Rmult_1_l. f_equal. ring. }
  assert (E1 : sum l (fun a => wmu_cm a * vn2 p a) = SA k L0) by (rewrite sum_total; unfold L0, SA; rewrite total_map; apply total_ext; intros a _; unfold vn2; rewrite VN; reflexivity).
  assert (E2 : sum l (fun a => ircm a * wmu_cm a * vn p a) = S2 k L0) by (rewrite sum_total; unfold L0, S2; rewrite total_map; apply total_ext; intros a _; rewrite VN; cbn [g w i]; ring).
  unfold AbsorptionScattering. rewrite E1, E2. unfold rdtcs. fold rf tr ts tp te.
  assert (E3 : 1 - SA k L0 * (rf * ts + rf * tr - rf * te) = SB k L0 + rf * te * SA k L0) by (assert (G : SB k L0 = 1 - k * SA k L0) by lra; rewrite G; unfold k; ring).
  rewrite E3. set (DD := SB k L0 + rf * te * SA k L0) in *. assert (0 <= rf * te * SA k L0) by (apply Rmult_le_pos; auto). assert (HD : 0 < DD) by (unfold DD; lra).
  set (a1 := prat p * (tp - te * (SA k L0 * (rf * tp)) / DD) * (gamma p - 1) / rho).
  set (b1 := - T - te * prat p * S2 k L0 * (gamma p - 1) / (rho * DD)).
  assert (Ea : a1 = c1 rho (gamma p - 1) (prat p) rf tr ts tp te L0).
  { unfold a1, c1. fold k DD. replace (tp * SB k L0 / DD) with (tp - te * (SA k L0 * (rf * tp)) / DD); [field; lra|]. unfold DD. field. fold DD. lra. }
  assert (Eb : b1 = c0 rho (gamma p - 1) (prat p) rf tr ts te T L0) by (unfold b1, c0; fold k DD; field; lra).
  assert (Ha1 : 0 <= a1). { rewrite Ea. unfold c1. fold k DD. apply Rmult_le_pos; [apply Rmult_le_pos; [apply Rle_mult_inv_pos; lra|lra]|]. apply Rle_mult_inv_pos; auto. apply Rmult_le_pos; lra. }
  assert (Hq : 0 <= (gamma p - 1) / rho * prat p * (te * S2 k L0 / DD)). { apply Rmult_le_pos; [apply Rmult_le_pos; [apply Rle_mult_inv_pos; lra|lra]|]. apply Rle_mult_inv_pos; auto. apply Rmult_le_pos; lra. }
  assert (Hb1 : b1 <= 0) by (rewrite Eb; unfold c0; fold k DD; lra).
  destruct (temperature a1 b1 Ha1 Hb1) as [T' [F [T0 R]]]. rewrite F.
  set (J := (SA k L0 * (rf * tp) * (T' * T' * T' * T') + S2 k L0) / DD).
  set (f := fun a => vn p a * (ircm a + tcoef a * (rf * (tp * T' ^ 4 + (ts + tr - te) * J)))).
  exists T', (map (g f) l). assert (Fl : Forall (fun a => 0 <= wmu_cm a /\ 0 < tcoef a /\ 1 <= imcoef a /\ 0 < ircm a) l) by apply P. rewrite Forall_forall in Fl.
  assert (VP : forall a, In a l -> (imcoef a + k * tcoef a) * vn p a = 1).
  { intros a X. rewrite VN. destruct (vd_pos k L0 (g (fun _ => 0) a) K (PL _)) as [_ Q]; [apply in_map; auto|exact Q]. }
  assert (T4 : T' * T' * T' * T' = T' ^ 4) by ring.
  assert (MJ : mean (map (g f) l) = J).
  { unfold mean. rewrite total_map. transitivity (S2 k L0 + rf * (tp * T' ^ 4 + (ts + tr - te) * J) * SA k L0).
    - unfold S2, SA, L0. rewrite !total_map, <- total_scal, <- total_plus. apply total_ext. intros a _. cbn [g w i' i t]. unfold f. rewrite VN. cbn [g]. ring.
    - assert (JD : J * DD = SA k L0 * (rf * tp) * T' ^ 4 + S2 k L0) by (unfold J; rewrite T4; field; lra).
      unfold DD in JD. assert (G : SB k L0 = 1 - k * SA k L0) by lra. rewrite G in JD. clearbody J. clear - JD. set (s := SA k L0) in *. set (r := S2 k L0) in *. clearbody s r. unfold k in JD. lra. }
  assert (TR : transfer rf tr ts tp te T' (map (g f) l)).
  { unfold transfer. rewrite MJ. rewrite Forall_map, Forall_forall. intros a X. cbn [g m i' i t]. pose proof (VP a X) as Q.
    assert (Y : (imcoef a + k * tcoef a) * f a = ircm a + tcoef a * (rf * (tp * T' ^ 4 + (ts + tr - te) * J))) by (unfold f; rewrite <- Rmult_assoc, Q; ring).
    unfold k in Y. lra. }
  split.
  { f_equal. rewrite map_map. apply map_ext_in. intros a X. cbn [g i']. f_equal. destruct (Fl a X) as [? [? [? ?]]]. pose proof (VP a X) as Q. unfold f, vn2. rewrite T4.
    assert (Y : ircm a = ircm a * ((imcoef a + k * tcoef a) * vn p a)) by (rewrite Q; ring). rewrite Y at 1. unfold k. field. lra. }
  split; [apply OLD|]. split; [exact TR|]. split; [exact T0|].
  assert (HJ : 0 <= J). { unfold J. rewrite T4. assert (0 <= T' ^ 4) by (apply pow_le; auto). apply Rle_mult_inv_pos; auto. assert (0 <= SA k L0 * (rf * tp) * T' ^ 4) by (apply Rmult_le_pos; [apply Rmult_le_pos; [|apply Rmult_le_pos]|]; lra). lra. }
  split; [rewrite MJ; auto|].
  assert (I := imbalance_form rho (gamma p - 1) (prat p) rf tr ts tp te T T' (map (g f) l) Vrho ltac:(lra) K KE (PL f) TR).
  unfold c1, c0 in I. fold k in I. rewrite SAf, SBf, S2f in I. fold DD in I.
  assert (I2 : (gamma p - 1) / rho * imbalance rho (gamma p - 1) (prat p) tp te T T' (map (g f) l) = a1 * T' ^ 4 + T' + b1) by (rewrite I, Ea, Eb; unfold c1, c0; fold k DD; reflexivity).
  rewrite <- I2 in R. rewrite Rabs_mult, (Rabs_pos_eq ((gamma p - 1) / rho)) in R by (apply Rle_mult_inv_pos; lra).
  assert (Hs2 : - b1 <= T + (gamma p - 1) / rho * (prat p * te * J)).
  { rewrite Eb. unfold c0. fold k DD. replace (- (- T - (gamma p - 1) / rho * prat p * (te * S2 k L0 / DD))) with (T + (gamma p - 1) / rho * (prat p * te * (S2 k L0 / DD))) by (field; lra).
    apply Rplus_le_compat_l. apply Rmult_le_compat_l; [apply Rle_mult_inv_pos; lra|]. apply Rmult_le_compat_l; [apply Rmult_le_pos; lra|]. unfold J. rewrite T4.
    unfold Rdiv. apply Rmult_le_compat_r; [left; apply Rinv_0_lt_compat; auto|]. assert (0 <= T' ^ 4) by (apply pow_le; auto). assert (0 <= SA k L0 * (rf * tp) * T' ^ 4) by (apply Rmult_le_pos; [apply Rmult_le_pos; [|apply Rmult_le_pos]|]; lra). lra. }
  unfold close_bound. rewrite MJ. fold TINY. pose proof TINY_pos.
  apply (Rmult_le_reg_l ((gamma p - 1) / rho)); [apply Rdiv_lt_0_compat; lra|].
  eapply Rle_trans; [exact R|].
  replace ((gamma p - 1) / rho * (TINY * (rho / (gamma p - 1) * (T + T' ^ 4) + prat p * te * J))) with (TINY * (T' ^ 4 + (T + (gamma p - 1) / rho * (prat p * te * J)))) by (field; lra).
  apply Rmult_le_compat_l; lra.
Qed.
(** Closeness to an exact solution of the same step. *)
Lemma AS_close : forall p rho T l, valid p rho -> 0 <= T -> proper_c l ->
  let rf := reduced_c p / crat p in let tr := dtcs p (sigma_a p) in let ts := dtcs p (sigma_s p) in let tp := dtcs p (sigma_p p) in let te := dtcs p (sigma_pe p) in
  forall T' L Te Le, map old L = l -> map old Le = l -> transfer rf tr ts tp te T' L -> 0 <= T' ->
    Rabs (imbalance rho (gamma p - 1) (prat p) tp te T T' L) <= close_bound rho (gamma p - 1) (prat p) te T T' L ->
    transfer rf tr ts tp te Te Le -> 0 <= Te -> imbalance rho (gamma p - 1) (prat p) tp te T Te Le = 0 ->
    Rabs (T' - Te) <= (gamma p - 1) / rho * close_bound rho (gamma p - 1) (prat p) te T T' L.
Proof.
  intros p rho T l V HT P rf tr ts tp te T' L Te Le O1 O2 X1 X2 X3 Y1 Y2 Y3. destruct V as [Vc [Vr [Vp [Vg [Vd [Va [Vs [Vpp [Ve Vrho]]]]]]]]].
  assert (Hrf : 0 < rf) by (apply Rdiv_lt_0_compat; auto).
  assert (Hd : forall s, 0 <= s -> 0 <= dtcs p s) by (intros s Hs; unfold dtcs; apply Rmult_le_pos; auto; apply Rmult_le_pos; lra).
  pose proof (Hd _ Va) as Ha. pose proof (Hd _ Vs) as Hs. pose proof (Hd _ Vpp) as Hp. pose proof (Hd _ Ve) as He. fold tr in Ha. fold ts in Hs. fold tp in Hp. fold te in He.
  assert (K : 0 <= rf * (tr + ts)) by (apply Rmult_le_pos; lra). assert (KE : 0 <= rf * te) by (apply Rmult_le_pos; lra).
  assert (PL : proper L) by (apply proper_old; rewrite O1; auto). assert (PLe : proper Le) by (apply proper_old; rewrite O2; auto).
  assert (SQ : forall (q : cang -> R), total L (fun d => q (old d)) = total Le (fun d => q (old d))) by (intros q; rewrite <- !(total_map old), O1, O2; auto).
  set (k := rf * (tr + ts)) in *.
  assert (SAf : SA k L = SA k Le) by (exact (SQ (fun a => wmu_cm a * (tcoef a * / (imcoef a + k * tcoef a))))).
  assert (SBf : SB k L = SB k Le) by (exact (SQ (fun a => wmu_cm a * (imcoef a * / (imcoef a + k * tcoef a))))).
  assert (S2f : S2 k L = S2 k Le) by (exact (SQ (fun a => wmu_cm a * (ircm a * / (imcoef a + k * tcoef a))))).
  assert (I1 := imbalance_form rho (gamma p - 1) (prat p) rf tr ts tp te T T' L Vrho ltac:(lra) K KE PL X1).
  assert (I2 := imbalance_form rho (gamma p - 1) (prat p) rf tr ts tp te T Te Le Vrho ltac:(lra) K KE PLe Y1). rewrite Y3, Rmult_0_r in I2.
  unfold c1, c0 in I1. fold k in I1. rewrite SAf, SBf, S2f in I1. destruct (sums k Le K PLe) as [A [B [C D]]].
  set (a := c1 rho (gamma p - 1) (prat p) rf tr ts tp te Le) in *. set (b := c0 rho (gamma p - 1) (prat p) rf tr ts te T Le) in *.
  change ((gamma p - 1) / rho * imbalance rho (gamma p - 1) (prat p) tp te T T' L = a * T' ^ 4 + T' + b) in I1.
  assert (Ha1 : 0 <= a). { unfold a, c1. fold k. assert (0 <= rf * te * SA k Le) by (apply Rmult_le_pos; auto). apply Rmult_le_pos; [apply Rmult_le_pos; [apply Rle_mult_inv_pos; lra|lra]|]. apply Rle_mult_inv_pos; [|lra]. apply Rmult_le_pos; lra. }
  apply (mono_close a); auto. replace (a * T' ^ 4 + T' - (a * Te ^ 4 + Te)) with ((gamma p - 1) / rho * imbalance rho (gamma p - 1) (prat p) tp te T T' L) by lra.
  assert (0 < (gamma p - 1) / rho) by (apply Rdiv_lt_0_compat; lra).
  rewrite Rabs_mult, (Rabs_pos_eq ((gamma p - 1) / rho)) by lra. apply Rmult_le_compat_l; lra.
Qed.
