From Coq Require Import Reals ZArith Bool Lia Lra Psatz.
From Verif Require Import Time_Model Time_Proofs Fv_Model Eos_Model Rie_Model Rie_Spec Rie_Proofs Pos_Model Pos_Spec Pos_Proofs.
Local Open Scope R_scope.

(** The HLLE flux as a mean of the two fluxes along its outer waves. *)
Definition th (bp bm : R) : R := if eqR bp bm then 1/2 else bp / (bp - bm).
Definition ph (bp bm : R) : R := 1 - th bp bm.
Lemma th_facts : forall bp bm, 0 <= bp -> bm <= 0 -> 0 <= th bp bm /\ 0 <= ph bp bm /\ th bp bm * (bp - bm) = bp /\ ph bp bm * (bp - bm) = - bm.
Proof.
  intros bp bm A B. unfold ph, th. destruct (eqR bp bm) eqn:E.
  - apply eqR_true in E. assert (bp = 0) by lra. assert (bm = 0) by lra. subst. repeat apply conj; lra.
  - apply eqR_false in E. assert (I : 0 < / (bp - bm)) by (apply Rinv_0_lt_compat; lra). repeat apply conj.
    + apply Rmult_le_pos; lra.
    + replace (1 - bp / (bp - bm)) with ((- bm) * / (bp - bm)) by (field; intro X0; lra). apply Rmult_le_pos; lra.
    + field. intro X0; lra.
    + field. intro X0; lra.
Qed.
Lemma hll_mean : forall bp bm fl fr, hll_combine bp bm fl fr = th bp bm * fl + ph bp bm * fr.
Proof. intros. unfold hll_combine, ph, th. destruct (eqR bp bm) eqn:E; [field |]. apply eqR_false in E. field. intro X0; lra. Qed.
Lemma HLLE_mean : forall e wl wr, let bp := plus_part (hlle_ar e wl wr) in let bm := minus_part (hlle_al e wl wr) in
  HLLE e wl wr = vadd (vscale (th bp bm) (side 1 (- bm) (uof e wl) (physical e wl))) (vscale (- ph bp bm) (side (-1) bp (uof e wr) (physical e wr))).
Proof.
  intros e wl wr bp bm. unfold HLLE. cbv zeta. fold bp. fold bm. rewrite !flux_along_eq. unfold sub. set (ul := uof e wl). set (ur := uof e wr). set (fl := physical e wl). set (fr := physical e wr). clearbody ul ur fl fr bp bm.
  apply cons_ext; cbn [map3 vadd vscale side u_d u_m1 u_m2 u_m3 u_e]; rewrite hll_mean; ring.
Qed.
Lemma plus_ge : forall x, x <= plus_part x.
Proof. intro x. unfold plus_part. destruct (ltR 0 x) eqn:E; [lra | apply ltR_false in E; lra]. Qed.
Lemma minus_le : forall x, minus_part x <= x.
Proof. intro x. unfold minus_part. destruct (ltR x 0) eqn:E; [lra | apply ltR_false in E; lra]. Qed.
Section cell.
Variables (e : eos) (w : prim).
Hypothesis (G : good_eos e) (Gw : good e w).
(** The part of the cell that leaves through one face: half of the cell pays for it. *)
Lemma half_adm : forall s lam t p b, s = 1 \/ s = -1 -> 0 < lam -> 0 <= t -> 0 <= p -> t + p = 1 -> 0 <= b -> 2 * lam * (Rabs (w_vx w) + cs e w) <= 1 -> t * b <= p * (1 / (2 * lam)) ->
  admissible e (vadd (vscale (1/2) (uof e w)) (vscale (- (lam * t)) (side s b (uof e w) (physical e w)))).
Proof using G Gw.
  intros s lam t p b S L Ht Hp TP B C K. destruct Ht as [Ht|Ht].
  - assert (LT : 0 < lam * t) by (apply Rmult_lt_0_compat; assumption).
    assert (X : vadd (vscale (1/2) (uof e w)) (vscale (- (lam * t)) (side s b (uof e w) (physical e w))) = vscale (lam * t) (side (- s) (1 / (2 * (lam * t)) - b) (uof e w) (physical e w))).
    { apply cons_ext; cbn [vadd vscale side u_d u_m1 u_m2 u_m3 u_e]; field; split; intro X0; lra. }
    rewrite X. apply adm_scale; [exact LT |]. apply side_adm'; try assumption; [destruct S as [->| ->]; lra |].
    assert (Y : 1 / (2 * lam) <= 1 / (2 * (lam * t)) - b).
    { apply (Rmult_le_reg_r t); [exact Ht |]. replace ((1 / (2 * (lam * t)) - b) * t) with (1 / (2 * lam) - t * b) by (field; split; intro X0; lra). replace t with (1 - p) at 1 by lra. lra. }
    assert (Z : Rabs (w_vx w) + cs e w <= 1 / (2 * lam)).
    { apply (Rmult_le_reg_r (2 * lam)); [lra |]. replace (1 / (2 * lam) * (2 * lam)) with 1 by (field; intro X0; lra). lra. }
    pose proof (Rle_abs (w_vx w)) as B1. pose proof (Rle_abs (- w_vx w)) as B2. rewrite Rabs_Ropp in B2. destruct S as [->| ->]; lra.
  - subst t. replace (vadd (vscale (1/2) (uof e w)) (vscale (- (lam * 0)) (side s b (uof e w) (physical e w)))) with (vscale (1/2) (uof e w)) by (apply cons_ext; cbn [vadd vscale u_d u_m1 u_m2 u_m3 u_e]; ring).
    apply adm_scale; [lra |]. apply uof_adm; assumption.
Qed.
End cell.
Section step.
Variables (e : eos) (is_ ie : Z) (dx dt : R) (W : Z -> prim).
Hypothesis (G : good_eos e) (GW : forall i, good e (W i)) (DX : 0 < dx) (T : 0 <= dt)
  (C : forall i, dt * (Rabs (w_vx (W i)) + cs e (W i)) <= 1/2 * dx)
  (CP : forall i, dt * hlle_ar e (W i) (W (i + 1)%Z) <= 1/2 * dx) (CM : forall i, dt * - hlle_al e (W i) (W (i + 1)%Z) <= 1/2 * dx).
Lemma stage_hlle_inactive : forall i, active (mkD is_ ie 0 0 0 0 false false) 0 0 i = false -> stage_hlle e is_ ie dx dt W i = uof e (W i).
Proof using. intros i A. unfold stage_hlle, stage_hlle_of, AddFluxDivergence. rewrite A, conserved_uof. reflexivity. Qed.
Lemma wave_bound : forall x, dt * x <= 1/2 * dx -> 0 < dt -> 2 * (dt / dx) * plus_part x <= 1.
Proof using DX.
  intros x H P. unfold plus_part. destruct (ltR 0 x); [| lra]. apply (Rmult_le_reg_r dx); [exact DX |]. replace (2 * (dt / dx) * x * dx) with (2 * (dt * x)) by (field; intro X0; lra). lra.
Qed.
Theorem stage_hlle_adm : forall i, admissible e (stage_hlle e is_ ie dx dt W i).
Proof using All.
  intro i. destruct (active (mkD is_ ie 0 0 0 0 false false) 0 0 i) eqn:A; [| rewrite stage_hlle_inactive by exact A; apply uof_adm; auto].
  destruct T as [TP|T0].
  2:{ assert (S : stage_hlle e is_ ie dx dt W i = uof e (W i)); [| rewrite S; apply uof_adm; auto]. unfold stage_hlle, stage_hlle_of, AddFluxDivergence. rewrite A, conserved_uof, <- T0. unfold Rdiv. apply cons_ext; cbn [u_d u_m1 u_m2 u_m3 u_e]; ring. }
  set (wm := W (i - 1)%Z). set (w0 := W i). set (wp := W (i + 1)%Z).
  set (bpr := plus_part (hlle_ar e w0 wp)). set (bmr := minus_part (hlle_al e w0 wp)). set (bpl := plus_part (hlle_ar e wm w0)). set (bml := minus_part (hlle_al e wm w0)).
  set (lam := dt / dx). assert (L : 0 < lam) by (apply Rdiv_lt_0_compat; assumption).
  assert (PR : 0 <= bpr) by apply plus_nonneg. assert (PL : 0 <= bpl) by apply plus_nonneg. assert (MR : bmr <= 0) by apply minus_nonpos. assert (ML : bml <= 0) by apply minus_nonpos.
  destruct (th_facts bpr bmr PR MR) as (R1 & R2 & R3 & R4). destruct (th_facts bpl bml PL ML) as (L1 & L2 & L3 & L4).
  assert (SP : stage_hlle e is_ ie dx dt W i =
    vadd (vadd (vadd (vscale (1/2) (uof e w0)) (vscale (- (lam * th bpr bmr)) (side 1 (- bmr) (uof e w0) (physical e w0))))
               (vadd (vscale (1/2) (uof e w0)) (vscale (- (lam * ph bpl bml)) (side (-1) bpl (uof e w0) (physical e w0)))))
         (vadd (vscale (lam * ph bpr bmr) (side (-1) bpr (uof e wp) (physical e wp))) (vscale (lam * th bpl bml) (side 1 (- bml) (uof e wm) (physical e wm))))).
  { unfold stage_hlle, stage_hlle_of, AddFluxDivergence. rewrite A, conserved_uof. unfold dflx. change (1 <? nx2 (mkD is_ ie 0 0 0 0 false false))%Z with false. change (1 <? nx3 (mkD is_ ie 0 0 0 0 false false))%Z with false. cbv iota zeta. cbn [A1 V cart x1]. unfold flux1_hlle. replace (i + 1 - 1)%Z with i by lia.
    fold wm. fold w0. fold wp. rewrite !HLLE_mean. fold bpr. fold bmr. fold bpl. fold bml. unfold lam.
    set (s1 := side 1 (- bmr) _ _). set (s2 := side (-1) bpr _ _). set (s3 := side 1 (- bml) _ _). set (s4 := side (-1) bpl _ _). set (u := uof e w0). set (t1 := th bpr bmr). set (p1 := ph bpr bmr). set (t2 := th bpl bml). set (p2 := ph bpl bml). clearbody s1 s2 s3 s4 u t1 t2 p1 p2.
    apply cons_ext; cbn [vadd vscale u_d u_m1 u_m2 u_m3 u_e]; field; intro X0; lra. }
  rewrite SP. pose proof (GW i) as G0. fold w0 in G0.
  assert (C0 : 2 * lam * (Rabs (w_vx w0) + cs e w0) <= 1). { apply (Rmult_le_reg_r dx); [exact DX |]. unfold lam. replace (2 * (dt / dx) * (Rabs (w_vx w0) + cs e w0) * dx) with (2 * (dt * (Rabs (w_vx w0) + cs e w0))) by (field; intro X0; lra). pose proof (C i) as Ci. fold w0 in Ci. lra. }
  assert (BR : 2 * lam * bpr <= 1) by (apply wave_bound; [apply CP | exact TP]).
  assert (BL : 2 * lam * - bml <= 1). { unfold bml. pose proof (plus_opp (hlle_al e wm w0)) as Q. rewrite <- Q. apply wave_bound; [| exact TP]. pose proof (CM (i - 1)%Z) as Ci. replace (i - 1 + 1)%Z with i in Ci by lia. exact Ci. }
  assert (I2 : 0 < 1 / (2 * lam)) by (apply Rdiv_lt_0_compat; lra). assert (I3 : 1 / (2 * lam) * (2 * lam) = 1) by (field; intro X0; lra).
  apply adm_weak; [apply adm_add |].
  - apply half_adm with (p := ph bpr bmr); try assumption; try (left; reflexivity); [unfold ph; ring | lra |].
    replace (th bpr bmr * - bmr) with (ph bpr bmr * bpr). { apply Rmult_le_compat_l; [exact R2 |]. apply (Rmult_le_reg_r (2 * lam)); lra. }
    transitivity (ph bpr bmr * (th bpr bmr * (bpr - bmr))); [rewrite R3; reflexivity |]. transitivity (th bpr bmr * (ph bpr bmr * (bpr - bmr))); [ring | rewrite R4; reflexivity].
  - apply half_adm with (p := th bpl bml); try assumption; try (right; reflexivity); [unfold ph; ring |].
    replace (ph bpl bml * bpl) with (th bpl bml * - bml). { apply Rmult_le_compat_l; [exact L1 |]. apply (Rmult_le_reg_r (2 * lam)); lra. }
    transitivity (th bpl bml * (ph bpl bml * (bpl - bml))); [rewrite L4; reflexivity |]. transitivity (ph bpl bml * (th bpl bml * (bpl - bml))); [ring | rewrite L3; reflexivity].
  - apply weak_add; apply weak_scale; try (apply Rmult_le_pos; lra); right; apply side_adm'; try apply GW; try assumption; try tauto.
    + pose proof (plus_ge (hlle_ar e w0 wp)). fold bpr in H. pose proof (Rmax_r (w_vx (roe_average e w0 wp) + hlle_a e w0 wp) (w_vx wp + cs e wp)) as M. change (Rmax _ _) with (hlle_ar e w0 wp) in M. lra.
    + pose proof (minus_le (hlle_al e wm w0)). fold bml in H. pose proof (Rmin_r (w_vx (roe_average e wm w0) - hlle_a e wm w0) (w_vx wm - cs e wm)) as M. change (Rmin _ _) with (hlle_al e wm w0) in M. lra.
Qed.
End step.
