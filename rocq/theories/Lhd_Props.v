(** C95: the low-dissipation HLLD solver. *)
From Coq Require Import Reals Lra Bool.
From Verif Require Import Time_Model Time_Proofs Eos_Model Eos_Proofs Rie_Model Rie_Spec Rie_Proofs Rie_Proofs2 Rie_Proofs3 Rie_Proofs4 Lhd_Model.
Local Open Scope R_scope.

Lemma HLLD_flux g bx ml mr : HLLD g bx ml mr = hlld_flux g bx (spd0 g bx ml mr) (spd4 g bx ml mr) (spd2 g bx ml mr) (ptst g bx ml mr) ml mr.
Proof. reflexivity. Qed.

Section Faces.
Variables (g bx : R) (ml mr : mprim).
Hypothesis G : 1 < g.
Hypothesis Gl : good (Adi g) (gas ml).
Hypothesis Gr : good (Adi g) (gas mr).
Notation s0 := (spd0 g bx ml mr).
Notation s4 := (spd4 g bx ml mr).
Lemma cfmax_pos : 0 < cfmax g bx ml mr.
Proof using G Gl. unfold cfmax. pose proof (cfast_pos (Adi g) bx ml G Gl). pose proof (Rmax_l (cfast (Adi g) bx ml) (cfast (Adi g) bx mr)). lra. Qed.
Lemma th_range dvn dvt : 0 < lhlld_th g bx dvn dvt ml mr <= 1.
Proof using G Gl.
  unfold lhlld_th. pose proof cfmax_pos as C. set (c := cfmax g bx ml mr) in *. cbv zeta. pose proof (Rmin_r dvn 0) as N. pose proof (Rmin_r dvt 0) as T.
  assert (P : 0 < (c - Rmin dvn 0) / (c - Rmin dvt 0)) by (apply Rdiv_lt_0_compat; lra). set (r := (c - Rmin dvn 0) / (c - Rmin dvt 0)) in *.
  pose proof (Rmin_l 1 r) as A. assert (B : 0 < Rmin 1 r) by (apply Rmin_glb_lt; lra). set (t := Rmin 1 r) in *. clearbody t. split; [apply Rmult_lt_0_compat; [apply Rmult_lt_0_compat; [apply Rmult_lt_0_compat |] |]; exact B | ].
  assert (t * t <= 1) by nra. assert (0 < t * t) by nra. replace (t * t * t * t) with ((t * t) * (t * t)) by ring. nra.
Qed.
Lemma outer_bounds : s0 < w_vx (gas ml) /\ s0 < w_vx (gas mr) /\ w_vx (gas ml) < s4 /\ w_vx (gas mr) < s4.
Proof using G Gl Gr.
  unfold spd0, spd4. pose proof (cfast_pos (Adi g) bx ml G Gl) as A. pose proof (cfast_pos (Adi g) bx mr G Gr) as B. set (p := cfast (Adi g) bx ml) in *. set (q := cfast (Adi g) bx mr) in *.
  pose proof (Rmin_l (w_vx (gas ml) - p) (w_vx (gas mr) - q)). pose proof (Rmin_r (w_vx (gas ml) - p) (w_vx (gas mr) - q)).
  pose proof (Rmax_l (w_vx (gas ml) + p) (w_vx (gas mr) + q)). pose proof (Rmax_r (w_vx (gas ml) + p) (w_vx (gas mr) + q)). lra.
Qed.
Lemma s2_between dvn dvt : s0 < lhlld_s2 g bx dvn dvt ml mr < s4.
Proof using G Gl Gr.
  pose proof outer_bounds as (A1 & A2 & A3 & A4). pose proof (th_range dvn dvt) as (T1 & T2). pose proof (spd2_between g bx ml mr G Gl Gr) as (B1 & B2). destruct Gl as [Dl _]. destruct Gr as [Dr _].
  unfold spd2 in B1, B2. unfold lhlld_s2. cbv zeta in *. set (a := s0) in *. set (b := s4) in *. set (t := lhlld_th g bx dvn dvt ml mr) in *. set (vl := w_vx (gas ml)) in *. set (vr := w_vx (gas mr)) in *. set (dl := w_d (gas ml)) in *. set (dr := w_d (gas mr)) in *.
  set (dp := ptot bx ml - ptot bx mr) in *. clearbody a b t vl vr dl dr dp. assert (Z : 0 < (b - vr) * dr - (a - vl) * dl) by nra. set (z := (b - vr) * dr - (a - vl) * dl) in *.
  assert (E : ((b - vr) * (vr * dr) - (a - vl) * (vl * dl) + t * dp) / z = t * (((b - vr) * (vr * dr) - (a - vl) * (vl * dl) + dp) / z) + (1 - t) * (((b - vr) * (vr * dr) - (a - vl) * (vl * dl)) / z)) by (field; lra).
  assert (V : a < ((b - vr) * (vr * dr) - (a - vl) * (vl * dl)) / z < b).
  { split; apply (Rmult_lt_reg_r z); try exact Z; unfold Rdiv; rewrite Rmult_assoc, Rinv_l, Rmult_1_r by lra; unfold z; clear E; assert (0 < (b - vr) * dr) by nra; assert (0 < (vl - a) * dl) by nra; nra. }
  rewrite E. set (x := ((b - vr) * (vr * dr) - (a - vl) * (vl * dl) + dp) / z) in *. set (y := ((b - vr) * (vr * dr) - (a - vl) * (vl * dl)) / z) in *. clearbody x y. split; nra.
Qed.
End Faces.

(** The middle wave lies between the outer waves, the densities on both of its sides are positive, and no square root of a negative number is taken. *)
Theorem C95_positive : forall g dvn dvt bx ml mr, 1 < g -> good (Adi g) (gas ml) -> good (Adi g) (gas mr) ->
  let s2 := lhlld_s2 g bx dvn dvt ml mr in let pt := lhlld_pt g bx ml mr in
  spd0 g bx ml mr < s2 < spd4 g bx ml mr /\ 0 < u_d (gasf (fst (star g bx (spd0 g bx ml mr) s2 pt ml))) /\ 0 < u_d (gasf (fst (star g bx (spd4 g bx ml mr) s2 pt mr))) /\
  0 <= root_argument bx ml /\ 0 <= root_argument bx mr.
Proof.
  intros g dvn dvt bx ml mr G Gl Gr s2 pt. pose proof (s2_between g bx ml mr G Gl Gr dvn dvt) as B. fold s2 in B. pose proof (outer_bounds g bx ml mr G Gl Gr) as O. split; [exact B | ].
  assert (D : forall s m, u_d (gasf (fst (star g bx s s2 pt m))) = w_d (gas m) * (s - w_vx (gas m)) * (1 / (s - s2))) by (intros s m; unfold star; destruct (ltR _ _); reflexivity).
  assert (R0 : forall m, good (Adi g) (gas m) -> 0 <= root_argument bx m).
  { intros m [Dm _]. unfold root_argument. assert (K : 0 <= kinetic m) by (unfold kinetic, SQR; nra). assert (P0 : bx * bx <= 2 * pbm bx m) by (unfold pbm, SQR; nra). unfold SQR. set (k := kinetic m) in *. set (p := pbm bx m) in *. clearbody k p. pose proof (Rle_0_sqr (p - k)) as Sq. unfold Rsqr in Sq. nra. }
  rewrite !D. split; [ | split; [ | split; auto]].
  - replace (w_d (gas ml) * (spd0 g bx ml mr - w_vx (gas ml)) * (1 / (spd0 g bx ml mr - s2))) with (w_d (gas ml) * (w_vx (gas ml) - spd0 g bx ml mr) / (s2 - spd0 g bx ml mr)) by (field; lra). destruct Gl as [Dl _]. apply Rdiv_lt_0_compat; [apply Rmult_lt_0_compat; lra | lra].
  - replace (w_d (gas mr) * (spd4 g bx ml mr - w_vx (gas mr)) * (1 / (spd4 g bx ml mr - s2))) with (w_d (gas mr) * (spd4 g bx ml mr - w_vx (gas mr)) / (spd4 g bx ml mr - s2)) by (field; lra). destruct Gr as [Dr _]. apply Rdiv_lt_0_compat; [apply Rmult_lt_0_compat; lra | lra].
Qed.
Print Assumptions C95_positive.

(** The speed compared with the fast speed is the fast speed of a gas in which sound travels as fast as the gas moves: the larger root of the dispersion relation with the Alfven speeds of the gas. *)
Theorem C95_flow_speed : forall g bx m, good (Adi g) (gas m) ->
  let d := w_d (gas m) in let vsq := w_vx (gas m) ^ 2 + w_vy (gas m) ^ 2 + w_vz (gas m) ^ 2 in let asq := (bx ^ 2 + m_by m ^ 2 + m_bz m ^ 2) / d in
  let z := clsq bx m in z * z - (asq + vsq) * z + vsq * (bx ^ 2 / d) = 0 /\ asq + vsq <= 2 * z.
Proof.
  intros g bx m [Dm _]. cbv zeta. assert (RA : 0 <= root_argument bx m).
  { unfold root_argument. assert (K : 0 <= kinetic m) by (unfold kinetic, SQR; nra). assert (P0 : bx * bx <= 2 * pbm bx m) by (unfold pbm, SQR; nra). unfold SQR. set (k := kinetic m) in *. set (p := pbm bx m) in *. clearbody k p. pose proof (Rle_0_sqr (p - k)) as Sq. unfold Rsqr in Sq. nra. }
  pose proof (sqrt_sqrt _ RA) as Q. pose proof (sqrt_pos (root_argument bx m)) as P. unfold clsq. set (r := sqrt (root_argument bx m)) in *. clearbody r.
  set (d := w_d (gas m)) in *. set (k := kinetic m) in *. assert (EK : w_vx (gas m) ^ 2 + w_vy (gas m) ^ 2 + w_vz (gas m) ^ 2 = 2 * k / d) by (unfold k, kinetic, SQR; fold d; field; lra).
  set (p := pbm bx m) in *. assert (EP : (bx ^ 2 + m_by m ^ 2 + m_bz m ^ 2) / d = 2 * p / d) by (unfold p, pbm, SQR; field; lra). assert (Q' : r * r = (p + k) * (p + k) - 2 * k * (bx * bx)) by (rewrite Q; unfold root_argument, SQR; fold k p; ring).
  rewrite EK, EP. clearbody k p d. split.
  - replace ((p + k + r) / d * ((p + k + r) / d) - (2 * p / d + 2 * k / d) * ((p + k + r) / d) + 2 * k / d * (bx ^ 2 / d)) with ((r * r - (p + k) * (p + k) + 2 * k * (bx * bx)) / (d * d)) by (field; lra). rewrite Q'. field. lra.
  - apply (Rmult_le_reg_r d); [lra | ]. replace ((2 * p / d + 2 * k / d) * d) with (2 * p + 2 * k) by (field; lra). replace (2 * ((p + k + r) / d) * d) with (2 * (p + k + r)) by (field; lra). lra.
Qed.
Print Assumptions C95_flow_speed.

(** A contact discontinuity is resolved exactly, whatever the detector says; equal states give their own flux. *)
Definition contact (ml mr : mprim) : Prop :=
  w_vx (gas mr) = w_vx (gas ml) /\ w_vy (gas mr) = w_vy (gas ml) /\ w_vz (gas mr) = w_vz (gas ml) /\ w_p (gas mr) = w_p (gas ml) /\ m_by mr = m_by ml /\ m_bz mr = m_bz ml.
Lemma flux_contact g bx s0 s4 ml mr : 1 < g -> good (Adi g) (gas ml) -> good (Adi g) (gas mr) -> contact ml mr -> s0 < w_vx (gas ml) < s4 ->
  hlld_flux g bx s0 s4 (w_vx (gas ml)) (ptot bx ml) ml mr = if leR 0 (w_vx (gas ml)) then physical_mhd (Adi g) bx ml else physical_mhd (Adi g) bx mr.
Proof.
  intros G Gl Gr (Ex & Ey & Ez & Ep & Eb & Ec) (B0 & B4).
  assert (PT : ptot bx mr = ptot bx ml) by (unfold ptot, pbm; rewrite Ep, Eb, Ec; reflexivity).
  assert (PP : 0 < ptot bx ml). { unfold ptot, pbm, SQR. destruct Gl as [_ Q]. pose proof (Rle_0_sqr bx). pose proof (Rle_0_sqr (m_by ml)). pose proof (Rle_0_sqr (m_bz ml)). unfold Rsqr in *. lra. }
  assert (VB : vdotb bx mr = vdotb bx ml) by (unfold vdotb; rewrite Ex, Ey, Ez, Eb, Ec; reflexivity).
  unfold hlld_flux. rewrite (star_equal g bx G s0 (w_vx (gas ml)) (ptot bx ml) ml Gl) by (try reflexivity; try exact PP; lra). rewrite (star_equal g bx G s4 (w_vx (gas ml)) (ptot bx ml) mr Gr) by (try exact PP; try (symmetry; assumption); lra).
  rewrite !step_same, !mflux_llf_eq, VB.
  assert (DS : forall m sgn, m = ml \/ m = mr -> dstar bx (w_vx (gas ml)) sgn (vdotb bx ml) (dstar_common bx (mcons_of g bx ml) (mcons_of g bx mr)) (mcons_of g bx m) = mcons_of g bx m).
  { intros m sgn Hm. assert (Gm : 0 < w_d (gas m)) by (destruct Hm as [-> | ->]; [apply Gl | apply Gr]). destruct Gl as [Dl _]. destruct Gr as [Dr _]. pose proof (sqrt_lt_R0 _ Dl) as SL. pose proof (sqrt_lt_R0 _ Dr) as SR. pose proof (sqrt_lt_R0 _ Gm) as SM.
    assert (C : dstar_common bx (mcons_of g bx ml) (mcons_of g bx mr) = (w_vy (gas ml), w_vz (gas ml), m_by ml, m_bz ml)).
    { unfold dstar_common, mcons_of. cbv zeta. cbn [gasf f_by f_bz u_d u_m1 u_m2 u_m3 u_e]. rewrite Ey, Ez, Eb, Ec. set (a := sqrt (w_d (gas ml))) in *. set (b := sqrt (w_d (gas mr))) in *. set (sg := bsign bx). clearbody a b sg.
      apply f_equal2; [apply f_equal2; [apply f_equal2 |] |]; field; repeat apply conj; lra. }
    rewrite C. unfold dstar, mcons_of. cbn [gasf f_by f_bz u_d u_m1 u_m2 u_m3 u_e]. cbv zeta.
    assert (Y : w_vy (gas m) = w_vy (gas ml) /\ w_vz (gas m) = w_vz (gas ml) /\ m_by m = m_by ml /\ m_bz m = m_bz ml) by (destruct Hm as [-> | ->]; auto). destruct Y as (Y1 & Y2 & Y3 & Y4). rewrite Y1, Y2, Y3, Y4. unfold vdotb.
    set (q := sqrt (w_d (gas m))) in *. clearbody q. apply mcons_eq; [apply cons_eq | |]; try reflexivity; try ring; field; lra. }
  rewrite !DS by auto. rewrite !step_same. change (u_d (gasf (mcons_of g bx ml))) with (w_d (gas ml)). change (u_d (gasf (mcons_of g bx mr))) with (w_d (gas mr)).
  destruct Gl as [Dl _]. destruct Gr as [Dr _]. pose proof (sqrt_lt_R0 _ Dl) as SL. pose proof (sqrt_lt_R0 _ Dr) as SR. pose proof (Rabs_pos bx) as AB.
  assert (AL : 0 <= Rabs bx / sqrt (w_d (gas ml))) by (apply Rmult_le_pos; [exact AB | apply Rlt_le, Rinv_0_lt_compat; exact SL]).
  assert (AR : 0 <= Rabs bx / sqrt (w_d (gas mr))) by (apply Rmult_le_pos; [exact AB | apply Rlt_le, Rinv_0_lt_compat; exact SR]).
  assert (Z : Rabs bx / sqrt (w_d (gas mr)) = 0 -> Rabs bx / sqrt (w_d (gas ml)) = 0). { intros H. apply Rmult_integral in H. destruct H as [H | H]; [rewrite H; unfold Rdiv; ring | exfalso; pose proof (Rinv_0_lt_compat _ SR); lra]. }
  set (al := Rabs bx / sqrt (w_d (gas ml))) in *. set (ar := Rabs bx / sqrt (w_d (gas mr))) in *. clearbody al ar.
  repeat match goal with |- context [leR ?x ?y] => let E := fresh in destruct (leR x y) eqn:E; [apply leR_true in E | apply leR_false in E] end; first [reflexivity | exfalso; lra | idtac].
  all: exfalso; assert (ar = 0) by lra; specialize (Z ltac:(assumption)); lra.
Qed.
Theorem C95_contact : forall g dvn dvt bx ml mr, 1 < g -> good (Adi g) (gas ml) -> good (Adi g) (gas mr) -> contact ml mr ->
  LHLLD g dvn dvt bx ml mr = if Rle_dec 0 (w_vx (gas ml)) then physical_mhd (Adi g) bx ml else physical_mhd (Adi g) bx mr.
Proof.
  intros g dvn dvt bx ml mr G Gl Gr Ct. pose proof (outer_bounds g bx ml mr G Gl Gr) as O. pose proof Ct as (Ex & Ey & Ez & Ep & Eb & Ec). assert (PT : ptot bx mr = ptot bx ml) by (unfold ptot, pbm; rewrite Ep, Eb, Ec; reflexivity). pose proof Gl as [Dl _]. pose proof Gr as [Dr _].
  assert (Zp : 0 < (spd4 g bx ml mr - w_vx (gas mr)) * w_d (gas mr) - (spd0 g bx ml mr - w_vx (gas ml)) * w_d (gas ml)) by nra.
  assert (S2 : lhlld_s2 g bx dvn dvt ml mr = w_vx (gas ml)). { unfold lhlld_s2. cbv zeta. rewrite PT. rewrite Ex in *. set (a := spd0 g bx ml mr) in *. set (b := spd4 g bx ml mr) in *. clearbody a b. field. lra. }
  assert (PS : lhlld_pt g bx ml mr = ptot bx ml). { unfold lhlld_pt. cbv zeta. rewrite PT. rewrite Ex in *. set (a := spd0 g bx ml mr) in *. set (b := spd4 g bx ml mr) in *. clearbody a b. field. lra. }
  unfold LHLLD. rewrite S2, PS, flux_contact by (try assumption; lra). unfold leR. destruct (Rle_dec 0 (w_vx (gas ml))); reflexivity.
Qed.
Print Assumptions C95_contact.
Theorem C95_consistent : forall g dvn dvt bx m, 1 < g -> good (Adi g) (gas m) -> LHLLD g dvn dvt bx m m = physical_mhd (Adi g) bx m.
Proof. intros g dvn dvt bx m G Gm. rewrite C95_contact by (try assumption; unfold contact; repeat split; reflexivity). destruct (Rle_dec _ _); reflexivity. Qed.
Print Assumptions C95_consistent.

Theorem C95_upwind : forall g dvn dvt bx ml mr, 1 < g -> good (Adi g) (gas ml) -> good (Adi g) (gas mr) ->
  (cfast (Adi g) bx ml <= w_vx (gas ml) /\ cfast (Adi g) bx mr <= w_vx (gas mr) -> LHLLD g dvn dvt bx ml mr = physical_mhd (Adi g) bx ml) /\
  (cfast (Adi g) bx ml <= - w_vx (gas ml) /\ cfast (Adi g) bx mr <= - w_vx (gas mr) -> LHLLD g dvn dvt bx ml mr = physical_mhd (Adi g) bx mr).
Proof.
  intros g dvn dvt bx ml mr G Gl Gr. pose proof (outer_bounds g bx ml mr G Gl Gr) as O. unfold LHLLD, hlld_flux. destruct (star _ _ _ _ _ ml) as [ul vbl]. destruct (star _ _ _ _ _ mr) as [ur vbr]. rewrite <- !mflux_llf_eq. split; intros (A & B).
  - replace (leR 0 (spd0 g bx ml mr)) with true; [reflexivity | ]. symmetry. apply leR_true. unfold spd0. apply Rmin_glb; lra.
  - assert (S4 : spd4 g bx ml mr <= 0) by (unfold spd4; apply Rmax_lub; lra). replace (leR 0 (spd0 g bx ml mr)) with false by (symmetry; apply leR_false; lra). replace (leR (spd4 g bx ml mr) 0) with true; [reflexivity | ]. symmetry. apply leR_true. exact S4.
Qed.
Print Assumptions C95_upwind.

(** Where the flow is not compressed more along the face than across it and the gas moves, or the field acts, at least as fast as the fast waves, the solver is HLLD. *)
Theorem C95_full : forall g dvn dvt bx ml mr, 1 < g -> good (Adi g) (gas ml) -> good (Adi g) (gas mr) -> Rmin dvn 0 <= Rmin dvt 0 -> cfmax g bx ml mr <= sqrt (Rmax (clsq bx ml) (clsq bx mr)) ->
  LHLLD g dvn dvt bx ml mr = HLLD g bx ml mr.
Proof.
  intros g dvn dvt bx ml mr G Gl Gr Hn Hc. pose proof (cfmax_pos g bx ml mr G Gl) as C. pose proof (outer_bounds g bx ml mr G Gl Gr) as O. pose proof Gl as [Dl _]. pose proof Gr as [Dr _].
  assert (Th : lhlld_th g bx dvn dvt ml mr = 1).
  { unfold lhlld_th. cbv zeta. pose proof (Rmin_r dvt 0). rewrite (Rmin_left 1); [ring | ]. apply (Rmult_le_reg_r (cfmax g bx ml mr - Rmin dvt 0)); [lra | ]. unfold Rdiv. rewrite Rmult_assoc, Rinv_l by lra. lra. }
  assert (Ph : lhlld_phi g bx ml mr = 1).
  { unfold lhlld_phi, lhlld_chi. cbv zeta. rewrite (Rmin_left 1); [ring | ]. apply (Rmult_le_reg_r (cfmax g bx ml mr)); [lra | ]. unfold Rdiv. rewrite Rmult_assoc, Rinv_l by lra. lra. }
  rewrite HLLD_flux. unfold LHLLD. assert (S2 : lhlld_s2 g bx dvn dvt ml mr = spd2 g bx ml mr) by (unfold lhlld_s2, spd2; rewrite Th, Rmult_1_l; reflexivity).
  assert (PS : lhlld_pt g bx ml mr = ptst g bx ml mr).
  { unfold lhlld_pt, ptst. rewrite Ph. unfold spd2. cbv zeta. set (a := spd0 g bx ml mr) in *. set (b := spd4 g bx ml mr) in *. clearbody a b. field. nra. }
  rewrite S2, PS. reflexivity.
Qed.
Print Assumptions C95_full.

(** Mirror symmetry. *)
Lemma flux_mirror g bx s0 s4 s2 pst ml mr : s0 < s4 -> s2 <> 0 -> hlld_flux g (- bx) (- s4) (- s0) (- s2) pst (mmirror mr) (mmirror ml) = mmirror_flux (hlld_flux g bx s0 s4 s2 pst ml mr).
Proof.
  intros O NZ. unfold hlld_flux. cbv zeta. rewrite !star_mirror, !mcons_of_mirror, !mflux_llf_eq, !mphysical_mirror.
  destruct (star g bx s0 s2 pst ml) as [ul vbl]. destruct (star g bx s4 s2 pst mr) as [ur vbr]. cbn [fst snd].
  rewrite Rabs_Ropp. change (u_d (gasf (umirror ur))) with (u_d (gasf ur)). change (u_d (gasf (umirror ul))) with (u_d (gasf ul)).
  replace (- s2 - Rabs bx / sqrt (u_d (gasf ur))) with (- (s2 + Rabs bx / sqrt (u_d (gasf ur)))) by ring.
  replace (- s2 + Rabs bx / sqrt (u_d (gasf ul))) with (- (s2 - Rabs bx / sqrt (u_d (gasf ul)))) by ring.
  assert (PP : forall u, 0 <= Rabs bx / sqrt u). { intro u. unfold Rdiv. destruct (Req_dec (sqrt u) 0) as [Z|Z]; [rewrite Z, Rinv_0; lra |]. apply Rmult_le_pos; [apply Rabs_pos | left; apply Rinv_0_lt_compat; pose proof (sqrt_pos u); lra]. }
  pose proof (PP (u_d (gasf ul))) as PL. pose proof (PP (u_d (gasf ur))) as PR.
  assert (BZ : bx = 0 -> Rabs bx / sqrt (u_d (gasf ul)) = 0 /\ Rabs bx / sqrt (u_d (gasf ur)) = 0) by (intros ->; rewrite Rabs_R0; unfold Rdiv; split; ring).
  set (s1 := s2 - Rabs bx / sqrt (u_d (gasf ul))). set (s3 := s2 + Rabs bx / sqrt (u_d (gasf ur))).
  rewrite !leR_flip, !leR_flip', !step_mirror.
  destruct (leR 0 s0) eqn:E0; destruct (leR s4 0) eqn:E4; try reflexivity.
  { apply leR_true in E0. apply leR_true in E4. lra. }
  destruct (leR 0 s1) eqn:E1; destruct (leR s3 0) eqn:E3; try reflexivity.
  { apply leR_true in E1. apply leR_true in E3. unfold s1 in E1. unfold s3 in E3. exfalso. apply NZ. lra. }
  apply leR_false in E1. apply leR_false in E3.
  assert (N : bx <> 0). { intro Z. destruct (BZ Z) as [Z1 Z2]. unfold s1 in E1. unfold s3 in E3. rewrite Z1 in E1. rewrite Z2 in E3. lra. }
  rewrite !dstar_common_mirror by exact N. set (c := dstar_common bx ul ur). replace (dstar (- bx) (- s2) (-1) vbr c (umirror ur)) with (umirror (dstar bx s2 1 vbr c ur)) by (rewrite <- dstar_mirror by exact N; f_equal; ring).
  replace (dstar (- bx) (- s2) 1 vbl c (umirror ul)) with (umirror (dstar bx s2 (-1) vbl c ul)) by (rewrite <- dstar_mirror by exact N; f_equal; ring).
  rewrite !step_mirror. destruct (leR s2 0) eqn:X; destruct (leR 0 s2) eqn:Y; try reflexivity.
  - apply leR_true in X. apply leR_true in Y. exfalso. apply NZ. lra.
  - apply leR_false in X. apply leR_false in Y. exfalso. lra.
Qed.
Theorem C95_mirror : forall g dvn dvt bx ml mr, 1 < g -> good (Adi g) (gas ml) -> good (Adi g) (gas mr) -> lhlld_s2 g bx dvn dvt ml mr <> 0 ->
  LHLLD g dvn dvt (- bx) (mmirror mr) (mmirror ml) = mmirror_flux (LHLLD g dvn dvt bx ml mr).
Proof.
  intros g dvn dvt bx ml mr G Gl Gr NZ. pose proof (outer_bounds g bx ml mr G Gl Gr) as O. pose proof Gl as [Dl _]. pose proof Gr as [Dr _].
  assert (C : cfmax g (- bx) (mmirror mr) (mmirror ml) = cfmax g bx ml mr) by (unfold cfmax; rewrite !cfast_mirror; apply Rmax_comm).
  assert (T : lhlld_th g (- bx) dvn dvt (mmirror mr) (mmirror ml) = lhlld_th g bx dvn dvt ml mr) by (unfold lhlld_th; rewrite C; reflexivity).
  assert (K : forall m, clsq (- bx) (mmirror m) = clsq bx m).
  { intro m. assert (Ke : kinetic (mmirror m) = kinetic m) by (unfold kinetic, mmirror, mirror, SQR; cbn [gas w_d w_vx w_vy w_vz]; ring). assert (Pb : pbm (- bx) (mmirror m) = pbm bx m) by (unfold pbm, mmirror, SQR; cbn [m_by m_bz]; ring). unfold clsq, root_argument. rewrite Ke, Pb. replace (- bx * - bx) with (bx * bx) by ring. reflexivity. }
  assert (P : lhlld_phi g (- bx) (mmirror mr) (mmirror ml) = lhlld_phi g bx ml mr) by (unfold lhlld_phi, lhlld_chi; rewrite C, !K, (Rmax_comm (clsq bx mr)); reflexivity).
  assert (S2 : lhlld_s2 g (- bx) dvn dvt (mmirror mr) (mmirror ml) = - lhlld_s2 g bx dvn dvt ml mr).
  { unfold lhlld_s2. rewrite T, spd0_mirror, spd4_mirror, !ptot_mirror. cbv zeta. change (w_vx (gas (mmirror ml))) with (- w_vx (gas ml)). change (w_vx (gas (mmirror mr))) with (- w_vx (gas mr)). change (w_d (gas (mmirror ml))) with (w_d (gas ml)). change (w_d (gas (mmirror mr))) with (w_d (gas mr)).
    set (a := spd0 g bx ml mr) in *. set (b := spd4 g bx ml mr) in *. set (t := lhlld_th g bx dvn dvt ml mr). clearbody a b t. field. repeat apply conj; nra. }
  assert (PS : lhlld_pt g (- bx) (mmirror mr) (mmirror ml) = lhlld_pt g bx ml mr).
  { unfold lhlld_pt. rewrite P, spd0_mirror, spd4_mirror, !ptot_mirror. cbv zeta. change (w_vx (gas (mmirror ml))) with (- w_vx (gas ml)). change (w_vx (gas (mmirror mr))) with (- w_vx (gas mr)). change (w_d (gas (mmirror ml))) with (w_d (gas ml)). change (w_d (gas (mmirror mr))) with (w_d (gas mr)).
    set (a := spd0 g bx ml mr) in *. set (b := spd4 g bx ml mr) in *. set (t := lhlld_phi g bx ml mr). clearbody a b t. field. repeat apply conj; nra. }
  unfold LHLLD. rewrite S2, PS, spd0_mirror, spd4_mirror. apply flux_mirror; [lra | exact NZ].
Qed.
Print Assumptions C95_mirror.

(** Between the outer waves the flux of normal momentum is that of the side of the middle wave the face is on, with the pressure behind that side's outer wave: not the low-dissipation pressure. *)
Definition side_pressure (g bx dvn dvt s : R) (m ml mr : mprim) : R := ptot bx m + (s - w_vx (gas m)) * w_d (gas m) * (lhlld_s2 g bx dvn dvt ml mr - w_vx (gas m)).
Definition side_density (s s2 : R) (m : mprim) : R := w_d (gas m) * (s - w_vx (gas m)) / (s - s2).
Definition momentum_between (g bx dvn dvt : R) (ml mr : mprim) (pl pr : R) : R :=
  let s2 := lhlld_s2 g bx dvn dvt ml mr in
  if Rle_dec 0 s2 then side_density (spd0 g bx ml mr) s2 ml * s2 * s2 + pl - bx * bx else side_density (spd4 g bx ml mr) s2 mr * s2 * s2 + pr - bx * bx.
Theorem C95_momentum : forall g dvn dvt bx ml mr, 1 < g -> good (Adi g) (gas ml) -> good (Adi g) (gas mr) -> spd0 g bx ml mr < 0 < spd4 g bx ml mr ->
  u_m1 (gasf (LHLLD g dvn dvt bx ml mr)) = momentum_between g bx dvn dvt ml mr (side_pressure g bx dvn dvt (spd0 g bx ml mr) ml ml mr) (side_pressure g bx dvn dvt (spd4 g bx ml mr) mr ml mr).
Proof.
  intros g dvn dvt bx ml mr G Gl Gr (N0 & N4). pose proof (C95_positive g dvn dvt bx ml mr G Gl Gr) as (B & DL & DR & _). unfold LHLLD, hlld_flux, momentum_between, side_pressure, side_density. cbv zeta in *.
  set (s2 := lhlld_s2 g bx dvn dvt ml mr) in *. set (pst := lhlld_pt g bx ml mr) in *. set (s0 := spd0 g bx ml mr) in *. set (s4 := spd4 g bx ml mr) in *. clearbody s2 pst s0 s4.
  assert (D : forall s m, u_m1 (gasf (fst (star g bx s s2 pst m))) = w_d (gas m) * (s - w_vx (gas m)) * (1 / (s - s2)) * s2) by (intros s m; unfold star; destruct (ltR _ _); reflexivity).
  pose proof (D s0 ml) as L2. pose proof (D s4 mr) as R2. destruct (star g bx s0 s2 pst ml) as [ul vbl]. destruct (star g bx s4 s2 pst mr) as [ur vbr]. cbn [fst] in *.
  pose proof (Rabs_pos bx) as AB. pose proof (sqrt_lt_R0 _ DL) as SL. pose proof (sqrt_lt_R0 _ DR) as SR.
  assert (AL : 0 <= Rabs bx / sqrt (u_d (gasf ul))) by (apply Rmult_le_pos; [exact AB | apply Rlt_le, Rinv_0_lt_compat; exact SL]).
  assert (AR : 0 <= Rabs bx / sqrt (u_d (gasf ur))) by (apply Rmult_le_pos; [exact AB | apply Rlt_le, Rinv_0_lt_compat; exact SR]).
  assert (Z : Rabs bx / sqrt (u_d (gasf ur)) = 0 -> Rabs bx / sqrt (u_d (gasf ul)) = 0). { intros H. apply Rmult_integral in H. destruct H as [H | H]; [rewrite H; unfold Rdiv; ring | exfalso; pose proof (Rinv_0_lt_compat _ SR); lra]. }
  set (al := Rabs bx / sqrt (u_d (gasf ul))) in *. set (ar := Rabs bx / sqrt (u_d (gasf ur))) in *. clearbody al ar.
  replace (leR 0 s0) with false by (symmetry; apply leR_false; exact N0). replace (leR s4 0) with false by (symmetry; apply leR_false; exact N4).
  set (c := dstar_common bx ul ur). clearbody c. destruct c as [[[vy vz] by_] bz].
  set (fls := mmap3 (fun f us u : R => f + s0 * (us - u)) (mflux_llf (Adi g) bx ml) ul (mcons_of g bx ml)). set (frs := mmap3 (fun f us u : R => f + s4 * (us - u)) (mflux_llf (Adi g) bx mr) ur (mcons_of g bx mr)).
  assert (FL : u_m1 (gasf fls) = w_d (gas ml) * (s0 - w_vx (gas ml)) / (s0 - s2) * s2 * s2 + (ptot bx ml + (s0 - w_vx (gas ml)) * w_d (gas ml) * (s2 - w_vx (gas ml))) - bx * bx).
  { change (u_m1 (gasf fls)) with (w_d (gas ml) * w_vx (gas ml) * w_vx (gas ml) + pbm bx ml - SQR bx + w_p (gas ml) + s0 * (u_m1 (gasf ul) - u_m1 (gasf (mcons_of g bx ml)))). change (u_m1 (gasf (mcons_of g bx ml))) with (w_vx (gas ml) * w_d (gas ml)). rewrite L2. unfold ptot, SQR. field. lra. }
  assert (FR : u_m1 (gasf frs) = w_d (gas mr) * (s4 - w_vx (gas mr)) / (s4 - s2) * s2 * s2 + (ptot bx mr + (s4 - w_vx (gas mr)) * w_d (gas mr) * (s2 - w_vx (gas mr))) - bx * bx).
  { change (u_m1 (gasf frs)) with (w_d (gas mr) * w_vx (gas mr) * w_vx (gas mr) + pbm bx mr - SQR bx + w_p (gas mr) + s4 * (u_m1 (gasf ur) - u_m1 (gasf (mcons_of g bx mr)))). change (u_m1 (gasf (mcons_of g bx mr))) with (w_vx (gas mr) * w_d (gas mr)). rewrite R2. unfold ptot, SQR. field. lra. }
  assert (DM : forall f s sg vb u, u_m1 (gasf (mmap3 (fun f ud us : R => f + s * (ud - us)) f (dstar bx s2 sg vb (vy, vz, by_, bz) u) u)) = u_m1 (gasf f)).
  { intros f s sg vb u. change (u_m1 (gasf f) + s * (u_m1 (gasf u) - u_m1 (gasf u)) = u_m1 (gasf f)). ring. }
  clearbody fls frs.
  repeat match goal with |- context [leR ?x ?y] => let E := fresh in destruct (leR x y) eqn:E; [apply leR_true in E | apply leR_false in E] end; destruct (Rle_dec 0 s2); rewrite ?DM; first [exact FL | exact FR | exfalso; lra | idtac].
  all: exfalso; assert (ar = 0) by lra; specialize (Z ltac:(assumption)); lra.
Qed.
Print Assumptions C95_momentum.

(** The pressures on the two sides of the middle wave differ where the detector acts: the flux of momentum jumps as the middle wave crosses the face. *)
Theorem C95_jump : forall g dvn dvt bx ml mr, 1 < g -> good (Adi g) (gas ml) -> good (Adi g) (gas mr) ->
  side_pressure g bx dvn dvt (spd0 g bx ml mr) ml ml mr - side_pressure g bx dvn dvt (spd4 g bx ml mr) mr ml mr = (1 - lhlld_th g bx dvn dvt ml mr) * (ptot bx ml - ptot bx mr).
Proof.
  intros g dvn dvt bx ml mr G Gl Gr. pose proof (outer_bounds g bx ml mr G Gl Gr) as O. destruct Gl as [Dl _]. destruct Gr as [Dr _]. unfold side_pressure, lhlld_s2. cbv zeta.
  set (a := spd0 g bx ml mr) in *. set (b := spd4 g bx ml mr) in *. set (t := lhlld_th g bx dvn dvt ml mr). clearbody a b t. field. nra.
Qed.
Print Assumptions C95_jump.

(** Two equal gases moving apart at a quarter of the speed of sound. *)
Definition apart (v : R) : mprim := mkMW (mkW 1 v 0 0 (1/2)) 0 0.
Lemma apart_cfast v : cfast (Adi 2) 0 (apart v) = 1.
Proof.
  unfold cfast, FastMagnetosonicSpeed, apart. cbn [gas w_p w_d m_by m_bz]. cbv zeta. replace ((0 * 0 + (0 * 0 + 0 * 0) - 2 * (1 / 2)) * (0 * 0 + (0 * 0 + 0 * 0) - 2 * (1 / 2)) + 4 * (2 * (1 / 2)) * (0 * 0 + 0 * 0)) with (1 * 1) by field.
  rewrite sqrt_square by lra. replace (1 / 2 * (0 * 0 + (0 * 0 + 0 * 0) + 2 * (1 / 2) + 1) / 1) with (1 * 1) by field. apply sqrt_square. lra.
Qed.
Lemma apart_good v : good (Adi 2) (gas (apart v)).
Proof. unfold good, apart. cbn. lra. Qed.
Lemma apart_clsq v : clsq 0 (apart v) = v * v.
Proof.
  assert (K : kinetic (apart v) = v * v / 2) by (unfold kinetic, apart, SQR; cbn [gas w_d w_vx w_vy w_vz]; field). assert (P : pbm 0 (apart v) = 0) by (unfold pbm, apart, SQR; cbn [m_by m_bz]; field).
  unfold clsq, root_argument. rewrite K, P. unfold SQR. replace ((0 + v * v / 2) * (0 + v * v / 2) - 2 * (v * v / 2) * (0 * 0)) with ((v * v / 2) * (v * v / 2)) by ring. rewrite sqrt_square by nra. change (w_d (gas (apart v))) with 1. field.
Qed.
Lemma apart_speeds v : 0 <= v -> spd0 2 0 (apart (- v)) (apart v) = - v - 1 /\ spd4 2 0 (apart (- v)) (apart v) = v + 1.
Proof. intro V. unfold spd0, spd4. rewrite !apart_cfast. change (w_vx (gas (apart (- v)))) with (- v). change (w_vx (gas (apart v))) with v. split; [apply Rmin_left | apply Rmax_right]; lra. Qed.
Lemma apart_s2 v : 0 <= v -> lhlld_s2 2 0 0 0 (apart (- v)) (apart v) = 0.
Proof.
  intro V. unfold lhlld_s2. destruct (apart_speeds v V) as (-> & ->). replace (ptot 0 (apart (- v)) - ptot 0 (apart v)) with 0 by (unfold ptot, pbm, apart; cbn [gas w_p m_by m_bz]; ring). change (w_vx (gas (apart (- v)))) with (- v). change (w_vx (gas (apart v))) with v. change (w_d (gas (apart (- v)))) with 1. change (w_d (gas (apart v))) with 1. cbv zeta. field. lra.
Qed.
Lemma apart_pt : lhlld_pt 2 0 (apart (- (1/4))) (apart (1/4)) = 25 / 64.
Proof.
  assert (C : lhlld_phi 2 0 (apart (- (1/4))) (apart (1/4)) = 7 / 16).
  { unfold lhlld_phi, lhlld_chi, cfmax. rewrite !apart_cfast, !apart_clsq. replace (- (1/4) * - (1/4)) with (1/4 * (1/4)) by ring. rewrite !Rmax_left by lra. rewrite sqrt_square by lra. rewrite Rmin_right by lra. cbv zeta. field. }
  unfold lhlld_pt. rewrite C. destruct (apart_speeds (1/4) ltac:(lra)) as (-> & ->). replace (ptot 0 (apart (- (1/4)))) with (1/2) by (unfold ptot, pbm, apart, SQR; cbn [gas w_p m_by m_bz]; ring). replace (ptot 0 (apart (1/4))) with (1/2) by (unfold ptot, pbm, apart, SQR; cbn [gas w_p m_by m_bz]; ring).
  change (w_vx (gas (apart (- (1/4))))) with (- (1/4)). change (w_vx (gas (apart (1/4)))) with (1/4). change (w_d (gas (apart (- (1/4))))) with 1. change (w_d (gas (apart (1/4)))) with 1. cbv zeta. field.
Qed.
(** The low-dissipation pressure is not the pressure of the momentum flux: here 25/64 is computed and 1/4, that of HLLD, is used. *)
Theorem C95_pressure_refuted : ~ (forall g dvn dvt bx ml mr, 1 < g -> good (Adi g) (gas ml) -> good (Adi g) (gas mr) -> spd0 g bx ml mr < 0 < spd4 g bx ml mr ->
  u_m1 (gasf (LHLLD g dvn dvt bx ml mr)) = momentum_between g bx dvn dvt ml mr (lhlld_pt g bx ml mr) (lhlld_pt g bx ml mr)).
Proof.
  intro H. assert (G : 1 < 2) by lra. destruct (apart_speeds (1/4) ltac:(lra)) as (A & B). assert (I : spd0 2 0 (apart (- (1/4))) (apart (1/4)) < 0 < spd4 2 0 (apart (- (1/4))) (apart (1/4))) by (rewrite A, B; lra).
  specialize (H 2 0 0 0 (apart (- (1/4))) (apart (1/4)) G (apart_good _) (apart_good _) I). rewrite (C95_momentum 2 0 0 0 _ _ G (apart_good _) (apart_good _) I) in H. unfold momentum_between, side_pressure in H. rewrite apart_s2, apart_pt, A, B in H by lra. cbv zeta in H. destruct (Rle_dec 0 0); [ | lra].
  replace (ptot 0 (apart (- (1/4)))) with (1/2) in H by (unfold ptot, pbm, apart, SQR; cbn [gas w_p m_by m_bz]; ring). change (w_vx (gas (apart (- (1/4))))) with (- (1/4)) in H. change (w_d (gas (apart (- (1/4))))) with 1 in H. set (q := side_density _ _ _) in H. clearbody q. lra.
Qed.
Print Assumptions C95_pressure_refuted.

Definition heavy : mprim := mkMW (mkW 4 3 1 2 (1/2)) 1 (-1).
Definition airy : mprim := mkMW (mkW 1 3 1 2 (1/2)) 1 (-1).
Example ex_contact : contact heavy airy /\ heavy <> airy /\ good (Adi 2) (gas heavy) /\ good (Adi 2) (gas airy).
Proof. unfold contact, heavy, airy, good. cbn. repeat split; try lra. intro H. apply (f_equal (fun m => w_d (gas m))) in H. cbn in H. lra. Qed.
Example ex_moving : lhlld_s2 2 0 0 0 (apart 3) (apart 3) <> 0.
Proof.
  unfold lhlld_s2, spd0, spd4. rewrite !apart_cfast. change (w_vx (gas (apart 3))) with 3. change (w_d (gas (apart 3))) with 1. cbv zeta. rewrite Rmin_left, Rmax_left by lra.
  replace (ptot 0 (apart 3) - ptot 0 (apart 3)) with 0 by ring. match goal with |- ?e <> 0 => replace e with 3 by field end. lra.
Qed.
Example ex_upwind : cfast (Adi 2) 0 (apart 3) <= w_vx (gas (apart 3)).
Proof. rewrite apart_cfast. change (w_vx (gas (apart 3))) with 3. lra. Qed.
Example ex_full : Rmin 0 0 <= Rmin 0 0 /\ cfmax 2 0 (apart (-2)) (apart 2) <= sqrt (Rmax (clsq 0 (apart (-2))) (clsq 0 (apart 2))).
Proof. split; [lra | ]. unfold cfmax. rewrite !apart_cfast, !apart_clsq, !Rmax_left by lra. replace (-2 * -2) with (2 * 2) by ring. rewrite sqrt_square by lra. lra. Qed.
(** The detector acts: gas compressed across the face direction only. *)
Example ex_jump : lhlld_th 2 0 0 (-1) (apart 0) (apart 0) = 1 / 16.
Proof. unfold lhlld_th, cfmax. rewrite !apart_cfast, Rmax_left by lra. cbv zeta. rewrite (Rmin_left (-1) 0), (Rmin_left 0 0) by lra. rewrite Rmin_right by lra. field. Qed.
