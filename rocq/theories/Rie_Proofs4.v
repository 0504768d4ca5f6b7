(** The waves of the solvers: HLLC's star region, Roe's decomposition, the jump conditions of HLLD. *)
From Coq Require Import Reals ZArith Bool Lia Lra Psatz.
From Verif Require Import Time_Model Time_Proofs Eos_Model Eos_Proofs Rie_Model Rie_Spec Rie_Proofs Rie_Proofs2 Rie_Proofs3.
Local Open Scope R_scope.

Section hllc.
Variables (g : R) (wl wr : prim).
Hypothesis (G : 1 < g) (Gl : good (Adi g) wl) (Gr : good (Adi g) wr).
(** Both sides give the same pressure behind the contact. *)
Lemma hllc_star_pressure : let am := hllc_am g wl wr in
  behind (hllc_al g wl wr) am wl = behind (hllc_ar g wl wr) am wr /\ hllc_cp g wl wr = Rmax 0 (behind (hllc_al g wl wr) am wl).
Proof using G Gl Gr.
  cbv zeta. destruct (hllc_masses g wl wr G Gl Gr) as [ML MR]. unfold hllc_am, hllc_cp, behind. set (al := hllc_al g wl wr) in *. set (ar := hllc_ar g wl wr) in *. clearbody al ar.
  assert (E1 : w_p wl + w_d wl * (w_vx wl - al) * (w_vx wl - (w_p wl + (w_vx wl - al) * w_d wl * w_vx wl - (w_p wr + (w_vx wr - ar) * w_d wr * w_vx wr)) / (w_d wl * (w_vx wl - al) + - (w_d wr * (w_vx wr - ar))))
    = (w_d wl * (w_vx wl - al) * (w_p wr + (w_vx wr - ar) * w_d wr * w_vx wr) + - (w_d wr * (w_vx wr - ar)) * (w_p wl + (w_vx wl - al) * w_d wl * w_vx wl)) / (w_d wl * (w_vx wl - al) + - (w_d wr * (w_vx wr - ar)))).
  { field. intro X0; lra. }
  split; [field; intro X0; lra |]. rewrite E1. match goal with |- (if ltR 0 ?x then _ else _) = _ => set (y := x) end. clearbody y. clear E1.
  destruct (ltR 0 y) eqn:K; [apply ltR_true in K; rewrite Rmax_right; lra | apply ltR_false in K; rewrite Rmax_left; lra].
Qed.
Lemma hllc_contact_between : good (Adi g) wl -> hllc_al g wl wr <= w_vx wl - cs (Adi g) wl /\ w_vx wr + cs (Adi g) wr <= hllc_ar g wl wr.
Proof using G Gl Gr.
  intros _. unfold hllc_al, hllc_ar. pose proof (cs_pos (Adi g) wl G Gl). pose proof (cs_pos (Adi g) wr G Gr).
  pose proof (hllc_q_pos g G (w_p wl) (hllc_pmid g wl wr) (proj2 Gl)). pose proof (hllc_q_pos g G (w_p wr) (hllc_pmid g wl wr) (proj2 Gr)). split; nra.
Qed.
(** Without its two corrections LHLLC is HLLC. *)
Lemma LHLLC_is_HLLC : forall T dvn dvt, Rmin dvn 0 <= Rmin dvt 0 -> Rmax (cs (Adi g) wl) (cs (Adi g) wr) <= sqrt (Rmax (vsq wl) (vsq wr)) ->
  LHLLC T g dvn dvt wl wr = HLLC T g wl wr.
Proof using G Gl Gr.
  intros T dvn dvt H1 H2. pose proof (cs_pos (Adi g) wl G Gl) as Cl. pose proof (cs_pos (Adi g) wr G Gr) as Cr.
  assert (CM : 0 < Rmax (cs (Adi g) wl) (cs (Adi g) wr)) by (eapply Rlt_le_trans; [exact Cl | apply Rmax_l]).
  destruct (hllc_masses g wl wr G Gl Gr) as [ML MR].
  assert (TH : lhllc_th g dvn dvt wl wr = 1).
  { unfold lhllc_th. cbv zeta. set (c := Rmax _ _) in *. pose proof (Rmin_r dvt 0). rewrite Rmin_left; [ring |]. apply (Rmult_le_reg_r (c - Rmin dvt 0)); [lra |]. unfold Rdiv. rewrite Rmult_assoc, Rinv_l; lra. }
  unfold LHLLC, HLLC.
  assert (A : lhllc_am g dvn dvt wl wr = hllc_am g wl wr).
  { unfold lhllc_am, hllc_am. rewrite TH. cbv zeta. set (al := hllc_al g wl wr) in *. set (ar := hllc_ar g wl wr) in *. clearbody al ar. field. repeat apply conj; intro X0; lra. }
  assert (B : lhllc_cp g wl wr = hllc_cp g wl wr).
  { unfold lhllc_cp, hllc_cp. cbv zeta. set (c := Rmax (cs _ _) _) in *. set (s := sqrt _) in *. set (al := hllc_al g wl wr) in *. set (ar := hllc_ar g wl wr) in *.
    rewrite (Rmin_left 1 (s / c)) by (apply (Rmult_le_reg_r c); [lra |]; unfold Rdiv; rewrite Rmult_assoc, Rinv_l; lra). clearbody al ar.
    match goal with |- (if ltR 0 ?x then _ else _) = (if ltR 0 ?y then _ else _) => replace x with y; [reflexivity |] end. field. repeat apply conj; intro X0; lra. }
  rewrite A, B. reflexivity.
Qed.
End hllc.

(** ** Roe *)
Definition str (a : R * R * R * R * R) (n : nat) : R := match n with 0%nat => a0_of a | 1%nat => a1_of a | 2%nat => a2_of a | 3%nat => a3_of a | _ => a4_of a end.
Section linear.
Variables (T : R) (w : prim) (d : cons).
Lemma adi_sums : forall g c, roe_csq (Adi g) T w = c * c -> roe_cs (Adi g) T w = c -> c <> 0 -> g <> 1 -> w_p w = c * c / (g - 1) + 1/2 * vsq w -> let a := roe_a (Adi g) T w d in
  is_sum (Adi g) c w (str a) d /\
  is_sum (Adi g) c w (fun n => wave_speed c w n * str a n)
    (mkU (u_m1 d)
         (((g - 1) / 2 * vsq w - w_vx w * w_vx w) * u_d d + (3 - g) * w_vx w * u_m1 d - (g - 1) * w_vy w * u_m2 d - (g - 1) * w_vz w * u_m3 d + (g - 1) * u_e d)
         (- w_vx w * w_vy w * u_d d + w_vy w * u_m1 d + w_vx w * u_m2 d) (- w_vx w * w_vz w * u_d d + w_vz w * u_m1 d + w_vx w * u_m3 d)
         (w_vx w * ((g - 1) / 2 * vsq w - w_p w) * u_d d + (w_p w - (g - 1) * (w_vx w * w_vx w)) * u_m1 d - (g - 1) * w_vx w * w_vy w * u_m2 d - (g - 1) * w_vx w * w_vz w * u_m3 d + g * w_vx w * u_e d)).
Proof.
  intros g c H1 H2 C0 G1 HH a. unfold a, roe_a. rewrite H1, H2. unfold vsq, SQR in *. set (h := w_p w) in *.
  split; intros q Q; unfold str, a0_of, a1_of, a2_of, a3_of, a4_of, wave_speed, wave_jump; cbn [fst snd];
    destruct Q as [->|[->|[->|[->| ->]]]]; cbn [u_d u_m1 u_m2 u_m3 u_e]; fold h; rewrite ?HH; clear HH; field; repeat apply conj; intro X0; try (apply C0; lra); try (apply G1; lra).
Qed.
Lemma iso_sums : forall c, c <> 0 -> u_e d = 0 -> let a := roe_a (Iso c) T w d in
  is_sum (Iso c) c w (str a) d /\
  is_sum (Iso c) c w (fun n => wave_speed c w n * str a n)
    (mkU (u_m1 d) ((c * c - w_vx w * w_vx w) * u_d d + 2 * w_vx w * u_m1 d) (- w_vx w * w_vy w * u_d d + w_vy w * u_m1 d + w_vx w * u_m2 d) (- w_vx w * w_vz w * u_d d + w_vz w * u_m1 d + w_vx w * u_m3 d) 0).
Proof.
  intros c C0 E0 a. unfold a, roe_a.
  split; intros q Q; unfold str, a0_of, a1_of, a2_of, a3_of, a4_of, wave_speed, wave_jump; cbn [fst snd];
    destruct Q as [->|[->|[->|[->| ->]]]]; cbn [u_d u_m1 u_m2 u_m3 u_e]; rewrite ?E0; field; try exact C0.
Qed.
End linear.
Definition dF (e : eos) (wl wr : prim) : cons := map3 (fun l r _ => r - l) (physical e wl) (physical e wr) (physical e wr).
Lemma roe_sums : forall e T wl wr, good_eos e -> good e wl -> good e wr -> let w := roe_average e wl wr in let c := roe_cs e T w in let a := roe_a e T w (du e wl wr) in
  is_sum e c w (str a) (du e wl wr) /\ is_sum e c w (fun n => wave_speed c w n * str a n) (dF e wl wr).
Proof.
  intros e T wl wr Ge Gl Gr w c a. pose proof (roe_cs_pos e T wl wr Ge Gl Gr) as C0. fold w in C0. fold c in C0.
  pose proof (sqrt_lt_R0 _ (proj1 Gl)) as A. pose proof (sqrt_lt_R0 _ (proj1 Gr)) as B.
  pose proof (sqrt_sqrt _ (Rlt_le _ _ (proj1 Gl))) as A2. pose proof (sqrt_sqrt _ (Rlt_le _ _ (proj1 Gr))) as B2.
  subst w c a. destruct e as [g|s].
  - cbn in Ge. set (w := roe_average (Adi g) wl wr) in *. set (c := roe_cs (Adi g) T w) in *.
    pose proof (roe_q_pos g wl wr Ge Gl Gr) as Q. fold w in Q.
    assert (H1 : roe_csq (Adi g) T w = (g - 1) * (w_p w - 1/2 * vsq w)). { unfold roe_csq. destruct (ltR _ _) eqn:K; [apply ltR_true in K; lra | reflexivity]. }
    assert (H2 : roe_csq (Adi g) T w = c * c). { unfold c, roe_cs. symmetry. apply sqrt_sqrt. rewrite H1. apply Rmult_le_pos; lra. }
    assert (H3 : w_p w = c * c / (g - 1) + 1/2 * vsq w) by (rewrite <- H2, H1; field; intro X0; lra).
    destruct (adi_sums T w (du (Adi g) wl wr) g c H2 eq_refl ltac:(lra) ltac:(lra) H3) as [S1 S2]. split; [exact S1 |].
    match type of S2 with is_sum _ _ _ _ ?x => replace (dF _ wl wr) with x; [exact S2 |] end. clear S1 S2 H1 H2 H3 C0 Q. subst c.
    unfold w, dF, du, physical, map3, roe_average, vsq, en, E, P, SQR. cbn [if_energy w_d w_vx w_vy w_vz w_p u_d u_m1 u_m2 u_m3 u_e]. unfold en, SQR. set (x := sqrt (w_d wl)) in *. set (y := sqrt (w_d wr)) in *. rewrite <- A2, <- B2. clearbody x y.
    apply cons_eq; field; repeat apply conj; intro X0; (lra || nra).
  - cbn in Ge. set (w := roe_average (Iso s) wl wr) in *. cbn [roe_cs] in *.
    destruct (iso_sums T w (du (Iso s) wl wr) s ltac:(lra) eq_refl) as [S1 S2]. split; [exact S1 |].
    match type of S2 with is_sum _ _ _ _ ?x => replace (dF _ wl wr) with x; [exact S2 |] end. clear S1 S2.
    unfold w, dF, du, physical, map3, roe_average, E, P. cbn [if_energy w_d w_vx w_vy w_vz w_p u_d u_m1 u_m2 u_m3 u_e]. set (x := sqrt (w_d wl)) in *. set (y := sqrt (w_d wr)) in *. rewrite <- A2, <- B2. clearbody x y.
    apply cons_eq; field; repeat apply conj; intro X0; (lra || nra).
Qed.
(** The flux is the mean flux less half of the sum of the waves weighted with their absolute speeds. *)
Lemma roe_flux_waves : forall e T wl wr, good_eos e -> good e wl -> good e wr -> let w := roe_average e wl wr in let c := roe_cs e T w in let a := roe_a e T w (du e wl wr) in
  roe_flag e (w_d wl) a = false ->
  is_sum e c w (fun n => - (1/2) * Rabs (wave_speed c w n) * str a n) (map3 (fun x fl fr => x - (1/2) * (fl + fr)) (Roe e T wl wr) (physical e wl) (physical e wr)).
Proof.
  intros e T wl wr Ge Gl Gr w c a F. pose proof (roe_cs_pos e T wl wr Ge Gl Gr) as C0. fold w in C0. fold c in C0. destruct (roe_sums e T wl wr Ge Gl Gr) as [_ S2]. cbv zeta in S2. fold w in S2. fold c in S2. fold a in S2.
  unfold Roe. fold w. fold a. fold c. rewrite F, !flux_llf_eq. destruct (leR (w_vx w + c) 0) eqn:K1; [| destruct (leR 0 (w_vx w - c)) eqn:K2].
  - apply leR_true in K1. intros q Q. specialize (S2 q Q). unfold wave_speed in *. rewrite !Rabs_left1 by lra. unfold dF in S2.
    destruct Q as [->|[->|[->|[->| ->]]]]; cbn [map3 u_d u_m1 u_m2 u_m3 u_e] in *; lra.
  - apply leR_true in K2. intros q Q. specialize (S2 q Q). unfold wave_speed in *. rewrite !Rabs_right by lra. unfold dF in S2.
    destruct Q as [->|[->|[->|[->| ->]]]]; cbn [map3 u_d u_m1 u_m2 u_m3 u_e] in *; lra.
  - intros q Q. unfold roe_dissipation. destruct a as [[[[a0 a1] a2] a3] a4] eqn:EA. fold c. unfold str, a0_of, a1_of, a2_of, a3_of, a4_of, wave_speed, wave_jump, vsq, SQR. cbn [fst snd]. clearbody c.
    assert (Z3 : match e with Iso _ => a3 = 0 | _ => True end) by (unfold a, roe_a in EA; destruct e; [exact I | injection EA; intros; congruence]).
    destruct Q as [->|[->|[->|[->| ->]]]]; cbn [map3 u_d u_m1 u_m2 u_m3 u_e]; destruct e; cbn [if_energy]; unfold Rdiv; try ring.
Qed.

(** ** HLLD *)

(** The step formula of one state is applied outside the degenerate case. *)
Definition regular (bx s s2 pst : R) (m : mprim) : Prop :=
  let q := w_d (gas m) * (s - w_vx (gas m)) * (s - s2) - bx * bx in q <> 0 /\ 1/10000 * pst <= Rabs q.
Lemma star_jump : forall g bx s s2 pst m, 1 < g -> let u := fst (star g bx s s2 pst m) in
  pst = ptot bx m + w_d (gas m) * (s - w_vx (gas m)) * (s2 - w_vx (gas m)) ->
  w_d (gas m) <> 0 -> s <> w_vx (gas m) -> s <> s2 -> regular bx s s2 pst m ->
  jump s (physical_mhd (Adi g) bx m) (mcons_of g bx m) (flux_of bx pst u) u.
Proof.
  intros g bx s s2 pst [[d vx vy vz p] b2 b3] G u E1 D0 S1 S2 [Q0 Q]. unfold u, star. cbn [gas w_d w_vx w_vy w_vz w_p m_by m_bz] in *. cbv zeta.
  destruct (ltR _ _) eqn:K; [apply ltR_true in K; lra |]. clear K.
  assert (T1 : s - vx <> 0) by lra. assert (T2 : s - s2 <> 0) by lra. assert (G1 : g - 1 <> 0) by lra.
  unfold ptot, pbm in E1. cbn [gas w_p m_by m_bz] in E1. clear Q S1 S2 u. unfold mcons_of, physical_mhd, mP, vdotb, E, P, ptot, pbm, SQR in *. unfold flux_of. cbn [fst gas w_d w_vx w_vy w_vz w_p m_by m_bz gasf f_by f_bz u_d u_m1 u_m2 u_m3 u_e].
  intros q H. destruct H as [->|[->|[->|[->|[->|[->| ->]]]]]]; cbn [gasf f_by f_bz u_d u_m1 u_m2 u_m3 u_e]; rewrite ?E1; field; repeat apply conj; assumption.
Qed.
Lemma abs_sign : forall bx, Rabs bx = bsign bx * bx.
Proof. intro bx. unfold bsign. destruct (ltR 0 bx) eqn:K; [apply ltR_true in K; rewrite Rabs_right by lra; ring | apply ltR_false in K; rewrite Rabs_left1 by lra; ring]. Qed.
Lemma sign_cases : forall bx, bsign bx = 1 \/ bsign bx = -1.
Proof. intro bx. unfold bsign. destruct (ltR 0 bx); auto. Qed.
Definition vb_of (bx : R) (u : mcons) : R := (u_m1 (gasf u) * bx + (u_m2 (gasf u) * f_by u + u_m3 (gasf u) * f_bz u)) * (1 / u_d (gasf u)).
Section alfven.
Variables (bx s2 pst : R) (ul ur : mcons).
Hypothesis (Dl : 0 < u_d (gasf ul)) (Dr : 0 < u_d (gasf ur)) (Ml : u_m1 (gasf ul) = u_d (gasf ul) * s2) (Mr : u_m1 (gasf ur) = u_d (gasf ur) * s2).
Lemma dstar_jump_left : let v := dstar bx s2 (-1) (vb_of bx ul) (dstar_common bx ul ur) ul in jump (s2 - Rabs bx / sqrt (u_d (gasf ul))) (flux_of bx pst ul) ul (flux_of bx pst v) v.
Proof using All.
  pose proof (sqrt_lt_R0 _ Dl) as A. pose proof (sqrt_lt_R0 _ Dr) as B. pose proof (sqrt_sqrt _ (Rlt_le _ _ Dl)) as A2. pose proof (sqrt_sqrt _ (Rlt_le _ _ Dr)) as B2.
  cbv zeta. unfold dstar, dstar_common, vb_of, flux_of. cbv zeta. rewrite abs_sign, ?Ml, ?Mr. set (x := sqrt (u_d (gasf ul))) in *. set (y := sqrt (u_d (gasf ur))) in *. rewrite <- A2, <- B2.
  intros q H. destruct (sign_cases bx) as [-> | ->]; destruct H as [->|[->|[->|[->|[->|[->| ->]]]]]]; cbn [gasf f_by f_bz u_d u_m1 u_m2 u_m3 u_e]; rewrite ?Ml, ?Mr, <- ?A2, <- ?B2; clearbody x y; field; repeat apply conj; intro X0; (lra || nra).
Qed.
Lemma dstar_jump_right : let v := dstar bx s2 1 (vb_of bx ur) (dstar_common bx ul ur) ur in jump (s2 + Rabs bx / sqrt (u_d (gasf ur))) (flux_of bx pst ur) ur (flux_of bx pst v) v.
Proof using All.
  pose proof (sqrt_lt_R0 _ Dl) as A. pose proof (sqrt_lt_R0 _ Dr) as B. pose proof (sqrt_sqrt _ (Rlt_le _ _ Dl)) as A2. pose proof (sqrt_sqrt _ (Rlt_le _ _ Dr)) as B2.
  cbv zeta. unfold dstar, dstar_common, vb_of, flux_of. cbv zeta. rewrite abs_sign, ?Ml, ?Mr. set (x := sqrt (u_d (gasf ul))) in *. set (y := sqrt (u_d (gasf ur))) in *. rewrite <- A2, <- B2.
  intros q H. destruct (sign_cases bx) as [-> | ->]; destruct H as [->|[->|[->|[->|[->|[->| ->]]]]]]; cbn [gasf f_by f_bz u_d u_m1 u_m2 u_m3 u_e]; rewrite ?Ml, ?Mr, <- ?A2, <- ?B2; clearbody x y; field; repeat apply conj; intro X0; (lra || nra).
Qed.
Lemma contact_jump : forall el er, let vl := dstar bx s2 (-1) el (dstar_common bx ul ur) ul in let vr := dstar bx s2 1 er (dstar_common bx ul ur) ur in jump s2 (flux_of bx pst vl) vl (flux_of bx pst vr) vr.
Proof using All.
  intros el er. cbv zeta. unfold dstar, flux_of. destruct (dstar_common bx ul ur) as [[[vy vz] b2] b3]. cbv zeta. rewrite Ml, Mr.
  intros q H. destruct H as [->|[->|[->|[->|[->|[->| ->]]]]]]; cbn [gasf f_by f_bz u_d u_m1 u_m2 u_m3 u_e]; rewrite ?Ml, ?Mr; field; repeat apply conj; intro X0; lra.
Qed.
End alfven.
(** The fast speed: rho c^2 >= gamma p + B_t^2. *)
Lemma cfast_bound : forall g bx m, 1 < g -> good (Adi g) (gas m) -> w_p (gas m) + (SQR (m_by m) + SQR (m_bz m)) / 2 < w_d (gas m) * (cfast (Adi g) bx m * cfast (Adi g) bx m).
Proof.
  intros g bx m G [D Q]. unfold cfast, FastMagnetosonicSpeed. cbv zeta. set (k := m_by m * m_by m + m_bz m * m_bz m). set (x := bx * bx). set (a := g * w_p (gas m)).
  assert (K : 0 <= k) by (unfold k; nra). assert (X : 0 <= x) by (unfold x; nra). assert (A : w_p (gas m) < a) by (cbn in Q; unfold a; nra). assert (SK : SQR (m_by m) + SQR (m_bz m) = k) by reflexivity. rewrite SK. clearbody k x a.
  assert (A0 : 0 <= a) by (cbn in Q; lra). assert (AK : 0 <= a * k) by (apply Rmult_le_pos; assumption).
  assert (D1 : 0 <= (x + k - a) * (x + k - a) + 4 * a * k) by (pose proof (Rle_0_sqr (x + k - a)) as SS; unfold Rsqr in SS; lra).
  pose proof (sqrt_pos ((x + k - a) * (x + k - a) + 4 * a * k)) as S0. pose proof (sqrt_sqrt _ D1) as S2. set (s := sqrt ((x + k - a) * (x + k - a) + 4 * a * k)) in *.
  assert (S : a + k - x <= s). { destruct (Rle_dec (a + k - x) 0) as [H|H]; [lra |]. apply Rnot_le_lt in H. apply Rsqr_incr_0_var; [| exact S0]. unfold Rsqr. rewrite S2. nra. }
  assert (Y : 0 <= 1 / 2 * (x + k + a + s) / w_d (gas m)) by (apply Rmult_le_pos; [lra | left; apply Rinv_0_lt_compat; exact D]).
  rewrite sqrt_sqrt by exact Y. replace (w_d (gas m) * (1 / 2 * (x + k + a + s) / w_d (gas m))) with (1 / 2 * (x + k + a + s)) by (field; intro X0; lra). lra.
Qed.
Section hlld.
Variables (g bx : R) (ml mr : mprim).
Hypothesis (G : 1 < g) (Gl : good (Adi g) (gas ml)) (Gr : good (Adi g) (gas mr)).
(** The contact lies between the outer waves. *)
Lemma spd2_between : spd0 g bx ml mr < spd2 g bx ml mr < spd4 g bx ml mr.
Proof using G Gl Gr.
  destruct (spd_order g bx G ml mr Gl Gr) as (O1 & O2 & O3).
  pose proof (cfast_pos (Adi g) bx ml G Gl) as Cl. pose proof (cfast_pos (Adi g) bx mr G Gr) as Cr. pose proof (cfast_bound g bx ml G Gl) as Bl. pose proof (cfast_bound g bx mr G Gr) as Br.
  pose proof (Rmin_l (w_vx (gas ml) - cfast (Adi g) bx ml) (w_vx (gas mr) - cfast (Adi g) bx mr)) as L1. pose proof (Rmin_r (w_vx (gas ml) - cfast (Adi g) bx ml) (w_vx (gas mr) - cfast (Adi g) bx mr)) as L2. fold (spd0 g bx ml mr) in L1, L2.
  pose proof (Rmax_l (w_vx (gas ml) + cfast (Adi g) bx ml) (w_vx (gas mr) + cfast (Adi g) bx mr)) as R1. pose proof (Rmax_r (w_vx (gas ml) + cfast (Adi g) bx ml) (w_vx (gas mr) + cfast (Adi g) bx mr)) as R2. fold (spd4 g bx ml mr) in R1, R2.
  unfold spd2. cbv zeta. unfold ptot, pbm. set (s0 := spd0 g bx ml mr) in *. set (s4 := spd4 g bx ml mr) in *. clearbody s0 s4. destruct Gl as [Dl Pl]. destruct Gr as [Dr Pr].
  set (dl := w_d (gas ml)) in *. set (dr := w_d (gas mr)) in *. set (vl := w_vx (gas ml)) in *. set (vr := w_vx (gas mr)) in *. set (cl := cfast (Adi g) bx ml) in *. set (cr := cfast (Adi g) bx mr) in *.
  set (pl := w_p (gas ml)) in *. set (qr := w_p (gas mr)) in *. set (kl := SQR (m_by ml)) in *. set (ll := SQR (m_bz ml)) in *. set (kr := SQR (m_by mr)) in *. set (lr := SQR (m_bz mr)) in *.
  assert (K1 : 0 <= kl) by apply Rle_0_sqr. assert (K2 : 0 <= ll) by apply Rle_0_sqr. assert (K3 : 0 <= kr) by apply Rle_0_sqr. assert (K4 : 0 <= lr) by apply Rle_0_sqr.
  clearbody dl dr vl vr cl cr pl qr kl ll kr lr. clear O3.
  assert (N : 0 < (s4 - vr) * dr - (s0 - vl) * dl) by (assert (0 < (s4 - vr) * dr) by (apply Rmult_lt_0_compat; lra); assert (0 < (vl - s0) * dl) by (apply Rmult_lt_0_compat; lra); lra).
  assert (Q1 : dr * (cr * cr) <= dr * ((s4 - vr) * (vr - s0))) by (apply Rmult_le_compat_l; [lra |]; apply Rmult_le_compat; lra).
  assert (Q2 : dl * (cl * cl) <= dl * ((vl - s0) * (s4 - vl))) by (apply Rmult_le_compat_l; [lra |]; apply Rmult_le_compat; lra).
  assert (Q3 : 0 < dl * ((vl - s0) * (vl - s0))) by (apply Rmult_lt_0_compat; [lra |]; apply Rmult_lt_0_compat; lra).
  assert (Q4 : 0 < dr * ((s4 - vr) * (s4 - vr))) by (apply Rmult_lt_0_compat; [lra |]; apply Rmult_lt_0_compat; lra).
  split; apply (Rmult_lt_reg_r ((s4 - vr) * dr - (s0 - vl) * dl)); try exact N; unfold Rdiv; rewrite Rmult_assoc, Rinv_l by (intro X0; lra); lra.
Qed.
Lemma ptst_left : ptst g bx ml mr = ptot bx ml + w_d (gas ml) * (spd0 g bx ml mr - w_vx (gas ml)) * (spd2 g bx ml mr - w_vx (gas ml)) /\
  ptst g bx ml mr = ptot bx mr + w_d (gas mr) * (spd4 g bx ml mr - w_vx (gas mr)) * (spd2 g bx ml mr - w_vx (gas mr)).
Proof using G Gl Gr.
  destruct (spd_order g bx G ml mr Gl Gr) as (O1 & O2 & _). unfold ptst, spd2. cbv zeta. set (s0 := spd0 g bx ml mr) in *. set (s4 := spd4 g bx ml mr) in *. clearbody s0 s4. destruct Gl as [Dl _]. destruct Gr as [Dr _].
  assert (N : (s4 - w_vx (gas mr)) * w_d (gas mr) - (s0 - w_vx (gas ml)) * w_d (gas ml) <> 0).
  { assert (0 < (s4 - w_vx (gas mr)) * w_d (gas mr)) by (apply Rmult_lt_0_compat; lra). assert (0 < (w_vx (gas ml) - s0) * w_d (gas ml)) by (apply Rmult_lt_0_compat; lra). intro X0. lra. }
  split; field; exact N.
Qed.
Lemma star_facts : forall s s2 pst m, 0 < w_d (gas m) -> (s < s2 /\ s < w_vx (gas m) \/ s2 < s /\ w_vx (gas m) < s) -> let r := star g bx s s2 pst m in
  0 < u_d (gasf (fst r)) /\ u_m1 (gasf (fst r)) = u_d (gasf (fst r)) * s2 /\ snd r = vb_of bx (fst r).
Proof using.
  intros s s2 pst m D O. cbv zeta. unfold star, vb_of. cbv zeta. destruct (if ltR _ _ then _ else _) as [[[my mz] b2] b3]. cbn [fst snd gasf u_d u_m1 u_m2 u_m3 f_by f_bz].
  repeat apply conj; try reflexivity. destruct O as [[O1 O2]|[O1 O2]].
  - replace (w_d (gas m) * (s - w_vx (gas m)) * (1 / (s - s2))) with (w_d (gas m) * ((w_vx (gas m) - s) / (s2 - s))) by (field; split; intro X0; lra). apply Rmult_lt_0_compat; [exact D | apply Rdiv_lt_0_compat; lra].
  - replace (w_d (gas m) * (s - w_vx (gas m)) * (1 / (s - s2))) with (w_d (gas m) * ((s - w_vx (gas m)) / (s - s2))) by (field; intro X0; lra). apply Rmult_lt_0_compat; [exact D | apply Rdiv_lt_0_compat; lra].
Qed.
Let s0 := spd0 g bx ml mr. Let s2 := spd2 g bx ml mr. Let s4 := spd4 g bx ml mr. Let pst := ptst g bx ml mr.
Let ulst := fst (star g bx s0 s2 pst ml). Let urst := fst (star g bx s4 s2 pst mr).
Let s1 := s2 - Rabs bx / sqrt (u_d (gasf ulst)). Let s3 := s2 + Rabs bx / sqrt (u_d (gasf urst)).
Let c := dstar_common bx ulst urst.
Let uldst := dstar bx s2 (-1) (vb_of bx ulst) c ulst. Let urdst := dstar bx s2 1 (vb_of bx urst) c urst.
Lemma step_flux : forall s f u f' u', jump s f u f' u' -> mmap3 (fun f x y => f + s * (x - y)) f u' u = f'.
Proof using. intros s f u f' u' J. apply mmap3_eq. intros k K. pose proof (J k K) as E1. lra. Qed.
Theorem hlld_fan : regular bx s0 s2 pst ml -> regular bx s4 s2 pst mr ->
  let fl := physical_mhd (Adi g) bx ml in let fr := physical_mhd (Adi g) bx mr in let ul := mcons_of g bx ml in let ur := mcons_of g bx mr in
  (jump s0 fl ul (flux_of bx pst ulst) ulst /\ jump s1 (flux_of bx pst ulst) ulst (flux_of bx pst uldst) uldst /\ jump s2 (flux_of bx pst uldst) uldst (flux_of bx pst urdst) urdst /\
   jump s3 (flux_of bx pst urst) urst (flux_of bx pst urdst) urdst /\ jump s4 fr ur (flux_of bx pst urst) urst) /\
  s0 < s2 < s4 /\ s1 <= s2 <= s3 /\
  (0 <= s0 -> HLLD g bx ml mr = fl) /\ (s0 < 0 <= s1 -> HLLD g bx ml mr = flux_of bx pst ulst) /\
  (s0 < 0 -> s1 < 0 <= s2 -> 0 < s3 -> HLLD g bx ml mr = flux_of bx pst uldst) /\ (s2 < 0 < s3 -> 0 < s4 -> HLLD g bx ml mr = flux_of bx pst urdst) /\
  (s1 < 0 -> s3 <= 0 < s4 -> HLLD g bx ml mr = flux_of bx pst urst) /\ (s4 <= 0 -> HLLD g bx ml mr = fr).
Proof using G Gl Gr.
  intros Rl Rr fl fr ul ur. pose proof spd2_between as BT. fold s0 s2 s4 in BT. destruct (spd_order g bx G ml mr Gl Gr) as (O1 & O2 & _). fold s0 in O1. fold s4 in O2. destruct ptst_left as [P1 P2]. fold s0 s2 s4 pst in P1, P2.
  destruct (star_facts s0 s2 pst ml (proj1 Gl)) as (A1 & A2 & A3); [left; split; lra |]. destruct (star_facts s4 s2 pst mr (proj1 Gr)) as (B1 & B2 & B3); [right; split; lra |]. fold ulst in A1, A2, A3. fold urst in B1, B2, B3.
  assert (D1 : w_d (gas ml) <> 0) by (destruct Gl; intro X0; lra). assert (D2 : w_d (gas mr) <> 0) by (destruct Gr; intro X0; lra).
  assert (J0 : jump s0 fl ul (flux_of bx pst ulst) ulst) by (apply star_jump; try assumption; intro X0; lra).
  assert (J4 : jump s4 fr ur (flux_of bx pst urst) urst) by (apply star_jump; try assumption; intro X0; lra).
  assert (J1 : jump s1 (flux_of bx pst ulst) ulst (flux_of bx pst uldst) uldst) by (apply dstar_jump_left; assumption).
  assert (J3 : jump s3 (flux_of bx pst urst) urst (flux_of bx pst urdst) urdst) by (apply dstar_jump_right; assumption).
  assert (J2 : jump s2 (flux_of bx pst uldst) uldst (flux_of bx pst urdst) urdst) by (apply contact_jump; assumption).
  assert (O13 : s1 <= s2 <= s3).
  { unfold s1, s3. assert (0 <= Rabs bx / sqrt (u_d (gasf ulst))) by (apply Rmult_le_pos; [apply Rabs_pos | left; apply Rinv_0_lt_compat, sqrt_lt_R0; exact A1]).
    assert (0 <= Rabs bx / sqrt (u_d (gasf urst))) by (apply Rmult_le_pos; [apply Rabs_pos | left; apply Rinv_0_lt_compat, sqrt_lt_R0; exact B1]). lra. }
  assert (H : HLLD g bx ml mr = if leR 0 s0 then fl else if leR s4 0 then fr else if leR 0 s1 then flux_of bx pst ulst else if leR s3 0 then flux_of bx pst urst else if leR 0 s2 then flux_of bx pst uldst else flux_of bx pst urdst).
  { unfold HLLD. cbv zeta. fold s0 s2 s4 pst. rewrite (surjective_pairing (star g bx s0 s2 pst ml)), (surjective_pairing (star g bx s4 s2 pst mr)). fold ulst urst. rewrite A3, B3. fold s1 s3 c uldst urdst. rewrite !mflux_llf_eq. fold fl fr ul ur.
    rewrite (step_flux _ _ _ _ _ J0), (step_flux _ _ _ _ _ J4), (step_flux _ _ _ _ _ J1), (step_flux _ _ _ _ _ J3). reflexivity. }
  assert (LT : forall x y, x <= y -> leR x y = true) by (intros; apply leR_true; assumption). assert (LF : forall x y, y < x -> leR x y = false) by (intros; apply leR_false; assumption).
  split; [repeat apply conj; assumption |]. split; [exact BT |]. split; [exact O13 |]. rewrite H. repeat apply conj; intros.
  - rewrite LT; [reflexivity | assumption].
  - rewrite (LF 0 s0), (LF s4 0), (LT 0 s1); [reflexivity | lra ..].
  - rewrite (LF 0 s0), (LF s4 0), (LF 0 s1), (LF s3 0), (LT 0 s2); [reflexivity | lra ..].
  - rewrite (LF 0 s0), (LF s4 0), (LF 0 s1), (LF s3 0), (LF 0 s2); [reflexivity | lra ..].
  - rewrite (LF 0 s0), (LF s4 0), (LF 0 s1), (LT s3 0); [reflexivity | lra ..].
  - rewrite (LF 0 s0), (LT s4 0); [reflexivity | lra ..].
Qed.
End hlld.

(** For equal states the averaged speeds of the HLLE solvers are those of the state. *)
Lemma hlle_a_equal : forall e w, good_eos e -> good e w -> hlle_a e w w = cs e w.
Proof.
  intros [g|c] w G [D Q]; [| reflexivity]. cbn in G, Q. pose proof (roe_q_pos g w w G (conj D Q) (conj D Q)) as QP. unfold hlle_a. cbv zeta. destruct (ltR _ 0) eqn:K; [apply ltR_true in K; lra |]. clear K.
  unfold cs, SoundSpeed. f_equal. unfold roe_average, vsq, en, SQR in *. cbn [w_p w_vx w_vy w_vz if_energy en]. clear QP. unfold en, SQR. pose proof (sqrt_lt_R0 _ D) as A. pose proof (sqrt_sqrt _ (Rlt_le _ _ D)) as A2. set (x := sqrt (w_d w)) in *. rewrite <- A2. clearbody x.
  field. repeat apply conj; intro X0; (lra || nra).
Qed.
Lemma hlle_mhd_a_equal : forall e bx m, good_eos e -> good e (gas m) -> hlle_mhd_a e bx m m = cfast e bx m.
Proof.
  intros e bx m G [D Q]. unfold hlle_mhd_a. cbv zeta. pose proof (sqrt_lt_R0 _ D) as A. pose proof (sqrt_sqrt _ (Rlt_le _ _ D)) as A2. set (d := w_d (gas m)) in *. set (x := sqrt d) in *.
  assert (F : forall y, (x * y + x * y) * (1 / (x + x)) = y) by (intro y; field; intro X0; lra). rewrite !F.
  assert (Y : 1 / 2 * (d + d) / (x * x) = 1) by (rewrite A2; field; intro X0; lra). rewrite !Y.
  assert (Z : 1 / 2 * (SQR (m_by m - m_by m) + SQR (m_bz m - m_bz m)) / SQR (x + x) = 0) by (unfold SQR; field; intro X0; lra). rewrite !Z.
  set (bt := SQR (m_by m) + SQR (m_bz m)). assert (B0 : 0 <= bt) by (unfold bt, SQR; nra).
  set (asq := match e with Adi g => g * w_p (gas m) | Iso c => c * c * d end).
  assert (AQ : 0 <= asq) by (unfold asq; destruct e; cbn in G, Q; [nra | apply Rmult_le_pos; [nra | lra]]).
  assert (R1 : (match e with
    | Adi g => ((g - 1 - (g - 1 - 1) * 1) * bt, Rmax ((g - 1) * (((men e bx m + w_p (gas m) + pbm bx m) / x + (men e bx m + w_p (gas m) + pbm bx m) / x) * (1 / (x + x)) - (bx * bx / (x * x) + bt / (x * x)) - 1 / 2 * (SQR (w_vx (gas m)) + SQR (w_vy (gas m)) + SQR (w_vz (gas m)))) - (g - 1 - 1) * 0) 0)
    | Iso c => (bt * 1, c * c + 0) end) = (bt, asq / d)).
  { unfold asq. destruct e as [g|c].
    - f_equal; [ring |]. cbn in G, Q. rewrite Rmax_left.
      + unfold men, en, pbm, bt, SQR. fold d. rewrite <- A2. field. repeat apply conj; intro X0; (lra || nra).
      + match goal with |- 0 <= ?z => replace z with (g * w_p (gas m) / d) end; [apply Rmult_le_pos; [nra | left; apply Rinv_0_lt_compat; exact D] |].
        unfold men, en, pbm, bt, SQR. fold d. rewrite <- A2. field. repeat apply conj; intro X0; (lra || nra).
    - f_equal; [ring |]. field. intro X0; lra. }
  rewrite R1. unfold cfast, FastMagnetosonicSpeed. fold d. fold asq. cbv zeta. change (m_by m * m_by m + m_bz m * m_bz m) with bt. rewrite A2. clear R1. clearbody asq bt. f_equal.
  replace ((bx * bx / d + bt / d - asq / d) * (bx * bx / d + bt / d - asq / d) + 4 * (asq / d) * (bt / d)) with (((bx * bx + bt - asq) * (bx * bx + bt - asq) + 4 * asq * bt) * (/ d * / d)) by (field; intro X0; lra).
  assert (I : 0 <= / d) by (left; apply Rinv_0_lt_compat; exact D).
  rewrite sqrt_mult; [| | apply Rmult_le_pos; exact I].
  - rewrite sqrt_square by exact I. field. intro X0; lra.
  - pose proof (Rle_0_sqr (bx * bx + bt - asq)) as SS. unfold Rsqr in SS. assert (0 <= asq * bt) by (apply Rmult_le_pos; assumption). lra.
Qed.
(** Isothermal gas: the mean velocity lies between the two velocities. *)
Lemma hlle_iso_supersonic : forall c wl wr, 0 < c -> good (Iso c) wl -> good (Iso c) wr -> c <= w_vx wl -> c <= w_vx wr -> 0 <= hlle_al (Iso c) wl wr.
Proof.
  intros c wl wr C [Dl _] [Dr _] L R. unfold hlle_al, hlle_a, cs. apply Rmin_glb; [| lra]. unfold roe_average. cbn [w_vx].
  pose proof (sqrt_lt_R0 _ Dl) as A. pose proof (sqrt_lt_R0 _ Dr) as B. set (a := sqrt (w_d wl)) in *. set (b := sqrt (w_d wr)) in *.
  apply (Rmult_le_reg_r (a + b)); [lra |]. replace (((a * w_vx wl + b * w_vx wr) * (1 / (a + b)) - c) * (a + b)) with (a * (w_vx wl - c) + b * (w_vx wr - c)) by (field; intro X0; lra). nra.
Qed.
