From Coq Require Import Reals ZArith Bool Lra Psatz.
From Verif Require Import Time_Model Time_Proofs Eos_Model Eos_Proofs Rie_Model Rie_Spec Rie_Proofs.
Local Open Scope R_scope.

(** ** Roe. *)
Lemma roe_cs_pos : forall e T wl wr, good_eos e -> good e wl -> good e wr -> 0 < roe_cs e T (roe_average e wl wr).
Proof.
  intros [g|c] T wl wr G Gl Gr; unfold roe_cs; [| exact G]. unfold roe_csq. pose proof (roe_q_pos g wl wr G Gl Gr) as Q. set (q := w_p _ - _) in *. clearbody q. cbv zeta.
  destruct (ltR q 0) eqn:H; [apply ltR_true in H; lra |]. cbn in G. apply sqrt_lt_R0. apply Rmult_lt_0_compat; lra.
Qed.
Definition a0_of (a : R * R * R * R * R) := fst (fst (fst (fst a))).
Definition a1_of (a : R * R * R * R * R) := snd (fst (fst (fst a))).
Definition a2_of (a : R * R * R * R * R) := snd (fst (fst a)).
Definition a3_of (a : R * R * R * R * R) := snd (fst a).
Definition a4_of (a : R * R * R * R * R) := snd a.
Definition dmirror (d : cons) : cons := mkU (- u_d d) (u_m1 d) (- u_m2 d) (- u_m3 d) (- u_e d).
Lemma du_mirror : forall e wl wr, du e (mirror wr) (mirror wl) = dmirror (du e wl wr).
Proof. intros. rewrite !du_eq, !uof_mirror. unfold map3, dmirror, uof. cbn [u_d u_m1 u_m2 u_m3 u_e]. apply cons_eq; ring. Qed.
Lemma roe_cs_mirror : forall e T w, roe_cs e T (mirror w) = roe_cs e T w.
Proof. intros [g|c] T w; [| reflexivity]. unfold roe_cs, roe_csq. rewrite vsq_mirror. reflexivity. Qed.
Lemma roe_csq_mirror : forall e T w, roe_csq e T (mirror w) = roe_csq e T w.
Proof. intros [g|c] T w; [| reflexivity]. unfold roe_csq. rewrite vsq_mirror. reflexivity. Qed.
Lemma roe_a_mirror : forall e T w d, let a := roe_a e T w d in
  roe_a e T (mirror w) (dmirror d) = (- a4_of a, - a1_of a, - a2_of a, - a3_of a, - a0_of a).
Proof.
  intros [g|c] T w d a; unfold a, roe_a, a0_of, a1_of, a2_of, a3_of, a4_of; cbv zeta; cbn [fst snd].
  - rewrite vsq_mirror, roe_cs_mirror, roe_csq_mirror. set (c := roe_cs (Adi g) T w). set (na := 1/2 / roe_csq (Adi g) T w). set (qa := (g - 1) / roe_csq (Adi g) T w). clearbody c na qa.
    unfold dmirror, mirror. cbn [w_d w_vx w_vy w_vz w_p u_d u_m1 u_m2 u_m3 u_e]. repeat f_equal; ring.
  - unfold dmirror, mirror. cbn [w_d w_vx w_vy w_vz w_p u_d u_m1 u_m2 u_m3 u_e]. unfold Rdiv. repeat f_equal; ring.
Qed.
Lemma roe_a_sum : forall e T w d, 0 < roe_cs e T w -> let a := roe_a e T w d in a0_of a + a3_of a + a4_of a = u_d d.
Proof.
  intros [g|c] T w d C a; unfold a, roe_a, a0_of, a1_of, a2_of, a3_of, a4_of; cbv zeta; cbn [fst snd].
  - assert (X : 0 < roe_csq (Adi g) T w). { unfold roe_cs in C. apply Rnot_le_lt. intro L. rewrite sqrt_neg_0 in C by exact L. lra. }
    set (c2 := roe_csq (Adi g) T w) in *. set (c := roe_cs (Adi g) T w). clearbody c2 c. field. intro X0. lra.
  - cbn in C. field. intro X0. lra.
Qed.
Lemma ltR_eq : forall a b c d, a - b = c - d -> ltR a b = ltR c d.
Proof. intros a b c d H. destruct (ltR a b) eqn:X; destruct (ltR c d) eqn:Y; try reflexivity; [apply ltR_true in X; apply ltR_false in Y | apply ltR_false in X; apply ltR_true in Y]; exfalso; lra. Qed.
Lemma Roe_mirror : forall e T wl wr, good_eos e -> good e wl -> good e wr -> Roe e T (mirror wr) (mirror wl) = mirror_flux (Roe e T wl wr).
Proof.
  intros e T wl wr G Gl Gr. pose proof (roe_cs_pos e T wl wr G Gl Gr) as C. unfold Roe. cbv zeta. rewrite roe_mirror, du_mirror, roe_cs_mirror, roe_a_mirror, LLF_mirror, !flux_llf_eq, !physical_mirror.
  pose proof (roe_a_sum e T (roe_average e wl wr) (du e wl wr) C) as S. cbv zeta in S. set (w := roe_average e wl wr) in *. set (a := roe_a e T w (du e wl wr)) in *.
  assert (F : roe_flag e (w_d (mirror wr)) (- a4_of a, - a1_of a, - a2_of a, - a3_of a, - a0_of a) = roe_flag e (w_d wl) a).
  { destruct a as [[[[a0 a1] a2] a3] a4] eqn:EA. unfold a0_of, a1_of, a2_of, a3_of, a4_of in S |- *. cbn [fst snd] in S |- *. rewrite du_eq in S. unfold map3, uof in S. cbn [u_d] in S. unfold roe_flag. unfold mirror. cbn [w_d].
    destruct e as [g|c].
    - rewrite orb_comm. f_equal; apply ltR_eq; lra.
    - assert (Z : a3 = 0). { pose proof (f_equal a3_of EA) as Q. unfold a, roe_a, a3_of in Q. cbn [fst snd] in Q. symmetry. exact Q. }
      destruct Gl as [Dl _]. destruct Gr as [Dr _]. f_equal; [apply ltR_eq; lra |].
      assert (K1 : ltR (w_d wr + - a4 + - a0) 0 = false) by (apply ltR_false; lra). assert (K2 : ltR (w_d wl + a0 + a4) 0 = false) by (apply ltR_false; lra). rewrite K1, K2. reflexivity. }
  rewrite F. destruct (roe_flag e (w_d wl) a); [reflexivity |]. set (c := roe_cs e T w) in *. unfold mirror at 1 2. cbn [w_vx].
  assert (H1 : leR (- w_vx w + c) 0 = leR 0 (w_vx w - c)).
  { destruct (leR (- w_vx w + c) 0) eqn:X; destruct (leR 0 (w_vx w - c)) eqn:Y; try reflexivity; [apply leR_true in X; apply leR_false in Y | apply leR_false in X; apply leR_true in Y]; exfalso; lra. }
  assert (H2 : leR 0 (- w_vx w - c) = leR (w_vx w + c) 0).
  { destruct (leR 0 (- w_vx w - c)) eqn:X; destruct (leR (w_vx w + c) 0) eqn:Y; try reflexivity; [apply leR_true in X; apply leR_false in Y | apply leR_false in X; apply leR_true in Y]; exfalso; lra. }
  rewrite H1, H2. destruct (leR (w_vx w + c) 0) eqn:X; destruct (leR 0 (w_vx w - c)) eqn:Y; try reflexivity.
  { apply leR_true in X. apply leR_true in Y. lra. }
  unfold map3, mirror_flux, roe_dissipation. rewrite roe_cs_mirror, vsq_mirror. fold c. destruct a as [[[[a0 a1] a2] a3] a4]. unfold a0_of, a1_of, a2_of, a3_of, a4_of. cbn [fst snd]. cbv zeta.
  unfold mirror. cbn [w_d w_vx w_vy w_vz w_p u_d u_m1 u_m2 u_m3 u_e]. replace (- w_vx w - c) with (- (w_vx w + c)) by ring. replace (- w_vx w + c) with (- (w_vx w - c)) by ring. rewrite !Rabs_Ropp.
  apply cons_eq; try ring. destruct e; unfold if_energy; ring.
Qed.
Lemma Roe_consistent : forall e T w, good_eos e -> good e w -> Roe e T w w = physical e w.
Proof.
  intros e T w G Gw. unfold Roe. cbv zeta. rewrite LLF_consistent, !flux_llf_eq.
  assert (Z : du e w w = mkU 0 0 0 0 0) by (rewrite du_eq; unfold map3; apply cons_eq; ring). rewrite Z. set (v := roe_average e w w).
  assert (A : roe_a e T v (mkU 0 0 0 0 0) = (0, 0, 0, 0, 0)). { destruct e; unfold roe_a; cbv zeta; cbn [u_d u_m1 u_m2 u_m3 u_e]; unfold Rdiv; repeat f_equal; ring. }
  rewrite A. destruct (roe_flag e (w_d w) (0, 0, 0, 0, 0)); [reflexivity |]. destruct (leR (w_vx v + roe_cs e T v) 0); [reflexivity |]. destruct (leR 0 (w_vx v - roe_cs e T v)); [reflexivity |].
  apply map3_eq. intros k K. unfold roe_dissipation. cbv zeta. comp; try field. destruct e; unfold if_energy; field.
Qed.
Lemma Roe_upwind_left : forall e T wl wr, good_eos e -> good e wl -> good e wr ->
  roe_flag e (w_d wl) (roe_a e T (roe_average e wl wr) (du e wl wr)) = false -> 0 <= w_vx (roe_average e wl wr) - roe_cs e T (roe_average e wl wr) -> Roe e T wl wr = physical e wl.
Proof.
  intros e T wl wr G Gl Gr F U. pose proof (roe_cs_pos e T wl wr G Gl Gr) as C. unfold Roe. cbv zeta. rewrite F, !flux_llf_eq.
  destruct (leR _ 0) eqn:X; [apply leR_true in X; lra |]. destruct (leR 0 _) eqn:Y; [reflexivity | apply leR_false in Y; lra].
Qed.
Lemma Roe_upwind_right : forall e T wl wr, good_eos e -> good e wl -> good e wr ->
  roe_flag e (w_d wl) (roe_a e T (roe_average e wl wr) (du e wl wr)) = false -> w_vx (roe_average e wl wr) + roe_cs e T (roe_average e wl wr) <= 0 -> Roe e T wl wr = physical e wr.
Proof.
  intros e T wl wr G Gl Gr F U. unfold Roe. cbv zeta. rewrite F, !flux_llf_eq. destruct (leR _ 0) eqn:X; [reflexivity | apply leR_false in X; lra].
Qed.

(** ** Magnetic fields: LLF and HLLE. *)
Lemma mcons_eq : forall f b c f' b' c', f = f' -> b = b' -> c = c' -> mkMU f b c = mkMU f' b' c'.
Proof. intros. subst. reflexivity. Qed.
Definition muof (e : eos) (bx : R) (m : mprim) : mcons :=
  mkMU (mkU (w_d (gas m)) (w_d (gas m) * w_vx (gas m)) (w_d (gas m) * w_vy (gas m)) (w_d (gas m) * w_vz (gas m)) (men e bx m)) (m_by m) (m_bz m).
Definition msub (b : R) (f u : mcons) : mcons := mmap3 (fun f u _ => f - b * u) f u u.
Lemma mflux_along_eq : forall e bx b m, mflux_along e bx b m = msub b (physical_mhd e bx m) (muof e bx m).
Proof.
  intros e bx b m. unfold mflux_along, msub, mmap3, map3, physical_mhd, muof, mP, vdotb, pbm. cbv zeta. cbn [gasf f_by f_bz u_d u_m1 u_m2 u_m3 u_e]. rewrite pr_P.
  apply mcons_eq; [apply cons_eq | |]; unfold SQR; try field.
  destruct e; unfold if_energy, men; [rewrite en_E; unfold pbm, SQR; set (X := E (Adi gamma) (gas m)); clearbody X; cbn [P]; field | ring].
Qed.
Lemma mflux_llf_eq : forall e bx m, mflux_llf e bx m = physical_mhd e bx m.
Proof.
  intros e bx m. unfold mflux_llf, physical_mhd, mP, vdotb, pbm. cbv zeta. rewrite pr_P. apply mcons_eq; [apply cons_eq | |]; unfold SQR; try field.
  destruct e; unfold if_energy, men; [rewrite en_E; unfold pbm, SQR; set (X := E (Adi gamma) (gas m)); clearbody X; cbn [P]; field | ring].
Qed.
Lemma mdu_eq : forall e bx ml mr, mdu e bx ml mr = mmap3 (fun l r _ => r - l) (muof e bx ml) (muof e bx mr) (muof e bx mr).
Proof.
  intros. unfold mdu, mmap3, map3, muof. rewrite du_eq. unfold map3, uof. cbn [gasf f_by f_bz u_d u_m1 u_m2 u_m3 u_e]. apply mcons_eq; [apply cons_eq | |]; try ring. destruct e; unfold if_energy, men; ring.
Qed.
Lemma men_mirror : forall e bx m, men e (- bx) (mmirror m) = men e bx m.
Proof. intros [g|c] bx m; unfold men; [| reflexivity]. unfold en, pbm, mmirror, mirror, SQR. cbn [gas m_by m_bz w_d w_vx w_vy w_vz w_p]. ring. Qed.
Definition umirror (u : mcons) : mcons := mkMU (mkU (u_d (gasf u)) (- u_m1 (gasf u)) (u_m2 (gasf u)) (u_m3 (gasf u)) (u_e (gasf u))) (f_by u) (f_bz u).
Lemma muof_mirror : forall e bx m, muof e (- bx) (mmirror m) = umirror (muof e bx m).
Proof. intros. unfold muof. rewrite men_mirror. unfold umirror, mmirror, mirror. cbn [gasf f_by f_bz u_d u_m1 u_m2 u_m3 u_e gas m_by m_bz w_d w_vx w_vy w_vz w_p]. apply mcons_eq; [apply cons_eq | |]; ring. Qed.
Lemma mphysical_mirror : forall e bx m, physical_mhd e (- bx) (mmirror m) = mmirror_flux (physical_mhd e bx m).
Proof.
  intros e bx m. assert (PP : mP e (- bx) (mmirror m) = mP e bx m) by (unfold mP, mmirror; cbn [gas m_by m_bz]; destruct e; unfold P, mirror; cbn [w_d w_p]; field).
  assert (VV : vdotb (- bx) (mmirror m) = vdotb bx m) by (unfold vdotb, mmirror, mirror; cbn [gas m_by m_bz w_vx w_vy w_vz]; ring).
  assert (EE : E e (gas (mmirror m)) = E e (gas m)) by (unfold mmirror, mirror; destruct e; unfold E; cbn [gas w_d w_vx w_vy w_vz w_p]; [unfold Rdiv; ring | reflexivity]).
  unfold physical_mhd, mmirror_flux, mirror_flux. cbv zeta. rewrite PP, VV, EE. unfold mmirror, mirror. cbn [gasf f_by f_bz u_d u_m1 u_m2 u_m3 u_e gas m_by m_bz w_d w_vx w_vy w_vz w_p].
  apply mcons_eq; [apply cons_eq | |]; try ring. destruct e; [field | ring].
Qed.
Lemma cfast_mirror : forall e bx m, cfast e (- bx) (mmirror m) = cfast e bx m.
Proof. intros. unfold cfast, FastMagnetosonicSpeed, mmirror, mirror. cbn [gas m_by m_bz w_d w_p]. replace (- bx * - bx) with (bx * bx) by ring. reflexivity. Qed.
Lemma cfast_pos : forall e bx m, good_eos e -> good e (gas m) -> 0 < cfast e bx m.
Proof.
  intros e bx m G [D Q]. unfold cfast. set (asq := match e with Adi _ => _ | Iso _ => _ end).
  assert (A : 0 < asq). { unfold asq. destruct e; cbn in G; [apply Rmult_lt_0_compat; lra | apply Rmult_lt_0_compat; [apply Rmult_lt_0_compat; lra | exact D]]. }
  pose proof (cf_bounds asq (w_d (gas m)) bx (m_by m) (m_bz m) (Rlt_le _ _ A) D) as [B _]. pose proof (cf_nonneg asq (w_d (gas m)) bx (m_by m) (m_bz m)) as N.
  set (c := FastMagnetosonicSpeed _ _ _ _ _) in *. clearbody c asq. destruct N as [N|N]; [exact N |]. subst c. nra.
Qed.
Lemma mmap3_eq : forall f a b c g, (forall k : mcons -> R, (k = (fun x => u_d (gasf x)) \/ k = (fun x => u_m1 (gasf x)) \/ k = (fun x => u_m2 (gasf x)) \/ k = (fun x => u_m3 (gasf x)) \/ k = (fun x => u_e (gasf x)) \/ k = f_by \/ k = f_bz) ->
  f (k a) (k b) (k c) = k g) -> mmap3 f a b c = g.
Proof.
  intros f a b c g H. unfold mmap3, map3.
  rewrite (H (fun x => u_d (gasf x))), (H (fun x => u_m1 (gasf x))), (H (fun x => u_m2 (gasf x))), (H (fun x => u_m3 (gasf x))), (H (fun x => u_e (gasf x))), (H f_by), (H f_bz) by tauto. destruct g as [[] ? ?]; reflexivity.
Qed.
Ltac mcomp := match goal with H : _ \/ _ |- _ => destruct H as [->|[->|[->|[->|[->|[->| ->]]]]]] end; cbn [u_d u_m1 u_m2 u_m3 u_e map3 gasf f_by f_bz mmap3].
Lemma LLF_MHD_consistent : forall e bx m, LLF_MHD e bx m m = physical_mhd e bx m.
Proof. intros e bx m. unfold LLF_MHD. cbv zeta. rewrite mflux_llf_eq, mdu_eq. apply mmap3_eq. intros k H. mcomp; field. Qed.
Lemma LLF_MHD_mirror : forall e bx ml mr, LLF_MHD e (- bx) (mmirror mr) (mmirror ml) = mmirror_flux (LLF_MHD e bx ml mr).
Proof.
  intros e bx ml mr. unfold LLF_MHD. cbv zeta. rewrite !mflux_llf_eq, !mdu_eq, !muof_mirror, !mphysical_mirror, !cfast_mirror.
  assert (V : forall m, Rabs (w_vx (gas (mmirror m))) = Rabs (w_vx (gas m))) by (intro m; unfold mmirror, mirror; cbn [gas w_vx]; apply Rabs_Ropp). rewrite !V.
  rewrite Rmax_comm. set (a := 1 / 2 * Rmax _ _). clearbody a.
  unfold mmap3, map3, mmirror_flux, mirror_flux, umirror. cbn [gasf f_by f_bz u_d u_m1 u_m2 u_m3 u_e]. apply mcons_eq; [apply cons_eq | |]; field.
Qed.
Lemma mvroe_mirror : forall ml mr, mvroe (mmirror mr) (mmirror ml) = - mvroe ml mr.
Proof. intros. unfold mvroe, mmirror, mirror. cbn [gas w_d w_vx]. cbv zeta. rewrite (Rplus_comm (sqrt (w_d (gas mr)))). ring. Qed.
Lemma hlle_mhd_a_mirror : forall e bx ml mr, hlle_mhd_a e (- bx) (mmirror mr) (mmirror ml) = hlle_mhd_a e bx ml mr.
Proof.
  intros e bx ml mr. unfold hlle_mhd_a. cbv zeta. rewrite !men_mirror. unfold pbm, mmirror, mirror. cbn [gas m_by m_bz w_d w_vx w_vy w_vz w_p]. unfold SQR.
  set (a := sqrt (w_d (gas ml))). set (b := sqrt (w_d (gas mr))). rewrite (Rplus_comm b a), (Rmult_comm b a), (Rplus_comm (w_d (gas mr))). replace (- bx * - bx) with (bx * bx) by ring. set (i := 1 / (a + b)).
  set (hl := men e bx ml + w_p (gas ml) + _). set (hr := men e bx mr + w_p (gas mr) + _). rewrite (Rplus_comm (hr / b)).
  replace (a * m_by mr + b * m_by ml) with (b * m_by ml + a * m_by mr) by ring. replace (a * m_bz mr + b * m_bz ml) with (b * m_bz ml + a * m_bz mr) by ring.
  replace ((m_by mr - m_by ml) * (m_by mr - m_by ml) + (m_bz mr - m_bz ml) * (m_bz mr - m_bz ml)) with ((m_by ml - m_by mr) * (m_by ml - m_by mr) + (m_bz ml - m_bz mr) * (m_bz ml - m_bz mr)) by ring.
  replace (b * w_vy (gas mr) + a * w_vy (gas ml)) with (a * w_vy (gas ml) + b * w_vy (gas mr)) by ring.
  replace (b * w_vz (gas mr) + a * w_vz (gas ml)) with (a * w_vz (gas ml) + b * w_vz (gas mr)) by ring.
  replace ((b * - w_vx (gas mr) + a * - w_vx (gas ml)) * i * ((b * - w_vx (gas mr) + a * - w_vx (gas ml)) * i)) with ((a * w_vx (gas ml) + b * w_vx (gas mr)) * i * ((a * w_vx (gas ml) + b * w_vx (gas mr)) * i)) by ring.
  reflexivity.
Qed.
Lemma hlle_mhd_al_mirror : forall e bx ml mr, hlle_mhd_al e (- bx) (mmirror mr) (mmirror ml) = - hlle_mhd_ar e bx ml mr.
Proof.
  intros. unfold hlle_mhd_al, hlle_mhd_ar. rewrite mvroe_mirror, hlle_mhd_a_mirror, cfast_mirror. rewrite <- min_opp. unfold mmirror, mirror. cbn [gas w_vx]. f_equal; ring.
Qed.
Lemma mmirror_twice : forall m, mmirror (mmirror m) = m.
Proof. intros [w b c]. unfold mmirror. cbn [gas m_by m_bz]. rewrite mirror_twice. reflexivity. Qed.
Lemma hlle_mhd_ar_mirror : forall e bx ml mr, hlle_mhd_ar e (- bx) (mmirror mr) (mmirror ml) = - hlle_mhd_al e bx ml mr.
Proof. intros e bx ml mr. pose proof (hlle_mhd_al_mirror e (- bx) (mmirror mr) (mmirror ml)) as H. rewrite !mmirror_twice, Ropp_involutive in H. lra. Qed.
Lemma HLLE_MHD_consistent : forall e bx m, HLLE_MHD e bx m m = physical_mhd e bx m.
Proof.
  intros e bx m. unfold HLLE_MHD. cbv zeta. rewrite !mflux_along_eq. apply mmap3_eq. intros k H.
  pose proof (plus_nonneg (hlle_mhd_ar e bx m m)) as A. pose proof (minus_nonpos (hlle_mhd_al e bx m m)) as B. unfold msub.
  mcomp; apply hll_consistent; assumption.
Qed.
Lemma HLLE_MHD_mirror : forall e bx ml mr, HLLE_MHD e (- bx) (mmirror mr) (mmirror ml) = mmirror_flux (HLLE_MHD e bx ml mr).
Proof.
  intros e bx ml mr. unfold HLLE_MHD. cbv zeta. rewrite !mflux_along_eq, hlle_mhd_al_mirror, hlle_mhd_ar_mirror, plus_opp, minus_opp, !muof_mirror, !mphysical_mirror.
  set (bp := plus_part _). set (bm := minus_part _). clearbody bp bm.
  unfold mmap3, mmirror_flux, mirror_flux, msub, mmap3, map3, umirror. cbn [gasf f_by f_bz u_d u_m1 u_m2 u_m3 u_e].
  apply mcons_eq; [apply cons_eq | |]; try (rewrite <- hll_mirror; f_equal; ring). rewrite <- hll_mirror'. f_equal; ring.
Qed.
(** The averaged fast speed is the root of a non-negative number, so the averaged speeds are ordered; the larger of them and the right state's make the strict sign. *)
Lemma HLLE_MHD_upwind_left : forall e bx ml mr, good_eos e -> good e (gas ml) -> good e (gas mr) -> 0 <= hlle_mhd_al e bx ml mr -> 0 < hlle_mhd_ar e bx ml mr -> HLLE_MHD e bx ml mr = physical_mhd e bx ml.
Proof.
  intros e bx ml mr G Gl Gr H B. unfold HLLE_MHD. cbv zeta. rewrite (minus_pos _ H), (plus_pos _ B). rewrite !mflux_along_eq. apply mmap3_eq. intros k K. unfold msub. mcomp; rewrite hll_left by exact B; ring.
Qed.
