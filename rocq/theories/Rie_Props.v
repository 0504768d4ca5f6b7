(** C45: approximate Riemann solvers. *)
From Coq Require Import Reals ZArith Bool Lia Lra Psatz.
From Verif Require Import Time_Model Time_Proofs Eos_Model Eos_Proofs Rie_Model Rie_Spec Rie_Proofs Rie_Proofs2 Rie_Proofs3 Rie_Proofs4.
Local Open Scope R_scope.

(** *** Equal states give the physical flux. *)
Theorem C45_llf_consistent : forall e w, LLF e w w = physical e w.
Proof. exact LLF_consistent. Qed.
Theorem C45_hlle_consistent : forall e w, HLLE e w w = physical e w.
Proof. exact HLLE_consistent. Qed.
Theorem C45_hllc_consistent : forall T g w, 0 < T -> 1 < g -> good (Adi g) w -> HLLC T g w w = physical (Adi g) w.
Proof. intros. apply HLLC_consistent; assumption. Qed.
Theorem C45_lhllc_consistent : forall T g dvn dvt w, 0 < T -> 1 < g -> good (Adi g) w -> LHLLC T g dvn dvt w w = physical (Adi g) w.
Proof. intros. apply LHLLC_consistent; assumption. Qed.
Theorem C45_roe_consistent : forall T e w, good_eos e -> good e w -> Roe e T w w = physical e w.
Proof. intros. apply Roe_consistent; assumption. Qed.
Theorem C45_llf_mhd_consistent : forall e bx m, LLF_MHD e bx m m = physical_mhd e bx m.
Proof. exact LLF_MHD_consistent. Qed.
Theorem C45_hlle_mhd_consistent : forall e bx m, HLLE_MHD e bx m m = physical_mhd e bx m.
Proof. exact HLLE_MHD_consistent. Qed.
Theorem C45_hlld_consistent : forall g bx m, 1 < g -> good (Adi g) (gas m) -> HLLD g bx m m = physical_mhd (Adi g) bx m.
Proof. intros. apply HLLD_consistent; assumption. Qed.

(** *** Mirrored inputs give mirrored fluxes. *)
Theorem C45_llf_mirror : forall e wl wr, LLF e (mirror wr) (mirror wl) = mirror_flux (LLF e wl wr).
Proof. exact LLF_mirror. Qed.
Theorem C45_hlle_mirror : forall e wl wr, HLLE e (mirror wr) (mirror wl) = mirror_flux (HLLE e wl wr).
Proof. exact HLLE_mirror. Qed.
Theorem C45_hllc_mirror : forall T g wl wr, 0 < T -> 1 < g -> good (Adi g) wl -> good (Adi g) wr -> HLLC T g (mirror wr) (mirror wl) = mirror_flux (HLLC T g wl wr).
Proof. intros. apply HLLC_mirror; assumption. Qed.
Theorem C45_lhllc_mirror : forall T g dvn dvt wl wr, 0 < T -> 1 < g -> good (Adi g) wl -> good (Adi g) wr ->
  LHLLC T g dvn dvt (mirror wr) (mirror wl) = mirror_flux (LHLLC T g dvn dvt wl wr).
Proof. intros. apply LHLLC_mirror; assumption. Qed.
Theorem C45_roe_mirror : forall T e wl wr, good_eos e -> good e wl -> good e wr -> Roe e T (mirror wr) (mirror wl) = mirror_flux (Roe e T wl wr).
Proof. intros. apply Roe_mirror; assumption. Qed.
Theorem C45_llf_mhd_mirror : forall e bx ml mr, LLF_MHD e (- bx) (mmirror mr) (mmirror ml) = mmirror_flux (LLF_MHD e bx ml mr).
Proof. exact LLF_MHD_mirror. Qed.
Theorem C45_hlle_mhd_mirror : forall e bx ml mr, HLLE_MHD e (- bx) (mmirror mr) (mmirror ml) = mmirror_flux (HLLE_MHD e bx ml mr).
Proof. exact HLLE_MHD_mirror. Qed.
(** For HLLD, when the contact is not exactly at rest (a tie the code breaks to the left). *)
Theorem C45_hlld_mirror : forall g bx ml mr, 1 < g -> good (Adi g) (gas ml) -> good (Adi g) (gas mr) -> spd2 g bx ml mr <> 0 ->
  HLLD g (- bx) (mmirror mr) (mmirror ml) = mmirror_flux (HLLD g bx ml mr).
Proof. intros. apply HLLD_mirror; assumption. Qed.

(** *** When every wave goes one way the flux is that of the upwind side. *)
Theorem C45_hlle_upwind : forall e wl wr, good_eos e -> good e wl -> good e wr ->
  (0 <= hlle_al e wl wr -> HLLE e wl wr = physical e wl) /\ (hlle_ar e wl wr <= 0 -> HLLE e wl wr = physical e wr).
Proof. intros. split; intro; [apply HLLE_upwind_left | apply HLLE_upwind_right]; assumption. Qed.
Theorem C45_hlle_mhd_upwind : forall e bx ml mr, good_eos e -> match e with Adi g => g <= 2 | Iso _ => True end -> good e (gas ml) -> good e (gas mr) ->
  (0 <= hlle_mhd_al e bx ml mr -> HLLE_MHD e bx ml mr = physical_mhd e bx ml) /\ (hlle_mhd_ar e bx ml mr <= 0 -> HLLE_MHD e bx ml mr = physical_mhd e bx mr).
Proof. intros. split; intro; [apply HLLE_MHD_left | apply HLLE_MHD_right]; assumption. Qed.
(** HLLD: every fast wave of both states to the right, or to the left. *)
Theorem C45_hlld_upwind : forall g bx ml mr, 1 < g -> good (Adi g) (gas ml) -> good (Adi g) (gas mr) ->
  (cfast (Adi g) bx ml <= w_vx (gas ml) /\ cfast (Adi g) bx mr <= w_vx (gas mr) -> HLLD g bx ml mr = physical_mhd (Adi g) bx ml) /\
  (cfast (Adi g) bx ml <= - w_vx (gas ml) /\ cfast (Adi g) bx mr <= - w_vx (gas mr) -> HLLD g bx ml mr = physical_mhd (Adi g) bx mr).
Proof.
  intros g bx ml mr G Gl Gr. split; intros [A B].
  - apply HLLD_left. unfold spd0. apply Rmin_glb; lra.
  - apply HLLD_right; try assumption. unfold spd4. apply Rmax_lub; lra.
Qed.
Theorem C45_roe_upwind_partial : forall T e wl wr, good_eos e -> good e wl -> good e wr ->
  let w := roe_average e wl wr in
  roe_flag e (w_d wl) (roe_a e T w (du e wl wr)) = false ->
  (0 <= w_vx w - roe_cs e T w -> Roe e T wl wr = physical e wl) /\ (w_vx w + roe_cs e T w <= 0 -> Roe e T wl wr = physical e wr).
Proof. intros. split; intro; [apply Roe_upwind_left | apply Roe_upwind_right]; assumption. Qed.
(** HLLC: within a fraction T/(am+T) of the upwind flux (T = 1e-20). *)
Theorem C45_hllc_upwind_partial : forall T g wl wr, 0 < T -> 0 <= hllc_al g wl wr -> 0 <= hllc_am g wl wr ->
  let th := T / (hllc_am g wl wr + T) in
  HLLC T g wl wr = map3 (fun f c _ => (1 - th) * f + th * c) (physical (Adi g) wl) (contact (Adi g) (hllc_am g wl wr) (hllc_cp g wl wr) wl) (physical (Adi g) wl).
Proof. intros. unfold HLLC. apply hllc_flux_upwind; assumption. Qed.

(** LLF is not an upwind flux. *)
Theorem C45_llf_upwind_refuted : exists e wl wr, good_eos e /\ good e wl /\ good e wr /\ supersonic e wl /\ supersonic e wr /\ LLF e wl wr <> physical e wl.
Proof.
  exists (Iso 1), (mkW 1 2 0 0 0), (mkW 2 2 0 0 0). unfold good_eos, good, supersonic. cbn [w_d w_vx w_p]. repeat apply conj; try exact I; try lra.
  intro H. pose proof (f_equal u_d H) as Q. unfold LLF, map3, flux_llf, du, physical in Q. cbn [u_d w_d w_vx cs] in Q. rewrite (Rabs_right 2) in Q by lra. rewrite Rmax_left in Q by lra. lra.
Qed.
(** Roe: the density check switches to LLF although all waves go to the right. *)
Theorem C45_roe_supersonic_refuted : forall T, exists e wl wr, good_eos e /\ good e wl /\ good e wr /\ supersonic e wl /\ supersonic e wr /\
  0 < w_vx (roe_average e wl wr) - roe_cs e T (roe_average e wl wr) /\ Roe e T wl wr <> physical e wl.
Proof.
  intro T. exists (Iso 1), (mkW 1 2 0 0 0), (mkW 1 6 0 0 0). unfold good_eos, good, supersonic. cbn [w_d w_vx w_p].
  assert (V : w_vx (roe_average (Iso 1) (mkW 1 2 0 0 0) (mkW 1 6 0 0 0)) = 4) by (unfold roe_average; cbn [w_vx w_d]; rewrite sqrt_1; field).
  repeat apply conj; try exact I; try lra.
  - rewrite V. cbn [roe_cs]. lra.
  - unfold Roe. cbv zeta. unfold roe_a. rewrite V. unfold roe_flag, du. cbn [u_d u_m1 w_d w_vx].
    assert (K : ltR (1 + ((1 - 1) * (1 / 2 + 1 / 2 * 4 / 1) - (1 * 6 - 1 * 2) * (1 / 2) / 1)) 0 = true) by (apply ltR_true; lra). rewrite K. cbn [orb].
    intro H. pose proof (f_equal u_d H) as Q. unfold LLF, map3, flux_llf, du, physical in Q. cbn [u_d w_d w_vx cs] in Q. lra.
Qed.
(** HLLC: not exactly the upwind flux. *)
Theorem C45_hllc_exact_upwind_refuted : forall T, 0 < T -> exists g wl wr, 1 < g /\ good (Adi g) wl /\ good (Adi g) wr /\ supersonic (Adi g) wl /\ supersonic (Adi g) wr /\
  0 < hllc_al g wl wr /\ HLLC T g wl wr <> physical (Adi g) wl.
Proof.
  intros T HT. exists 2, (mkW 1 3 0 0 (1/2)), (mkW 1 5 0 0 (1/2)).
  assert (C : forall v, cs (Adi 2) (mkW 1 v 0 0 (1/2)) = 1) by (intro v; unfold cs, SoundSpeed; cbn [w_p w_d]; replace (2 * (1 / 2) / 1) with 1 by field; apply sqrt_1).
  set (wl := mkW 1 3 0 0 (1/2)) in *. set (wr := mkW 1 5 0 0 (1/2)) in *.
  assert (PM : hllc_pmid 2 wl wr = - (1/2)) by (unfold hllc_pmid, wl, wr; rewrite !C; cbn [w_p w_vx w_d]; field).
  assert (AL : hllc_al 2 wl wr = 2). { unfold hllc_al. rewrite PM. unfold wl. rewrite C. cbn [w_p w_vx]. unfold hllc_q. destruct (leR _ _) eqn:K; [lra | apply leR_false in K; lra]. }
  assert (AR : hllc_ar 2 wl wr = 6). { unfold hllc_ar. rewrite PM. unfold wr. rewrite C. cbn [w_p w_vx]. unfold hllc_q. destruct (leR _ _) eqn:K; [lra | apply leR_false in K; lra]. }
  assert (AM : hllc_am 2 wl wr = 4) by (unfold hllc_am; rewrite AL, AR; unfold wl, wr; cbn [w_p w_vx w_d]; cbv zeta; field).
  unfold good, supersonic. repeat apply conj; try (unfold wl, wr; cbn [w_d w_vx w_p]; nra); try (unfold wl, wr; cbn [w_d w_vx w_p]; lra); [rewrite AL; lra |].
  intro H. pose proof (C45_hllc_upwind_partial T 2 wl wr HT) as U. rewrite AL, AM in U. specialize (U ltac:(lra) ltac:(lra)). cbv zeta in U. rewrite H in U. pose proof (f_equal u_d U) as Q.
  unfold map3, physical, contact, wl in Q. cbn [u_d w_d w_vx] in Q. assert (X : 0 < T / (4 + T)) by (apply Rdiv_lt_0_compat; lra). lra.
Qed.

(** *** A contact discontinuity at rest is kept exactly by HLLC and LHLLC. *)
Theorem C45_hllc_contact : forall T g dvn dvt dl dr yl zl yr zr p, 0 < T -> 1 < g -> 0 < dl -> 0 < dr -> 0 < p ->
  let wl := mkW dl 0 yl zl p in let wr := mkW dr 0 yr zr p in
  HLLC T g wl wr = mkU 0 p 0 0 0 /\ LHLLC T g dvn dvt wl wr = mkU 0 p 0 0 0.
Proof.
  intros T g dvn dvt dl dr yl zl yr zr p HT G Dl Dr Q wl wr.
  assert (Gl : good (Adi g) wl) by (split; assumption). assert (Gr : good (Adi g) wr) by (split; assumption).
  pose proof (hllc_masses g wl wr G Gl Gr) as [ML MR]. change (w_d wl) with dl in ML. change (w_vx wl) with 0 in ML. change (w_d wr) with dr in MR. change (w_vx wr) with 0 in MR.
  set (al := hllc_al g wl wr) in *. set (ar := hllc_ar g wl wr) in *.
  assert (AM : hllc_am g wl wr = 0) by (unfold hllc_am; fold al ar; unfold wl, wr; cbn [w_d w_vx w_p]; cbv zeta; field; intro X0; nra).
  assert (LM : lhllc_am g dvn dvt wl wr = 0) by (unfold lhllc_am; fold al ar; unfold wl, wr; cbn [w_d w_vx w_p]; cbv zeta; field; intro X0; nra).
  assert (CP : hllc_cp g wl wr = p).
  { unfold hllc_cp. fold al ar. unfold wl, wr. cbn [w_d w_vx w_p]. cbv zeta. match goal with |- (if ltR 0 ?x then _ else _) = _ => replace x with p end; [apply pos_cond; exact Q | field; intro X0; nra]. }
  assert (LP : lhllc_cp g wl wr = p).
  { unfold lhllc_cp. fold al ar. cbv zeta. set (chi := Rmin 1 _). clearbody chi. unfold wl, wr. cbn [w_d w_vx w_p]. match goal with |- (if ltR 0 ?x then _ else _) = _ => replace x with p end; [apply pos_cond; exact Q | field; intro X0; nra]. }
  assert (F : hllc_flux (Adi g) T 0 p al ar wl wr = mkU 0 p 0 0 0).
  { unfold hllc_flux. cbv zeta. pose proof (bm_neg T al HT) as B. set (bm := bm_of T al) in *. unfold hllc_weights. destruct (leR 0 0) eqn:K; [| apply leR_false in K; lra].
    unfold map3, contact_flux. cbn [u_d u_m1 u_m2 u_m3 u_e]. clearbody bm. apply cons_eq; field; intro X0; lra. }
  unfold HLLC, LHLLC. fold al ar. rewrite AM, LM, CP, LP. split; exact F.
Qed.

(** *** The waves inside the solvers. *)
(** HLLE: for isothermal gas the upwind condition follows from the states being supersonic; the averaged speeds of equal states are their own; the outer waves bound the signals of their side. *)
Theorem C45_hlle_isothermal_supersonic : forall c wl wr, 0 < c -> good (Iso c) wl -> good (Iso c) wr ->
  (c <= w_vx wl /\ c <= w_vx wr -> HLLE (Iso c) wl wr = physical (Iso c) wl) /\ (w_vx wl <= - c /\ w_vx wr <= - c -> HLLE (Iso c) wl wr = physical (Iso c) wr).
Proof.
  intros c wl wr C Gl Gr. split; intros [A B].
  - apply HLLE_upwind_left; try assumption. apply hlle_iso_supersonic; assumption.
  - apply HLLE_upwind_right; try assumption. pose proof (hlle_iso_supersonic c (mirror wr) (mirror wl) C (good_mirror _ _ Gr) (good_mirror _ _ Gl)) as H. unfold mirror in H. cbn [w_vx] in H. specialize (H ltac:(lra) ltac:(lra)).
    pose proof (hlle_al_mirror (Iso c) wl wr) as M. unfold mirror in M. rewrite M in H. lra.
Qed.
Theorem C45_hlle_speeds : forall e w bx m, good_eos e -> good e w -> good e (gas m) -> hlle_a e w w = cs e w /\ hlle_mhd_a e bx m m = cfast e bx m.
Proof. intros. split; [apply hlle_a_equal | apply hlle_mhd_a_equal]; assumption. Qed.
Theorem C45_outer_speeds : forall e g wl wr bx ml mr, good_eos e -> 1 < g -> good (Adi g) wl -> good (Adi g) wr ->
  (hlle_al e wl wr <= w_vx wl - cs e wl /\ w_vx wr + cs e wr <= hlle_ar e wl wr) /\
  (hllc_al g wl wr <= w_vx wl - cs (Adi g) wl /\ w_vx wr + cs (Adi g) wr <= hllc_ar g wl wr) /\
  (hlle_mhd_al e bx ml mr <= w_vx (gas ml) - cfast e bx ml /\ w_vx (gas mr) + cfast e bx mr <= hlle_mhd_ar e bx ml mr).
Proof.
  intros e g wl wr bx ml mr Ge G Gl Gr. split; [split; [apply Rmin_r | apply Rmax_r] |]. split; [apply hllc_contact_between; assumption | split; [apply Rmin_r | apply Rmax_r]].
Qed.
(** HLLC: the gas behind the two outer waves has one velocity and one pressure, the ones in the contact flux (negative pressures cut). *)
Theorem C45_hllc_star : forall g wl wr, 1 < g -> good (Adi g) wl -> good (Adi g) wr -> let v := hllc_am g wl wr in
  behind (hllc_al g wl wr) v wl = behind (hllc_ar g wl wr) v wr /\ hllc_cp g wl wr = Rmax 0 (behind (hllc_al g wl wr) v wl).
Proof. intros. apply hllc_star_pressure; assumption. Qed.
(** LHLLC is HLLC where its corrections do not act: the normal velocity difference is not larger than the transverse one and the flow is supersonic. *)
Theorem C45_lhllc_is_hllc : forall g wl wr T dvn dvt, 1 < g -> good (Adi g) wl -> good (Adi g) wr -> Rmin dvn 0 <= Rmin dvt 0 ->
  Rmax (cs (Adi g) wl) (cs (Adi g) wr) <= sqrt (Rmax (vsq wl) (vsq wr)) -> LHLLC T g dvn dvt wl wr = HLLC T g wl wr.
Proof. intros. apply LHLLC_is_HLLC; assumption. Qed.
(** Roe: the jump between the states is the sum of five waves, the jump of the flux is the sum of the waves times their speeds, and the flux is the mean less half of the sum with absolute speeds. *)
Theorem C45_roe_waves : forall e T wl wr, good_eos e -> good e wl -> good e wr ->
  let w := roe_average e wl wr in exists c s, 0 < c /\ is_sum e c w s (du e wl wr) /\
  is_sum e c w (fun n => wave_speed c w n * s n) (map3 (fun l r _ => r - l) (physical e wl) (physical e wr) (physical e wr)) /\
  (0 <= w_d wl + s 0%nat -> 0 <= w_d wl + s 0%nat + s 3%nat -> 0 <= w_d wr - s 4%nat ->
   is_sum e c w (fun n => - (1/2) * Rabs (wave_speed c w n) * s n) (map3 (fun x fl fr => x - (1/2) * (fl + fr)) (Roe e T wl wr) (physical e wl) (physical e wr))).
Proof.
  intros e T wl wr Ge Gl Gr w. exists (roe_cs e T w), (str (roe_a e T w (du e wl wr))). destruct (roe_sums e T wl wr Ge Gl Gr) as [S1 S2]. split; [apply roe_cs_pos; assumption |]. split; [exact S1 |]. split; [exact S2 |].
  intros H0 H3 H4. apply roe_flux_waves; try assumption. fold w. pose proof (S1 u_d (or_introl eq_refl)) as M. fold w in M. cbn [wave_jump u_d] in M. unfold du at 1 in M. cbn [u_d] in M.
  assert (Z3 : match e with Iso _ => str (roe_a e T w (du e wl wr)) 3 = 0 | Adi _ => True end) by (destruct e; [exact I | reflexivity]). pose proof (proj1 Gr) as DR.
  destruct (roe_a e T w (du e wl wr)) as [[[[a0 a1] a2] a3] a4]. unfold str, a0_of, a1_of, a2_of, a3_of, a4_of in *. cbn [fst snd] in *. unfold roe_flag. destruct e; apply orb_false_intro; apply ltR_false; lra.
Qed.
(** HLLD, outside the degenerate case: five discontinuities, each satisfying the jump conditions, and the flux is that of the region around the face. *)
Theorem C45_hlld_fan : forall g bx ml mr, 1 < g -> good (Adi g) (gas ml) -> good (Adi g) (gas mr) ->
  regular bx (spd0 g bx ml mr) (spd2 g bx ml mr) (ptst g bx ml mr) ml -> regular bx (spd4 g bx ml mr) (spd2 g bx ml mr) (ptst g bx ml mr) mr ->
  exists s0 s1 s2 s3 s4 pt u1 u2 u3 u4, let F := flux_of bx pt in let fl := physical_mhd (Adi g) bx ml in let fr := physical_mhd (Adi g) bx mr in
  (jump s0 fl (mcons_of g bx ml) (F u1) u1 /\ jump s1 (F u1) u1 (F u2) u2 /\ jump s2 (F u2) u2 (F u3) u3 /\ jump s3 (F u4) u4 (F u3) u3 /\ jump s4 fr (mcons_of g bx mr) (F u4) u4) /\
  s0 < s2 < s4 /\ s1 <= s2 <= s3 /\
  (0 <= s0 -> HLLD g bx ml mr = fl) /\ (s0 < 0 <= s1 -> HLLD g bx ml mr = F u1) /\ (s0 < 0 -> s1 < 0 <= s2 -> 0 < s3 -> HLLD g bx ml mr = F u2) /\
  (s2 < 0 < s3 -> 0 < s4 -> HLLD g bx ml mr = F u3) /\ (s1 < 0 -> s3 <= 0 < s4 -> HLLD g bx ml mr = F u4) /\ (s4 <= 0 -> HLLD g bx ml mr = fr).
Proof.
  intros g bx ml mr G Gl Gr Rl Rr. pose proof (hlld_fan g bx ml mr G Gl Gr Rl Rr) as H. cbv zeta in H.
  match type of H with (jump ?s0 _ _ _ ?u1 /\ jump ?s1 _ _ _ ?u2 /\ jump ?s2 _ _ _ ?u3 /\ jump ?s3 _ ?u4 _ _ /\ jump ?s4 _ _ _ _) /\ _ => exists s0, s1, s2, s3, s4, (ptst g bx ml mr), u1, u2, u3, u4 end. exact H.
Qed.
Theorem C45_hlld_contact_between : forall g bx ml mr, 1 < g -> good (Adi g) (gas ml) -> good (Adi g) (gas mr) -> spd0 g bx ml mr < spd2 g bx ml mr < spd4 g bx ml mr.
Proof. intros. apply spd2_between; assumption. Qed.

(** *** Directions: loading and storing for sweeps along the three axes. *)
Theorem C45_directions : forall e w dir, (dir < 3)%nat -> store dir (physical e (load dir w)) = physical_dir dir e w.
Proof.
  intros e [d vx vy vz p] dir H. assert (C : dir = 0%nat \/ dir = 1%nat \/ dir = 2%nat) by lia.
  destruct C as [->|[->| ->]]; unfold store, load, physical, physical_dir, vel; cbn [w_d w_vx w_vy w_vz w_p u_d u_m1 u_m2 u_m3 u_e Nat.eqb]; destruct e; unfold E, P; cbn [w_d w_vx w_vy w_vz w_p]; apply cons_eq; try ring; unfold Rdiv; ring.
Qed.

(** *** Examples: the hypotheses are met by states with a jump. *)
Example ex_good : good (Adi (5/3)) (mkW 1 (3/4) 0 0 1) /\ good (Adi (5/3)) (mkW (1/8) 0 2 0 (1/10)).
Proof. unfold good. cbn [w_d w_p]. lra. Qed.
Example ex_hlle_upwind : 0 <= hlle_al (Iso 1) (mkW 1 2 0 0 0) (mkW 4 3 1 0 0) /\ hlle_ar (Iso 1) (mkW 4 (-3) 1 0 0) (mkW 1 (-2) 0 0 0) <= 0.
Proof.
  assert (S4 : sqrt 4 = 2) by (replace 4 with (2 * 2) by ring; apply sqrt_square; lra).
  unfold hlle_al, hlle_ar, roe_average, hlle_a, cs. cbn [w_d w_vx]. rewrite S4, sqrt_1. split; [apply Rmin_glb; lra | apply Rmax_lub; lra].
Qed.
Example ex_roe_upwind : let wl := mkW 1 2 0 0 0 in let wr := mkW 4 3 1 0 0 in let w := roe_average (Iso 1) wl wr in
  roe_flag (Iso 1) (w_d wl) (roe_a (Iso 1) 0 w (du (Iso 1) wl wr)) = false /\ 0 <= w_vx w - roe_cs (Iso 1) 0 w.
Proof.
  assert (S4 : sqrt 4 = 2) by (replace 4 with (2 * 2) by ring; apply sqrt_square; lra).
  assert (V : w_vx (roe_average (Iso 1) (mkW 1 2 0 0 0) (mkW 4 3 1 0 0)) = 8/3) by (unfold roe_average; cbn [w_vx w_d]; rewrite S4, sqrt_1; field).
  cbv zeta. unfold roe_a, roe_flag. rewrite V. unfold du. cbn [u_d u_m1 w_d w_vx roe_cs]. split; [| lra]. apply orb_false_intro; apply ltR_false; lra.
Qed.
Example ex_hlld_moving : spd2 2 0 (mkMW (mkW 1 3 0 0 (1/2)) 0 0) (mkMW (mkW 1 5 0 0 (1/2)) 0 0) <> 0.
Proof.
  assert (C : forall v, cfast (Adi 2) 0 (mkMW (mkW 1 v 0 0 (1/2)) 0 0) = 1).
  { intro v. unfold cfast, FastMagnetosonicSpeed. cbn [gas w_p w_d m_by m_bz]. cbv zeta. replace ((0 * 0 + (0 * 0 + 0 * 0) - 2 * (1 / 2)) * (0 * 0 + (0 * 0 + 0 * 0) - 2 * (1 / 2)) + 4 * (2 * (1 / 2)) * (0 * 0 + 0 * 0)) with (1 * 1) by field.
    rewrite sqrt_square by lra. replace (1 / 2 * (0 * 0 + (0 * 0 + 0 * 0) + 2 * (1 / 2) + 1) / 1) with 1 by field. apply sqrt_1. }
  unfold spd2, spd0, spd4, ptot, pbm, SQR. rewrite !C. cbn [gas w_p w_vx w_d m_by m_bz]. rewrite Rmin_left by lra. rewrite Rmax_right by lra. cbv zeta. intro H.
  apply (f_equal (fun z => z * 2)) in H. revert H. match goal with |- ?a / ?b * 2 = _ -> _ => replace b with 2 by ring end. intro H. lra.
Qed.

(** Two colliding streams along a field. *)
Example ex_hlld_regular : let ml := mkMW (mkW 1 1 0 0 (1/2)) 0 0 in let mr := mkMW (mkW 1 (-1) 0 0 (1/2)) 0 0 in
  regular 1 (spd0 2 1 ml mr) (spd2 2 1 ml mr) (ptst 2 1 ml mr) ml /\ regular 1 (spd4 2 1 ml mr) (spd2 2 1 ml mr) (ptst 2 1 ml mr) mr /\ spd0 2 1 ml mr < 0 < spd4 2 1 ml mr.
Proof.
  intros ml mr.
  assert (C : forall v, cfast (Adi 2) 1 (mkMW (mkW 1 v 0 0 (1/2)) 0 0) = 1).
  { intro v. unfold cfast, FastMagnetosonicSpeed. cbn [gas w_p w_d m_by m_bz]. cbv zeta. replace ((1 * 1 + (0 * 0 + 0 * 0) - 2 * (1 / 2)) * (1 * 1 + (0 * 0 + 0 * 0) - 2 * (1 / 2)) + 4 * (2 * (1 / 2)) * (0 * 0 + 0 * 0)) with 0 by field.
    rewrite sqrt_0. replace (1 / 2 * (1 * 1 + (0 * 0 + 0 * 0) + 2 * (1 / 2) + 0) / 1) with 1 by field. apply sqrt_1. }
  assert (S0 : spd0 2 1 ml mr = -2) by (unfold spd0, ml, mr; rewrite !C; cbn [gas w_vx]; rewrite Rmin_right; lra).
  assert (S4 : spd4 2 1 ml mr = 2) by (unfold spd4, ml, mr; rewrite !C; cbn [gas w_vx]; rewrite Rmax_left; lra).
  assert (S2 : spd2 2 1 ml mr = 0) by (unfold spd2; rewrite S0, S4; unfold ml, mr, ptot, pbm, SQR; cbn [gas w_vx w_d w_p m_by m_bz]; field).
  assert (PT : ptst 2 1 ml mr = 4) by (unfold ptst; rewrite S0, S4, S2; unfold ml, mr, ptot, pbm, SQR; cbn [gas w_vx w_d w_p m_by m_bz]; field).
  rewrite PT, S0, S2, S4. unfold regular, ml, mr. cbn [gas w_vx w_d]. split; [| split; [| lra]]; (split; [intro X0; lra |]); (rewrite Rabs_right; lra).
Qed.
Print Assumptions C45_llf_consistent.
Print Assumptions C45_hlle_consistent.
Print Assumptions C45_hllc_consistent.
Print Assumptions C45_lhllc_consistent.
Print Assumptions C45_roe_consistent.
Print Assumptions C45_llf_mhd_consistent.
Print Assumptions C45_hlle_mhd_consistent.
Print Assumptions C45_hlld_consistent.
Print Assumptions C45_llf_mirror.
Print Assumptions C45_hlle_mirror.
Print Assumptions C45_hllc_mirror.
Print Assumptions C45_lhllc_mirror.
Print Assumptions C45_roe_mirror.
Print Assumptions C45_llf_mhd_mirror.
Print Assumptions C45_hlle_mhd_mirror.
Print Assumptions C45_hlld_mirror.
Print Assumptions C45_hlle_upwind.
Print Assumptions C45_hlle_mhd_upwind.
Print Assumptions C45_hlld_upwind.
Print Assumptions C45_roe_upwind_partial.
Print Assumptions C45_hllc_upwind_partial.
Print Assumptions C45_llf_upwind_refuted.
Print Assumptions C45_roe_supersonic_refuted.
Print Assumptions C45_hllc_exact_upwind_refuted.
Print Assumptions C45_hllc_contact.
Print Assumptions C45_directions.
Print Assumptions C45_hlle_isothermal_supersonic.
Print Assumptions C45_hlle_speeds.
Print Assumptions C45_outer_speeds.
Print Assumptions C45_hllc_star.
Print Assumptions C45_lhllc_is_hllc.
Print Assumptions C45_roe_waves.
Print Assumptions C45_hlld_fan.
Print Assumptions C45_hlld_contact_between.
