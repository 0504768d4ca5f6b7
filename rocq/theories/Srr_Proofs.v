From Coq Require Import Reals Lra Bool.
From Verif Require Import Time_Model Time_Proofs Sr_Model Sr_Spec Sr_Proofs Sr_Proofs2 Sr_Proofs3 Sr_Proofs4 Sr_Props Srr_Model Srr_Spec.
Local Open Scope R_scope.

Lemma lorentz_lfac w : lorentz w = lfac (u1 w) (u2 w) (u3 w).
Proof. unfold lorentz, lfac, usq. f_equal. ring. Qed.
Lemma wgas_enthalpy g w : wgas g w = enthalpy g (rho w) (pgas w).
Proof. reflexivity. Qed.
Lemma cons_ext a b : DD a = DD b -> EE a = EE b -> MM1 a = MM1 b -> MM2 a = MM2 b -> MM3 a = MM3 b -> a = b.
Proof. destruct a, b. cbn. congruence. Qed.
Lemma cons_describes g w : densities g (cons_of g w) w.
Proof. unfold densities, describes, cons_of. rewrite wgas_enthalpy, lorentz_lfac. cbn [DD EE MM1 MM2 MM3]. cbv zeta. repeat split; ring. Qed.
Lemma flux_carried g c w : densities g c w -> flux_of g w = carried c (velocity w) (pgas w).
Proof.
  unfold densities, describes, flux_of, carried, velocity. rewrite wgas_enthalpy, lorentz_lfac. cbv zeta. pose proof (lfac_ge (u1 w) (u2 w) (u3 w)) as L. set (l := lfac _ _ _) in *. clearbody l.
  intros (-> & _ & -> & -> & ->). apply cons_ext; cbn [DD EE MM1 MM2 MM3]; field; lra.
Qed.
Lemma cons_unique g c w : densities g c w -> c = cons_of g w.
Proof. intros H. pose proof (cons_describes g w) as K. unfold densities, describes in *. cbv zeta in *. destruct H as (A & B & C & D & E). destruct K as (A' & B' & C' & D' & E'). apply cons_ext; congruence. Qed.
Lemma lambdas_ok g w : 1 < g <= 2 -> gas_ok w -> -1 < snd (lambdas g w) /\ snd (lambdas g w) < velocity w < fst (lambdas g w) /\ fst (lambdas g w) < 1.
Proof.
  intros G (Hr & Hp). pose proof (C90_sound_speeds g (rho w) (pgas w) (u1 w) (u2 w) (u3 w) G Hr Hp) as H. cbv zeta in H. unfold lambdas, velocity. rewrite wgas_enthalpy, lorentz_lfac. replace (lfac (u1 w) (u2 w) (u3 w) * lfac (u1 w) (u2 w) (u3 w)) with (lfac (u1 w) (u2 w) (u3 w) ^ 2) by ring.
  destruct (SoundSpeedsSR _ _ _ _ _) as [lp lm]. exact H.
Qed.
Lemma lambda_order g wl wr : 1 < g <= 2 -> gas_ok wl -> gas_ok wr -> -1 < lambda_l g wl wr /\ lambda_l g wl wr < lambda_r g wl wr /\ lambda_r g wl wr < 1.
Proof.
  intros G Gl Gr. destruct (lambdas_ok g wl G Gl) as (A & B & C). destruct (lambdas_ok g wr G Gr) as (D & E & F). unfold lambda_l, lambda_r. repeat split.
  - apply Rmin_glb_lt; assumption.
  - pose proof (Rmin_l (snd (lambdas g wl)) (snd (lambdas g wr))). pose proof (Rmax_l (fst (lambdas g wl)) (fst (lambdas g wr))). lra.
  - apply Rmax_lub_lt; assumption.
Qed.
Lemma lambdas_mirror g w : lambdas g (mirror w) = (- snd (lambdas g w), - fst (lambdas g w)).
Proof.
  unfold lambdas. assert (L : lorentz (mirror w) = lorentz w) by (unfold lorentz, mirror; cbn [u1 u2 u3]; f_equal; ring). rewrite L. change (wgas g (mirror w)) with (wgas g w). change (pgas (mirror w)) with (pgas w). change (u1 (mirror w)) with (- u1 w).
  replace (- u1 w / lorentz w) with (- (u1 w / lorentz w)) by (unfold Rdiv; ring). unfold SoundSpeedsSR. cbv zeta. cbn [fst snd]. replace (- (u1 w / lorentz w) * - (u1 w / lorentz w)) with (u1 w / lorentz w * (u1 w / lorentz w)) by ring. f_equal; ring.
Qed.
Lemma Rmin_opp_max x y : Rmin (- x) (- y) = - Rmax y x.
Proof. unfold Rmin, Rmax. destruct (Rle_dec (- x) (- y)); destruct (Rle_dec y x); lra. Qed.
Lemma Rmax_opp_min x y : Rmax (- x) (- y) = - Rmin y x.
Proof. unfold Rmin, Rmax. destruct (Rle_dec (- x) (- y)); destruct (Rle_dec y x); lra. Qed.
Lemma lambda_l_mirror g wl wr : lambda_l g (mirror wr) (mirror wl) = - lambda_r g wl wr.
Proof. unfold lambda_l, lambda_r. rewrite !lambdas_mirror. cbn [snd fst]. apply Rmin_opp_max. Qed.
Lemma lambda_r_mirror g wl wr : lambda_r g (mirror wr) (mirror wl) = - lambda_l g wl wr.
Proof. unfold lambda_l, lambda_r. rewrite !lambdas_mirror. cbn [snd fst]. apply Rmax_opp_min. Qed.
Definition umirror (c : cons) : cons := {| DD := DD c; EE := EE c; MM1 := - MM1 c; MM2 := MM2 c; MM3 := MM3 c |}.
Lemma cons_mirror g w : cons_of g (mirror w) = umirror (cons_of g w).
Proof. unfold cons_of. assert (L : lorentz (mirror w) = lorentz w) by (unfold lorentz, mirror; cbn [u1 u2 u3]; f_equal; ring). rewrite L. change (wgas g (mirror w)) with (wgas g w). apply cons_ext; cbn; ring. Qed.
Lemma flux_mirror g w : flux_of g (mirror w) = mirror_flux (flux_of g w).
Proof. unfold flux_of. assert (L : lorentz (mirror w) = lorentz w) by (unfold lorentz, mirror; cbn [u1 u2 u3]; f_equal; ring). rewrite L. change (wgas g (mirror w)) with (wgas g w). apply cons_ext; cbn; ring. Qed.

(** The cone of admissible densities. *)
Definition cone (c : cons) : Prop := 0 < DD c /\ 0 < EE c /\ DD c * DD c + (MM1 c * MM1 c + MM2 c * MM2 c + MM3 c * MM3 c) < EE c * EE c.
Lemma cone_admissible c : cone c -> admissible c.
Proof.
  intros (A & B & C). split; [exact A | ]. rewrite <- (sqrt_square (EE c)) by lra. apply sqrt_lt_1_alt. split; [ | lra]. pose proof (pow2_ge_0 (DD c)). pose proof (pow2_ge_0 (MM1 c)). pose proof (pow2_ge_0 (MM2 c)). pose proof (pow2_ge_0 (MM3 c)). lra.
Qed.
Lemma cauchy a b c d a' b' c' d' e e' : 0 < e -> 0 < e' -> a * a + (b * b + c * c + d * d) < e * e -> a' * a' + (b' * b' + c' * c' + d' * d') < e' * e' -> a * a' + b * b' + c * c' + d * d' < e * e'.
Proof.
  intros H H' A B. destruct (Rlt_le_dec (a * a' + b * b' + c * c' + d * d') (e * e')) as [K | K]; [exact K | exfalso].
  assert (P : 0 < e * e') by nra. set (s := a * a' + b * b' + c * c' + d * d') in *.
  assert (S2 : (e * e') * (e * e') <= s * s) by nra.
  assert (L : s * s <= (a * a + (b * b + c * c + d * d)) * (a' * a' + (b' * b' + c' * c' + d' * d'))).
  { pose proof (pow2_ge_0 (a * b' - b * a')). pose proof (pow2_ge_0 (a * c' - c * a')). pose proof (pow2_ge_0 (a * d' - d * a')). pose proof (pow2_ge_0 (b * c' - c * b')). pose proof (pow2_ge_0 (b * d' - d * b')). pose proof (pow2_ge_0 (c * d' - d * c')).
    assert (Id : (a * a + (b * b + c * c + d * d)) * (a' * a' + (b' * b' + c' * c' + d' * d')) - s * s = (a * b' - b * a') ^ 2 + (a * c' - c * a') ^ 2 + (a * d' - d * a') ^ 2 + (b * c' - c * b') ^ 2 + (b * d' - d * b') ^ 2 + (c * d' - d * c') ^ 2) by (unfold s; ring). lra. }
  assert (N1 : 0 <= a * a + (b * b + c * c + d * d)) by nra. assert (N2 : 0 <= a' * a' + (b' * b' + c' * c' + d' * d')) by nra.
  set (n := a * a + (b * b + c * c + d * d)) in *. set (n' := a' * a' + (b' * b' + c' * c' + d' * d')) in *. clearbody n n' s. assert (n * n' <= n * (e' * e')) by nra. assert (n * (e' * e') < (e * e) * (e' * e')) by (apply Rmult_lt_compat_r; nra). lra.
Qed.
(** The excess of lambda times the densities over the flux is admissible beyond the sound wave. *)
Definition excess (s : R) (g : R) (w : prim) : cons := each (fun u f _ _ => s * u - f) (cons_of g w) (flux_of g w) (cons_of g w) (flux_of g w).
Lemma excess_norm g w s : let x := excess s g w in let y := s * lorentz w - u1 w in
  EE x * EE x - (DD x * DD x + (MM1 x * MM1 x + MM2 x * MM2 x + MM3 x * MM3 x)) = y * y * (wgas g w * wgas g w - 2 * wgas g w * pgas w - rho w * rho w) - pgas w * pgas w * (1 - s * s).
Proof.
  cbv zeta. assert (L : lorentz w * lorentz w = 1 + u1 w * u1 w + u2 w * u2 w + u3 w * u3 w) by (unfold lorentz; apply sqrt_sqrt; nra). unfold excess, each, cons_of, flux_of. cbn [DD EE MM1 MM2 MM3]. cbv zeta. set (l := lorentz w) in *. clearbody l. set (h := wgas g w). clearbody h.
  set (y := s * l - u1 w). assert (E : s * (h * l * l - pgas w) - h * l * u1 w = h * l * y - pgas w * s) by (unfold y; ring). rewrite E.
  assert (D : s * (rho w * l) - rho w * u1 w = rho w * y) by (unfold y; ring). rewrite D.
  assert (M : s * (h * u1 w * l) - (h * u1 w * u1 w + pgas w) = h * u1 w * y - pgas w) by (unfold y; ring). rewrite M.
  assert (M2 : s * (h * u2 w * l) - h * u2 w * u1 w = h * u2 w * y) by (unfold y; ring). rewrite M2. assert (M3 : s * (h * u3 w * l) - h * u3 w * u1 w = h * u3 w * y) by (unfold y; ring). rewrite M3.
  assert (Q : (h * l * y - pgas w * s) * (h * l * y - pgas w * s) - (rho w * y * (rho w * y) + ((h * u1 w * y - pgas w) * (h * u1 w * y - pgas w) + h * u2 w * y * (h * u2 w * y) + h * u3 w * y * (h * u3 w * y)))
     = h * h * y * y * (l * l - (u1 w * u1 w + u2 w * u2 w + u3 w * u3 w)) - 2 * h * y * pgas w * (s * l - u1 w) + pgas w * pgas w * (s * s - 1) - rho w * rho w * y * y) by ring.
  rewrite Q, L. fold y. ring.
Qed.
Lemma thermal g r p : 1 < g <= 2 -> 0 < r -> 0 < p -> let w := enthalpy g r p in
  0 < w * w - 2 * w * p - r * r /\ p * p * (w - g * p) < g * p * (w * w - 2 * w * p - r * r).
Proof.
  intros G Hr Hp. cbv zeta. unfold enthalpy. set (h := g / (g - 1) * p). assert (P : p = h * (g - 1) / g) by (unfold h; field; lra). assert (Hh : 0 < h) by (unfold h; apply Rmult_lt_0_compat; [apply Rdiv_lt_0_compat; lra | exact Hp]). clearbody h.
  assert (GP : g * p = h * (g - 1)) by (rewrite P; field; lra).
  assert (A : g * ((r + h) * (r + h) - 2 * (r + h) * p - r * r) = h * (2 * r + (2 - g) * h)) by (replace (g * ((r + h) * (r + h) - 2 * (r + h) * p - r * r)) with (g * (h * (2 * r + h)) - 2 * (r + h) * (g * p)) by ring; rewrite GP; ring).
  assert (B : 0 < h * (2 * r + (2 - g) * h)) by (apply Rmult_lt_0_compat; nra).
  assert (KP : p <= h / 2) by (assert (g * p <= g * (h / 2)) by (rewrite GP; nra); nra). split; [nra | ].
  replace (g * p * ((r + h) * (r + h) - 2 * (r + h) * p - r * r)) with (p * (g * ((r + h) * (r + h) - 2 * (r + h) * p - r * r))) by ring. rewrite A, GP. replace (p * p * (r + h - h * (g - 1))) with (p * (p * (r + (2 - g) * h))) by ring. apply Rmult_lt_compat_l; [exact Hp | ].
  assert (0 < r + (2 - g) * h) by nra. assert (p * (r + (2 - g) * h) <= h / 2 * (r + (2 - g) * h)) by nra. nra.
Qed.
Lemma beyond_sound g w s : 1 < g <= 2 -> gas_ok w -> fst (lambdas g w) <= s -> s < 1 ->
  let y := s * lorentz w - u1 w in 0 < y /\ g * pgas w * (1 - s * s) <= y * y * (wgas g w - g * pgas w).
Proof.
  intros G (Hr & Hp) H S1. cbv zeta. pose proof (lambdas_ok g w G (conj Hr Hp)) as (O1 & (O2 & O3) & O4). unfold velocity in *. rewrite <- lorentz_lfac in *. pose proof (lfac_ge (u1 w) (u2 w) (u3 w)) as L. rewrite <- lorentz_lfac in L.
  pose proof (cs_bounds g (rho w) (pgas w) G Hr Hp) as CB. rewrite <- wgas_enthalpy in CB. assert (W : 0 < wgas g w) by (unfold wgas; assert (0 < g / (g - 1)) by (apply Rdiv_lt_0_compat; lra); nra).
  assert (LL : u1 w * u1 w < lorentz w * lorentz w) by (unfold lorentz; rewrite sqrt_sqrt by nra; nra).
  unfold lambdas, SoundSpeedsSR in *. cbv zeta in *. cbn [fst snd] in *. set (l := lorentz w) in *. clearbody l. set (h := wgas g w) in *. clearbody h. set (p := pgas w) in *. clearbody p. set (x := u1 w) in *. clearbody x.
  set (cs := g * p / h) in *. assert (Ec : g * p = cs * h) by (unfold cs; field; lra). clearbody cs. set (sg := cs / (l * l * (1 - cs))) in *. assert (l2 : 0 < l * l) by nra. assert (Es : sg * (l * l * (1 - cs)) = cs) by (unfold sg; field; split; lra). assert (Ps : 0 < sg) by (unfold sg; apply Rdiv_lt_0_compat; nra). clearbody sg.
  set (v := x / l) in *. assert (Ev : x = v * l) by (unfold v; field; lra). clearbody v. assert (V2 : v * v < 1) by (rewrite Ev in LL; nra).
  assert (RN : 0 <= sg * (1 + sg - v * v)) by nra. pose proof (sqrt_sqrt _ RN) as D2. pose proof (sqrt_pos (sg * (1 + sg - v * v))) as DP. set (d := sqrt (sg * (1 + sg - v * v))) in *. clearbody d.
  assert (HS : v + d <= (1 + sg) * s). { apply (Rmult_le_compat_l (1 + sg)) in H; [ | lra]. replace ((1 + sg) * (1 / (1 + sg) * (v + d))) with (v + d) in H by (field; lra). exact H. }
  assert (VS : v < s) by lra. split; [rewrite Ev; nra | ].
  assert (QQ : sg * (1 - s * s) <= (s - v) * (s - v)). { assert (K : 0 <= ((1 + sg) * s - v - d) * ((1 + sg) * s - v + d)) by (apply Rmult_le_pos; lra). assert (((1 + sg) * s - v - d) * ((1 + sg) * s - v + d) = (1 + sg) * ((1 + sg) * (s * s) - 2 * v * s + v * v - sg)). { replace (((1 + sg) * s - v - d) * ((1 + sg) * s - v + d)) with (((1 + sg) * s - v) * ((1 + sg) * s - v) - d * d) by ring. rewrite D2. ring. } nra. }
  rewrite Ec. replace ((s * l - x) * (s * l - x) * (h - cs * h)) with (h * ((s - v) * (s - v) * (l * l * (1 - cs)))) by (rewrite Ev; ring). replace (cs * h * (1 - s * s)) with (h * (sg * (1 - s * s) * (l * l * (1 - cs)))) by (replace (h * (sg * (1 - s * s) * (l * l * (1 - cs)))) with ((sg * (l * l * (1 - cs))) * h * (1 - s * s)) by ring; rewrite Es; reflexivity).
  apply Rmult_le_compat_l; [lra | ]. apply Rmult_le_compat_r; [nra | exact QQ].
Qed.
Lemma excess_positive g w s : 1 < g <= 2 -> gas_ok w -> fst (lambdas g w) <= s -> s < 1 -> let x := excess s g w in DD x * DD x + (MM1 x * MM1 x + MM2 x * MM2 x + MM3 x * MM3 x) < EE x * EE x.
Proof.
  intros G Gw H S1. cbv zeta. pose proof (excess_norm g w s) as N. cbv zeta in N. destruct (beyond_sound g w s G Gw H S1) as (Y & B). destruct Gw as (Hr & Hp). pose proof (thermal g (rho w) (pgas w) G Hr Hp) as (T1 & T2). rewrite <- wgas_enthalpy in T1, T2.
  pose proof (lambdas_ok g w G (conj Hr Hp)) as (O1 & O2 & O3). pose proof (cs_bounds g (rho w) (pgas w) G Hr Hp) as CB. rewrite <- wgas_enthalpy in CB.
  assert (W : 0 < wgas g w) by (unfold wgas; assert (0 < g / (g - 1)) by (apply Rdiv_lt_0_compat; lra); nra).
  assert (WG : 0 < wgas g w - g * pgas w). { destruct CB as (_ & CB). apply (Rmult_lt_compat_r (wgas g w)) in CB; [ | exact W]. replace (g * pgas w / wgas g w * wgas g w) with (g * pgas w) in CB by (field; lra). lra. }
  assert (SS : 0 < 1 - s * s). { assert (-1 < s) by (pose proof (Rlt_trans _ _ _ O1 (proj1 O2)); lra). nra. }
  set (y := s * lorentz w - u1 w) in *. set (A := wgas g w * wgas g w - 2 * wgas g w * pgas w - rho w * rho w) in *. set (z := wgas g w - g * pgas w) in *. set (p := pgas w) in *. clearbody y A z.
  assert (K : p * p * (1 - s * s) < y * y * A). { assert (GPz : 0 < g * p) by nra. apply (Rmult_lt_reg_l (g * p)); [exact GPz | ]. assert (p * p * (g * p * (1 - s * s)) <= p * p * (y * y * z)) by (apply Rmult_le_compat_l; nra). assert (y * y * (p * p * z) < y * y * (g * p * A)) by (apply Rmult_lt_compat_l; nra). nra. }
  lra.
Qed.

Lemma excess_cone g w s : 1 < g <= 2 -> gas_ok w -> fst (lambdas g w) <= s -> s < 1 -> cone (excess s g w).
Proof.
  intros G Gw H S1. pose proof (excess_positive g w s G Gw H S1) as P. cbv zeta in P. destruct (beyond_sound g w s G Gw H S1) as (Y & _). pose proof Gw as (Hr & Hp). pose proof (lfac_ge (u1 w) (u2 w) (u3 w)) as L. rewrite <- lorentz_lfac in L.
  assert (D : DD (excess s g w) = rho w * (s * lorentz w - u1 w)) by (unfold excess, each, cons_of, flux_of; cbn [DD EE MM1 MM2 MM3]; ring). split; [rewrite D; nra | split; [ | exact P]].
  destruct (Rlt_le_dec 0 (EE (excess s g w))) as [K | K]; [exact K | exfalso].
  set (e := EE (cons_of g w)). set (m := MM1 (cons_of g w)). assert (F : forall t, EE (excess t g w) = t * e - m) by (intro t; unfold excess, each, flux_of, e, m, cons_of; cbn [DD EE MM1 MM2 MM3]; ring).
  assert (W : rho w + 2 * pgas w <= wgas g w) by (unfold wgas; assert (2 <= g / (g - 1)) by (apply (Rmult_le_reg_r (g - 1)); [lra | unfold Rdiv; rewrite Rmult_assoc, Rinv_l by lra; lra]); nra).
  assert (LL : u1 w * u1 w + 1 <= lorentz w * lorentz w) by (unfold lorentz; rewrite sqrt_sqrt by nra; nra).
  assert (E0 : 0 < e). { unfold e, cons_of. cbn [EE]. nra. }
  assert (E1 : m < e). { unfold e, m, cons_of. cbn [EE MM1]. set (l := lorentz w) in *. set (x := u1 w) in *. set (h := wgas g w) in *. clearbody l x h.
    assert (XL : x < l) by nra. assert (Z : 1 <= (l - x) * (2 * l)) by (assert ((l - x) * (l + x) <= (l - x) * (2 * l)) by nra; nra). assert (Z2 : pgas w < h * l * (l - x)). { assert (h <= h * l * (l - x) * 2) by nra. nra. } nra. }
  rewrite F in K. assert (Q : s <= m / e). { apply (Rmult_le_reg_r e); [exact E0 | ]. unfold Rdiv. rewrite Rmult_assoc, Rinv_l by lra. lra. } assert (Q1 : m / e < 1). { apply (Rmult_lt_reg_r e); [exact E0 | ]. unfold Rdiv. rewrite Rmult_assoc, Rinv_l by lra. lra. }
  pose proof (excess_positive g w (m / e) G Gw ltac:(lra) Q1) as N. cbv zeta in N. rewrite F in N. replace (m / e * e - m) with 0 in N by (field; lra). set (x := excess (m / e) g w) in N. clearbody x. nra.
Qed.
(** Densities between two waves. *)
Definition between (a b g : R) (wl wr : prim) : cons :=
  each (fun ul ur fl fr => (b * ur - a * ul + fl - fr) / (b - a)) (cons_of g wl) (cons_of g wr) (flux_of g wl) (flux_of g wr).
Lemma cone_combine a b c d e : 0 < d -> cone a -> cone b -> DD c * d = DD a + DD b -> EE c * d = EE a + EE b -> MM1 c * d = MM1 a + e * MM1 b -> e * e = 1 -> MM2 c * d = MM2 a + MM2 b -> MM3 c * d = MM3 a + MM3 b -> cone c.
Proof.
  intros Hd (A1 & A2 & A3) (B1 & B2 & B3) E1 E2 E3 Ee E4 E5.
  assert (X : DD a * DD b + MM1 a * (e * MM1 b) + MM2 a * MM2 b + MM3 a * MM3 b < EE a * EE b). { apply cauchy; try assumption. replace (e * MM1 b * (e * MM1 b)) with (e * e * (MM1 b * MM1 b)) by ring. rewrite Ee. lra. }
  assert (S : (DD c * d) * (DD c * d) + ((MM1 c * d) * (MM1 c * d) + (MM2 c * d) * (MM2 c * d) + (MM3 c * d) * (MM3 c * d)) < (EE c * d) * (EE c * d)).
  { rewrite E1, E2, E3, E4, E5. replace ((MM1 a + e * MM1 b) * (MM1 a + e * MM1 b)) with (MM1 a * MM1 a + 2 * (MM1 a * (e * MM1 b)) + (e * e) * (MM1 b * MM1 b)) by ring. rewrite Ee. lra. }
  split; [ | split].
  - apply (Rmult_lt_reg_r d); lra.
  - apply (Rmult_lt_reg_r d); lra.
  - apply (Rmult_lt_reg_r (d * d)); [nra | ]. lra.
Qed.
Lemma between_cone a b g wl wr : 1 < g <= 2 -> gas_ok wl -> gas_ok wr -> -1 < a -> a <= snd (lambdas g wl) -> fst (lambdas g wr) <= b -> b < 1 -> a < b -> cone (between a b g wl wr).
Proof.
  intros G Gl Gr A1 A2 B2 B1 AB. pose proof (excess_cone g wr b G Gr B2 B1) as CR. assert (Gm : gas_ok (mirror wl)) by exact Gl. pose proof (excess_cone g (mirror wl) (- a) G Gm) as CL. rewrite lambdas_mirror in CL. cbn [fst] in CL. specialize (CL ltac:(lra) ltac:(lra)).
  apply (cone_combine (excess b g wr) (excess (- a) g (mirror wl)) _ (b - a) (-1)); [lra | exact CR | exact CL | | | | lra | | ]; unfold excess; rewrite cons_mirror, flux_mirror; unfold between, each, umirror, mirror_flux; cbn [DD EE MM1 MM2 MM3]; field; lra.
Qed.
