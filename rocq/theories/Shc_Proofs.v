From Coq Require Import Reals Lra Bool.
From Verif Require Import Time_Model Time_Proofs Sr_Model Sr_Spec Sr_Proofs2 Sr_Proofs4 Srr_Model Srr_Spec Srr_Proofs Srr_Props Shc_Model.
Local Open Scope R_scope.

(** The quadratic of the contact speed. *)
Definition GG (A B C M x : R) : R := B * x * x - (A + C) * x + M.
Lemma root A B C M : GG A B C M 1 < 0 -> 0 < GG A B C M (-1) -> let x := 2 * M / ((A + C) + sqrt ((A + C) * (A + C) - 4 * B * M)) in -1 < x < 1 /\ GG A B C M x = 0.
Proof.
  unfold GG. intros H1 H2. set (h := A + C) in *. assert (P1 : B + M < h) by lra. assert (P2 : - (B + M) < h) by lra. assert (Hh : 0 < h) by lra.
  assert (D : 0 <= h * h - 4 * B * M) by (assert ((B + M) * (B + M) < h * h) by nra; pose proof (Rle_0_sqr (B - M)) as Q; unfold Rsqr in Q; nra).
  pose proof (sqrt_pos (h * h - 4 * B * M)) as S0. pose proof (sqrt_sqrt _ D) as SS. set (s := sqrt (h * h - 4 * B * M)) in *. clearbody s. cbv zeta.
  assert (U : forall m b, (m = M /\ b = B) \/ (m = - M /\ b = - B) -> 2 * m < h + s).
  { intros m b Hmb. assert (Q : b + m < h) by (destruct Hmb as [[-> ->] | [-> ->]]; lra). assert (Q2 : b * m = B * M) by (destruct Hmb as [[-> ->] | [-> ->]]; ring). destruct (Rle_dec (2 * m) h) as [L | L].
    - destruct (Rle_lt_or_eq_dec _ _ S0) as [S1 | S1]; [lra | ]. exfalso. rewrite <- S1 in SS. pose proof (Rle_0_sqr (B - M)) as Sq. unfold Rsqr in Sq. assert ((B + M) * (B + M) < h * h) by nra. nra.
    - assert (X : (2 * m - h) * (2 * m - h) < s * s) by (rewrite SS; replace (4 * B * M) with (4 * (b * m)) by (rewrite Q2; ring); nra). nra. }
  pose proof (U M B (or_introl (conj eq_refl eq_refl))) as U1. pose proof (U (- M) (- B) (or_intror (conj eq_refl eq_refl))) as U2. assert (HS : 0 < h + s) by lra. split.
  - split; apply (Rmult_lt_reg_r (h + s)); try exact HS; unfold Rdiv; rewrite ?(Rmult_assoc (2 * M)), ?Rinv_l by lra; lra.
  - replace (B * (2 * M / (h + s)) * (2 * M / (h + s)) - h * (2 * M / (h + s)) + M) with (M * (4 * B * M - 2 * h * (h + s) + (h + s) * (h + s)) / ((h + s) * (h + s))) by (field; lra). replace (4 * B * M - 2 * h * (h + s) + (h + s) * (h + s)) with (s * s - (h * h - 4 * B * M)) by ring. rewrite SS. field. lra.
Qed.
Lemma root_unique A B C M x y : GG A B C M 1 < 0 -> 0 < GG A B C M (-1) -> -1 < x < 1 -> -1 < y < 1 -> GG A B C M x = 0 -> GG A B C M y = 0 -> x = y.
Proof.
  unfold GG. intros H1 H2 X Y EX EY. destruct (Req_dec x y) as [E | N]; [exact E | exfalso]. assert (HH : A + C = B * (x + y)). { apply (Rmult_eq_reg_r (x - y)); [ | lra]. lra. } assert (HM : M = B * x * y) by (rewrite HH in EX; lra). rewrite HH, HM in H1, H2.
  assert (K1 : B * ((1 - x) * (1 - y)) < 0) by lra. assert (K2 : 0 < B * ((1 + x) * (1 + y))) by lra. assert (0 < (1 - x) * (1 - y)) by nra. assert (0 < (1 + x) * (1 + y)) by nra. nra.
Qed.
Lemma root_inside A B C M a b x : -1 < a -> a < b -> b < 1 -> GG A B C M 1 < 0 -> 0 < GG A B C M (-1) -> 0 < GG A B C M a -> GG A B C M b < 0 -> -1 < x < 1 -> GG A B C M x = 0 -> a < x < b.
Proof.
  unfold GG. intros A1 AB B1 H1 H2 Ha Hb X EX. assert (E : forall t, B * t * t - (A + C) * t + M = (t - x) * (B * (t + x) - (A + C))) by (intro t; replace M with ((A + C) * x - B * x * x) by lra; ring).
  rewrite E in H1, H2, Ha, Hb. assert (N1 : B * (1 + x) - (A + C) < 0) by nra. assert (N2 : B * (-1 + x) - (A + C) < 0) by nra.
  assert (NL : forall t, -1 < t < 1 -> B * (t + x) - (A + C) < 0) by (intros t Ht; nra). pose proof (NL a ltac:(lra)). pose proof (NL b ltac:(lra)). split; nra.
Qed.
(** The densities of the sides. *)
Lemma energy_momentum g w : let c := cons_of g w in let v := velocity w in MM1 c = (EE c + pgas w) * v /\ EE (flux_of g w) = MM1 c /\ MM1 (flux_of g w) = MM1 c * v + pgas w.
Proof. cbv zeta. rewrite (flux_carried g _ w (cons_describes g w)). unfold carried. cbn [EE MM1]. repeat split. unfold velocity, cons_of. rewrite <- lorentz_lfac. pose proof (lfac_ge (u1 w) (u2 w) (u3 w)) as L. rewrite <- lorentz_lfac in L. cbn [EE MM1]. field. lra. Qed.
(** Pressure work stays below the energy between the sound waves of a state. *)
Definition HH (a b : R) (g : R) (w : prim) : R := MM1 (cons_of g w) * (a + b) - a * b * EE (cons_of g w) - MM1 (flux_of g w).
Lemma excess_E g w s : 1 < g <= 2 -> gas_ok w -> fst (lambdas g w) <= s -> s < 1 -> Rabs (s * MM1 (cons_of g w) - MM1 (flux_of g w)) < s * EE (cons_of g w) - MM1 (cons_of g w).
Proof.
  intros G Gw H S1. destruct (excess_cone g w s G Gw H S1) as (D & E & C). unfold excess, each in D, E, C. cbn [DD EE MM1 MM2 MM3] in D, E, C. destruct (energy_momentum g w) as (_ & X & _). rewrite X in E, C. set (e := s * EE (cons_of g w) - MM1 (cons_of g w)) in *. set (m := s * MM1 (cons_of g w) - MM1 (flux_of g w)) in *.
  set (x1 := s * DD _ - _) in *. set (x2 := s * MM2 _ - _) in *. set (x3 := s * MM3 _ - _) in *. clearbody x1 x2 x3 e m. assert (m * m < e * e) by nra. unfold Rabs. destruct (Rcase_abs m); nra.
Qed.
Lemma excess_E_left g w s : 1 < g <= 2 -> gas_ok w -> s <= snd (lambdas g w) -> -1 < s -> Rabs (MM1 (flux_of g w) - s * MM1 (cons_of g w)) < MM1 (cons_of g w) - s * EE (cons_of g w).
Proof.
  intros G Gw H S1. assert (Gm : gas_ok (mirror w)) by exact Gw. pose proof (excess_E g (mirror w) (- s) G Gm) as K. rewrite lambdas_mirror in K. cbn [fst] in K. specialize (K ltac:(lra) ltac:(lra)). rewrite cons_mirror, flux_mirror in K. unfold umirror, mirror_flux in K. cbn [EE MM1] in K.
  replace (- s * - MM1 (cons_of g w) - MM1 (flux_of g w)) with (- (MM1 (flux_of g w) - s * MM1 (cons_of g w))) in K by ring. rewrite Rabs_Ropp in K. lra.
Qed.
Lemma own_waves g w : 1 < g <= 2 -> gas_ok w -> 0 < HH (snd (lambdas g w)) (fst (lambdas g w)) g w.
Proof.
  intros G (Hr & Hp). pose proof (cs_bounds g (rho w) (pgas w) G Hr Hp) as CB. rewrite <- wgas_enthalpy in CB. assert (W0 : rho w + g / (g - 1) * pgas w = wgas g w) by reflexivity.
  assert (W : 0 < wgas g w) by (unfold wgas; assert (0 < g / (g - 1)) by (apply Rdiv_lt_0_compat; lra); nra). pose proof (lfac_ge (u1 w) (u2 w) (u3 w)) as L. rewrite <- lorentz_lfac in L.
  assert (LL : u1 w * u1 w + 1 <= lorentz w * lorentz w) by (unfold lorentz; rewrite sqrt_sqrt by nra; nra).
  unfold HH, cons_of, flux_of, lambdas, SoundSpeedsSR. cbn [EE MM1 fst snd]. cbv zeta. set (l := lorentz w) in *. clearbody l. set (h := wgas g w) in *. set (p := pgas w) in *. set (x := u1 w) in *. clearbody x.
  set (cs := g * p / h) in *. assert (Ec : g * p = cs * h) by (unfold cs; field; lra). assert (CG : cs < g - 1). { apply (Rmult_lt_reg_r h); [exact W | ]. rewrite <- Ec. rewrite <- W0. replace ((g - 1) * (rho w + g / (g - 1) * p)) with ((g - 1) * rho w + g * p) by (field; lra). nra. } clearbody cs h p.
  assert (l2 : 0 < l * l) by nra. set (sg := cs / (l * l * (1 - cs))) in *. assert (Es : sg * (l * l * (1 - cs)) = cs) by (unfold sg; field; repeat split; lra). assert (Ps : 0 < sg) by (unfold sg; apply Rdiv_lt_0_compat; [lra | apply Rmult_lt_0_compat; lra]). clearbody sg.
  set (v := x / l) in *. assert (Ev : x = v * l) by (unfold v; field; lra). clearbody v. rewrite Ev in LL. assert (V2 : 1 <= (1 - v * v) * (l * l)) by nra. assert (V3 : v * v < 1) by nra.
  assert (RN : 0 <= sg * (1 + sg - v * v)) by nra. pose proof (sqrt_sqrt _ RN) as D2. set (d := sqrt (sg * (1 + sg - v * v))) in *. clearbody d.
  assert (Main : (h * x * l * (1 / (1 + sg) * (v - d) + 1 / (1 + sg) * (v + d)) - 1 / (1 + sg) * (v - d) * (1 / (1 + sg) * (v + d)) * (h * l * l - p) - (h * x * x + p)) * (1 + sg) = h * (sg * (l * l)) * (1 - v * v) - p * (1 + 2 * sg - v * v)).
  { rewrite Ev. replace ((h * (v * l) * l * (1 / (1 + sg) * (v - d) + 1 / (1 + sg) * (v + d)) - 1 / (1 + sg) * (v - d) * (1 / (1 + sg) * (v + d)) * (h * l * l - p) - (h * (v * l) * (v * l) + p)) * (1 + sg))
      with (2 * h * v * v * (l * l) - (v * v - d * d) / (1 + sg) * (h * l * l - p) - (h * (v * v) * (l * l) + p) * (1 + sg)) by (field; lra). rewrite D2. field. lra. }
  apply (Rmult_lt_reg_r (1 + sg)); [lra | ]. rewrite Rmult_0_l, Main. clear Main D2 RN.
  assert (S2 : sg * (l * l) * (1 - cs) = cs) by lra. assert (Q1 : h * (sg * (l * l)) * (1 - cs) = g * p) by (rewrite Ec; replace (h * (sg * (l * l)) * (1 - cs)) with (h * (sg * (l * l) * (1 - cs))) by ring; rewrite S2; ring).
  assert (Q2 : sg * (1 - cs) <= cs * (1 - v * v)). { rewrite <- S2. assert (0 < sg * (1 - cs)) by (apply Rmult_lt_0_compat; lra). nra. }
  apply (Rmult_lt_reg_r (1 - cs)); [lra | ]. rewrite Rmult_0_l. replace ((h * (sg * (l * l)) * (1 - v * v) - p * (1 + 2 * sg - v * v)) * (1 - cs)) with (h * (sg * (l * l)) * (1 - cs) * (1 - v * v) - p * ((1 - v * v) * (1 - cs) + 2 * (sg * (1 - cs)))) by ring. rewrite Q1.
  assert (p * ((1 - v * v) * (1 - cs) + 2 * (sg * (1 - cs))) <= p * ((1 - v * v) * (1 - cs) + 2 * (cs * (1 - v * v)))) by (apply Rmult_le_compat_l; lra). assert (0 < p * ((1 - v * v) * (g - 1 - cs))) by (apply Rmult_lt_0_compat; [lra | apply Rmult_lt_0_compat; lra]). nra.
Qed.
Lemma work g w a b : 1 < g <= 2 -> gas_ok w -> -1 < a -> a <= snd (lambdas g w) -> fst (lambdas g w) <= b -> b < 1 -> 0 < HH a b g w.
Proof.
  intros G Gw A1 A2 B2 B1. pose proof (own_waves g w G Gw) as O. destruct (lambdas_ok g w G Gw) as (L1 & L2 & L3). pose proof (excess_E g w (fst (lambdas g w)) G Gw ltac:(lra) L3) as E1. pose proof (excess_E_left g w a G Gw A2 A1) as E2.
  pose proof (Rabs_pos (fst (lambdas g w) * MM1 (cons_of g w) - MM1 (flux_of g w))) as R1. pose proof (Rabs_pos (MM1 (flux_of g w) - a * MM1 (cons_of g w))) as R2. unfold HH in *. set (m := MM1 (cons_of g w)) in *. set (e := EE (cons_of g w)) in *. set (f := MM1 (flux_of g w)) in *. set (lp := fst (lambdas g w)) in *. set (lm := snd (lambdas g w)) in *. clearbody m e f lp lm.
  assert (S1 : m * (lm + lp) - lm * lp * e - f <= m * (a + lp) - a * lp * e - f) by (assert (0 <= (lm - a) * (lp * e - m)) by (apply Rmult_le_pos; lra); lra). assert (S2 : m * (a + lp) - a * lp * e - f <= m * (a + b) - a * b * e - f) by (assert (0 <= (b - lp) * (m - a * e)) by (apply Rmult_le_pos; lra); lra). lra.
Qed.
