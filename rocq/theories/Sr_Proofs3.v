(** Exact recovery, the state of a cell after the conversion, sound speeds. *)
From Coq Require Import Reals Lra Bool Psatz.
From Verif Require Import Time_Model Sr_Model Sr_Spec Sr_Proofs Sr_Proofs2.
Local Open Scope R_scope.

Lemma usq_nonneg x y z : 0 <= usq x y z.
Proof. unfold usq. pose proof (pow2_ge_0 x). pose proof (pow2_ge_0 y). pose proof (pow2_ge_0 z). lra. Qed.
Lemma k_ok g : 1 < g <= 2 -> 0 < (g - 1) / g <= 1 / 2.
Proof.
  intros Hg. split; [apply Rdiv_lt_0_compat; lra | ].
  apply Rmult_le_reg_r with g; [lra | ]. replace ((g - 1) / g * g) with (g - 1) by (field; lra). lra.
Qed.
Lemma enthalpy_pos g r p : 1 < g -> 0 < r -> 0 <= p -> 0 < enthalpy g r p.
Proof. intros. unfold enthalpy. assert (0 < g / (g - 1)) by (apply Rdiv_lt_0_compat; lra). nra. Qed.
(** The momentum, a = e + p and the fixed point. *)
Lemma describes_fixed g d e m1 m2 m3 r p x y z :
  1 < g -> 0 < r -> 0 <= p -> describes g d e m1 m2 m3 r p x y z ->
  let msq := m1 * m1 + m2 * m2 + m3 * m3 in let l := lfac x y z in let w := enthalpy g r p in let a := e + p in
  a = w * (l * l) /\ 0 < w /\ 0 < a /\ msq = a * a - (w * l) * (w * l) /\ msq < a * a /\ sqrt (1 - msq / (a * a)) = / l /\ FF ((g - 1) / g) d msq a = p.
Proof.
  intros Hg Hr Hp (D & E & M1 & M2 & M3) msq l w a. pose proof (enthalpy_pos g r p Hg Hr Hp) as W. fold w in W. fold l w in D, E, M1, M2, M3.
  pose proof (lfac_ge x y z) as L1. fold l in L1. pose proof (lfac_sq x y z) as L2. fold l in L2. pose proof (usq_nonneg x y z) as Us.
  assert (A : a = w * (l * l)) by (unfold a; rewrite E; ring). assert (Pa : 0 < a) by (rewrite A; apply Rmult_lt_0_compat; nra).
  assert (M : msq = a * a - (w * l) * (w * l)).
  { unfold msq. rewrite M1, M2, M3, A. transitivity (w * l * (w * l) * usq x y z); [unfold usq; ring | ]. replace (usq x y z) with (l * l - 1) by lra. ring. }
  assert (Wl : 0 < w * l) by (apply Rmult_lt_0_compat; lra). assert (ML : msq < a * a) by (assert (0 < (w * l) * (w * l)) by (apply Rmult_lt_0_compat; lra); lra).
  assert (S : sqrt (1 - msq / (a * a)) = / l).
  { rewrite root_eq by assumption. replace (a * a - msq) with ((w * l) * (w * l)) by lra. rewrite sqrt_square by lra. rewrite A. field. lra. }
  repeat split; try assumption. unfold FF. rewrite S.
  assert (X : a - msq / a = w) by (rewrite M, A; field; lra). rewrite X.
  assert (Y : d * / l = r) by (rewrite D; field; lra). rewrite Y. unfold w, enthalpy. field. lra.
Qed.
Lemma describes_unique g d e m1 m2 m3 r p x y z r' p' x' y' z' :
  1 < g <= 2 -> 0 < r -> 0 <= p -> 0 < r' -> 0 <= p' ->
  describes g d e m1 m2 m3 r p x y z -> describes g d e m1 m2 m3 r' p' x' y' z' -> r = r' /\ p = p' /\ x = x' /\ y = y' /\ z = z'.
Proof.
  intros Hg Hr Hp Hr' Hp' D D'. pose proof (describes_fixed g _ _ _ _ _ _ _ _ _ _ ltac:(lra) Hr Hp D) as (A & W & Pa & M & ML & S & F).
  pose proof (describes_fixed g _ _ _ _ _ _ _ _ _ _ ltac:(lra) Hr' Hp' D') as (A' & W' & Pa' & M' & ML' & S' & F').
  set (msq := m1 * m1 + m2 * m2 + m3 * m3) in *. assert (M0 : 0 <= msq) by (unfold msq; nra).
  destruct D as (D1 & D2 & D3 & D4 & D5). destruct D' as (D1' & D2' & D3' & D4' & D5').
  pose proof (lfac_ge x y z) as L. pose proof (lfac_ge x' y' z') as L'.
  assert (Ea : e + p = e + p').
  { apply (fixed_unique ((g - 1) / g) d msq _ _ e (k_ok g Hg)); try assumption; try lra. nra. }
  assert (Ep : p = p') by lra. rewrite Ea in S. rewrite S in S'. assert (El : lfac x y z = lfac x' y' z').
  { rewrite <- (Rinv_inv (lfac x y z)), S'. apply Rinv_inv. }
  rewrite <- El in *. set (l := lfac x y z) in *. clearbody l.
  assert (Er : r = r') by (apply Rmult_eq_reg_r with l; lra). subst r' p'.
  assert (0 < enthalpy g r p * l) by (apply Rmult_lt_0_compat; lra).
  repeat split; apply Rmult_eq_reg_l with (enthalpy g r p * l); lra.
Qed.
Lemma p2c_describes g w : let c := PrimitiveToConserved g w in describes g (DD c) (EE c) (MM1 c) (MM2 c) (MM3 c) (rho w) (pgas w) (u1 w) (u2 w) (u3 w).
Proof.
  unfold PrimitiveToConserved, describes. cbn [DD EE MM1 MM2 MM3]. fold (lorentz w). rewrite lorentz_eq. unfold enthalpy. repeat split; ring.
Qed.
Lemma iterate_once n g dd ee msq pm p : converged pm (next g dd ee msq pm p) p = true -> iterate (S n) g dd ee msq pm p = Some (next g dd ee msq pm p).
Proof. intros H. cbn [iterate]. rewrite H. reflexivity. Qed.
(** A state inverted from its own pressure comes back. *)
Lemma normal_recovers g w :
  1 < g <= 2 -> 0 < rho w -> tol < pgas w -> lfac (u1 w) (u2 w) (u3 w) <= 700 ->
  let c := PrimitiveToConserved g w in
  MM1 c * MM1 c + MM2 c * MM2 c + MM3 c * MM3 c <= (1 - tol) * (EE c * EE c) /\ 0 < EE c /\
  ConservedToPrimitiveNormal g (DD c) (EE c) (MM1 c * MM1 c + MM2 c * MM2 c + MM3 c * MM3 c) (MM1 c) (MM2 c) (MM3 c) (pgas w)
  = Some (w, lfac (u1 w) (u2 w) (u3 w)).
Proof.
  intros Hg Hr Hp Hl c. pose proof tol_pos as Ht. pose proof tol_small as Hs. pose proof (p2c_describes g w) as De. fold c in De.
  pose proof (describes_fixed g _ _ _ _ _ (rho w) (pgas w) _ _ _ ltac:(lra) Hr ltac:(lra) De) as (A & W & Pa & M & ML & S & F).
  destruct De as (D1 & D2 & D3 & D4 & D5). pose proof (lfac_ge (u1 w) (u2 w) (u3 w)) as L1.
  set (msq := MM1 c * MM1 c + MM2 c * MM2 c + MM3 c * MM3 c) in *. set (l := lfac (u1 w) (u2 w) (u3 w)) in *. set (h := enthalpy g (rho w) (pgas w)) in *.
  assert (M0 : 0 <= msq) by (unfold msq; nra).
  assert (Hh : pgas w <= h / 2).
  { unfold h, enthalpy. assert (2 <= g / (g - 1)); [ | nra]. apply Rmult_le_reg_r with (g - 1); [lra | ]. replace (g / (g - 1) * (g - 1)) with g by (field; lra). lra. }
  assert (E0 : 0 < EE c) by nra.
  assert (LL : l * l <= 490000) by nra.
  assert (Bound : msq <= (1 - tol) * (EE c * EE c)).
  { assert (X : h * (l * l - 1 / 2) <= EE c <= h * (l * l)) by (split; nra).
    assert (Y : EE c * EE c - msq = h * l * (h * l) - pgas w * (2 * (h * (l * l)) - pgas w)).
    { rewrite M. replace (EE c) with (h * (l * l) - pgas w) by lra. ring. }
    assert (Z : pgas w * (2 * (h * (l * l)) - pgas w) <= h / 2 * (2 * (h * (l * l)) - h / 2)).
    { assert (h <= h * (l * l)) by nra. set (hh := h * (l * l)) in *. clearbody hh. assert (0 <= (h / 2 - pgas w) * (2 * hh - pgas w - h / 2)) by (apply Rmult_le_pos; lra). lra. }
    assert (V : h * h / 4 <= EE c * EE c - msq) by (assert (h / 2 * (2 * (h * (l * l)) - h / 2) = h * l * (h * l) - h * h / 4) by field; lra).
    assert (U : EE c * EE c <= h * h * (490000 * 490000)).
    { assert (EE c <= h * 490000) by nra. nra. }
    assert (TT : tol * (EE c * EE c) <= h * h / 4).
    { apply Rle_trans with (tol * (h * h * (490000 * 490000))); [apply Rmult_le_compat_l; lra | ].
      assert (Q : tol * (490000 * 490000) <= 1 / 4). { unfold tol. apply Rmult_le_reg_l with (10 ^ 12); [apply pow_lt; lra | ]. rewrite <- Rmult_assoc, Rinv_r, Rmult_1_l by (apply pow_nonzero; lra). simpl pow. lra. }
      replace (tol * (h * h * (490000 * 490000))) with (h * h * (tol * (490000 * 490000))) by ring. assert (0 < h * h) by nra. nra. }
    lra. }
  split; [exact Bound | split; [exact E0 | ]].
  unfold ConservedToPrimitiveNormal. rewrite (Rmax_right (- EE c) tol) by lra. rewrite (Rmax_left (pgas w) tol) by lra.
  assert (W2 : 0 <= msq <= (1 - tol) * ((EE c + pgas w) * (EE c + pgas w))).
  { split; [exact M0 | ]. apply Rle_trans with (1 := Bound). apply Rmult_le_compat_l; [lra | nra]. }
  assert (N : next g (DD c) (EE c) msq tol (pgas w) = pgas w). { rewrite next_eq by (exact W2 || lra). rewrite F. apply Rmax_left. lra. }
  assert (I : iterate 5 g (DD c) (EE c) msq tol (pgas w) = Some (pgas w)).
  { rewrite <- N at 2. apply iterate_once. rewrite N. unfold converged.
    apply andb_true_iff. rewrite !ltR_true. replace (pgas w - pgas w) with 0 by ring. rewrite Rabs_R0. lra. }
  rewrite I. unfold a_of. rewrite Rmax_left by lra. rewrite vsq_eq by (exact W2 || lra). pose proof (s_nonneg _ _ Pa W2) as [S0 S1].
  assert (G : sqrt (1 / (1 - msq / ((EE c + pgas w) * (EE c + pgas w)))) = l). { rewrite ga_eq by lra. rewrite S. apply Rinv_inv. }
  rewrite G, D1, D3, D4, D5, A. f_equal. f_equal. destruct w as [r p x y z]. cbn [rho pgas u1 u2 u3] in *. f_equal; field; lra.
Qed.
Lemma c2p_recovers e w w0 :
  1 < gam e <= 2 -> 0 < dfloor e <= rho w -> pfloor e <= pgas w -> tol < pgas w -> lfac (u1 w) (u2 w) (u3 w) <= gmax e -> lfac (u1 w) (u2 w) (u3 w) <= 700 ->
  pgas w0 = pgas w -> ConservedToPrimitive e (PrimitiveToConserved (gam e) w) w0 = (PrimitiveToConserved (gam e) w, w).
Proof.
  intros Hg Hr Hp Ht Hl Hl7 Hw. destruct (normal_recovers (gam e) w Hg ltac:(lra) Ht Hl7) as (B & E0 & N). pose proof (lfac_ge (u1 w) (u2 w) (u3 w)) as L1.
  pose proof (p2c_describes (gam e) w) as De. pose proof tol_pos as T0.
  pose proof (describes_fixed (gam e) _ _ _ _ _ (rho w) (pgas w) _ _ _ ltac:(lra) ltac:(lra) ltac:(lra) De) as (A & W & Pa & _). destruct De as (D1 & _).
  set (c := PrimitiveToConserved (gam e) w) in *. set (l := lfac (u1 w) (u2 w) (u3 w)) in *. set (msq := MM1 c * MM1 c + MM2 c * MM2 c + MM3 c * MM3 c) in *.
  unfold ConservedToPrimitive. fold msq.
  assert (C1 : ltR (DD c) (dfloor e) = false) by (apply ltR_false; rewrite D1; nra). rewrite C1.
  assert (C2 : ltR (EE c) (dfloor e + pfloor e / (gam e - 1)) = false).
  { apply ltR_false. assert (pfloor e / (gam e - 1) <= pgas w / (gam e - 1)) by (apply Rmult_le_compat_r; [left; apply Rinv_0_lt_compat; lra | lra]).
    assert (Q : enthalpy (gam e) (rho w) (pgas w) = rho w + pgas w + pgas w / (gam e - 1)) by (unfold enthalpy; field; lra).
    assert (1 <= l * l) by nra. set (h := enthalpy (gam e) (rho w) (pgas w)) in *. clearbody h.
    assert (h <= h * (l * l)) by nra. lra. }
  rewrite C2. assert (C3 : ltR ((1 - tol) * (EE c * EE c)) msq = false) by (apply ltR_false; exact B). rewrite C3.
  rewrite Hw, (Rmax_left (pgas w) (pfloor e)) by lra. rewrite N. rewrite (Rmax_right (dfloor e - rho w)), (Rmax_right (pfloor e - pgas w)) by lra.
  assert (C4 : ltR 0 0 = false) by (apply ltR_false; lra). rewrite C4. replace (false || false) with false by reflexivity. cbv beta iota zeta. assert (C5 : ltR (gmax e) l = false) by (apply ltR_false; lra). rewrite C5.
  assert (C6 : ltR (rho w) (dfloor e) = false) by (apply ltR_false; lra). rewrite C6. assert (C7 : ltR (pgas w) (pfloor e) = false) by (apply ltR_false; lra). rewrite C7.
  destruct w; reflexivity.
Qed.

(** The state of a cell afterwards. *)
Lemma lfac_scaled f x y z : lfac (x * f) (y * f) (z * f) = sqrt (1 + f * f * usq x y z).
Proof. unfold lfac, usq. f_equal. ring. Qed.
Lemma mm_rescaled m1 m2 m3 t f : 0 <= t -> 0 < m1 * m1 + m2 * m2 + m3 * m3 -> f = sqrt (t / (m1 * m1 + m2 * m2 + m3 * m3)) ->
  m1 * f * (m1 * f) + m2 * f * (m2 * f) + m3 * f * (m3 * f) = t.
Proof.
  intros Ht Hm ->. set (s := m1 * m1 + m2 * m2 + m3 * m3) in *.
  assert (sqrt (t / s) * sqrt (t / s) = t / s) by (apply sqrt_sqrt; apply Rmult_le_pos; [lra | left; apply Rinv_0_lt_compat; lra]).
  transitivity (s * (sqrt (t / s) * sqrt (t / s))); [unfold s; ring | rewrite H; field; lra].
Qed.
Definition settled (e : eos) (c : cons) (r : cons * prim) : Prop :=
  dfloor e <= rho (snd r) /\ pfloor e <= pgas (snd r) /\ lfac (u1 (snd r)) (u2 (snd r)) (u3 (snd r)) <= gmax e /\
  (fst r = c \/ fst r = PrimitiveToConserved (gam e) (snd r)).
Lemma finish_settled e c q ga success fixed :
  1 <= gmax e -> (success = true -> ga = lfac (u1 q) (u2 q) (u3 q)) -> (success = false -> fixed = true) ->
  settled e c (
  let ga := if success then ga else lorentz q in
  let '(q, fixed) :=
    if ltR (gmax e) ga then
      (let factor := sqrt ((gmax e * gmax e - 1) / (ga * ga - 1)) in
       ({| rho := rho q; pgas := pgas q; u1 := u1 q * factor; u2 := u2 q * factor; u3 := u3 q * factor |}, true))
    else (q, fixed) in
  let '(r, fixed) := if ltR (rho q) (dfloor e) then (dfloor e, true) else (rho q, fixed) in
  let '(p, fixed) := if ltR (pgas q) (pfloor e) then (pfloor e, true) else (pgas q, fixed) in
  let q := if success then {| rho := r; pgas := p; u1 := u1 q; u2 := u2 q; u3 := u3 q |} else {| rho := dfloor e; pgas := pfloor e; u1 := 0; u2 := 0; u3 := 0 |} in
  if fixed : bool then
    let wgas := rho q + gam e / (gam e - 1) * pgas q in
    let ga := lorentz q in
    ({| DD := rho q * ga; EE := wgas * (ga * ga) - pgas q; MM1 := wgas * ga * u1 q; MM2 := wgas * ga * u2 q; MM3 := wgas * ga * u3 q |}, q)
  else (c, q)).
Proof.
  intros Hm Hs Hf.
  assert (X : forall (q1 : prim) (fx : bool), dfloor e <= rho q1 -> pfloor e <= pgas q1 -> lfac (u1 q1) (u2 q1) (u3 q1) <= gmax e ->
    settled e c (if fx then ({| DD := rho q1 * lorentz q1; EE := (rho q1 + gam e / (gam e - 1) * pgas q1) * (lorentz q1 * lorentz q1) - pgas q1;
      MM1 := (rho q1 + gam e / (gam e - 1) * pgas q1) * lorentz q1 * u1 q1; MM2 := (rho q1 + gam e / (gam e - 1) * pgas q1) * lorentz q1 * u2 q1;
      MM3 := (rho q1 + gam e / (gam e - 1) * pgas q1) * lorentz q1 * u3 q1 |}, q1) else (c, q1))).
  { intros q1 fx A B C. unfold settled. destruct fx; cbn [fst snd]; repeat split; try assumption; [right | left; reflexivity].
    unfold PrimitiveToConserved. fold (lorentz q1). f_equal. ring. }
  cbv zeta. destruct success.
  - specialize (Hs eq_refl).
    assert (Y : forall (q1 : prim) (fx : bool), lfac (u1 q1) (u2 q1) (u3 q1) <= gmax e -> settled e c (
      let '(r, fixed0) := if ltR (rho q1) (dfloor e) then (dfloor e, true) else (rho q1, fx) in
      let '(p, fixed1) := if ltR (pgas q1) (pfloor e) then (pfloor e, true) else (pgas q1, fixed0) in
      if fixed1 : bool then
      ({| DD := r * lorentz {| rho := r; pgas := p; u1 := u1 q1; u2 := u2 q1; u3 := u3 q1 |};
          EE := (r + gam e / (gam e - 1) * p) * (lorentz {| rho := r; pgas := p; u1 := u1 q1; u2 := u2 q1; u3 := u3 q1 |} * lorentz {| rho := r; pgas := p; u1 := u1 q1; u2 := u2 q1; u3 := u3 q1 |}) - p;
          MM1 := (r + gam e / (gam e - 1) * p) * lorentz {| rho := r; pgas := p; u1 := u1 q1; u2 := u2 q1; u3 := u3 q1 |} * u1 q1;
          MM2 := (r + gam e / (gam e - 1) * p) * lorentz {| rho := r; pgas := p; u1 := u1 q1; u2 := u2 q1; u3 := u3 q1 |} * u2 q1;
          MM3 := (r + gam e / (gam e - 1) * p) * lorentz {| rho := r; pgas := p; u1 := u1 q1; u2 := u2 q1; u3 := u3 q1 |} * u3 q1 |},
        {| rho := r; pgas := p; u1 := u1 q1; u2 := u2 q1; u3 := u3 q1 |})
      else (c, {| rho := r; pgas := p; u1 := u1 q1; u2 := u2 q1; u3 := u3 q1 |}))).
    { intros q1 fx L. destruct (ltR (rho q1) (dfloor e)) eqn:C1; destruct (ltR (pgas q1) (pfloor e)) eqn:C2; rewrite ?ltR_true, ?ltR_false in C1; rewrite ?ltR_true, ?ltR_false in C2.
      - apply (X {| rho := dfloor e; pgas := pfloor e; u1 := u1 q1; u2 := u2 q1; u3 := u3 q1 |} true); cbn [rho pgas u1 u2 u3]; lra.
      - apply (X {| rho := dfloor e; pgas := pgas q1; u1 := u1 q1; u2 := u2 q1; u3 := u3 q1 |} true); cbn [rho pgas u1 u2 u3]; lra.
      - apply (X {| rho := rho q1; pgas := pfloor e; u1 := u1 q1; u2 := u2 q1; u3 := u3 q1 |} true); cbn [rho pgas u1 u2 u3]; lra.
      - apply (X {| rho := rho q1; pgas := pgas q1; u1 := u1 q1; u2 := u2 q1; u3 := u3 q1 |} fx); cbn [rho pgas u1 u2 u3]; lra. }
    destruct (ltR (gmax e) ga) eqn:C; rewrite ?ltR_true, ?ltR_false in C.
    + apply (Y {| rho := rho q; pgas := pgas q; u1 := _; u2 := _; u3 := _ |} true). cbn [u1 u2 u3]. rewrite lfac_scaled.
      pose proof (lfac_sq (u1 q) (u2 q) (u3 q)) as S. rewrite <- Hs in S. assert (U : usq (u1 q) (u2 q) (u3 q) = ga * ga - 1) by lra. rewrite U.
      assert (P : 0 < ga * ga - 1) by nra. assert (Q : 0 <= gmax e * gmax e - 1) by nra.
      rewrite sqrt_sqrt by (apply Rmult_le_pos; [lra | left; apply Rinv_0_lt_compat; lra]).
      replace (1 + (gmax e * gmax e - 1) / (ga * ga - 1) * (ga * ga - 1)) with (gmax e * gmax e) by (field; lra). rewrite sqrt_square by lra. lra.
    + apply Y. lra.
  - specialize (Hf eq_refl). subst fixed.
    assert (Z : settled e c ({| DD := dfloor e * lorentz {| rho := dfloor e; pgas := pfloor e; u1 := 0; u2 := 0; u3 := 0 |};
          EE := (dfloor e + gam e / (gam e - 1) * pfloor e) * (lorentz {| rho := dfloor e; pgas := pfloor e; u1 := 0; u2 := 0; u3 := 0 |} * lorentz {| rho := dfloor e; pgas := pfloor e; u1 := 0; u2 := 0; u3 := 0 |}) - pfloor e;
          MM1 := (dfloor e + gam e / (gam e - 1) * pfloor e) * lorentz {| rho := dfloor e; pgas := pfloor e; u1 := 0; u2 := 0; u3 := 0 |} * 0;
          MM2 := (dfloor e + gam e / (gam e - 1) * pfloor e) * lorentz {| rho := dfloor e; pgas := pfloor e; u1 := 0; u2 := 0; u3 := 0 |} * 0;
          MM3 := (dfloor e + gam e / (gam e - 1) * pfloor e) * lorentz {| rho := dfloor e; pgas := pfloor e; u1 := 0; u2 := 0; u3 := 0 |} * 0 |},
        {| rho := dfloor e; pgas := pfloor e; u1 := 0; u2 := 0; u3 := 0 |})).
    { apply (X {| rho := dfloor e; pgas := pfloor e; u1 := 0; u2 := 0; u3 := 0 |} true); cbn [rho pgas u1 u2 u3]; try lra.
      replace (lfac 0 0 0) with 1; [exact Hm | ]. unfold lfac, usq. replace (1 + (0 ^ 2 + 0 ^ 2 + 0 ^ 2)) with 1 by ring. symmetry. apply sqrt_1. }
    destruct (ltR (gmax e) (lorentz q)); cbn [rho pgas u1 u2 u3];
      (destruct (ltR (rho q) (dfloor e)); destruct (ltR (pgas q) (pfloor e)); exact Z).
Qed.
Lemma c2p_settled e c w :
  1 < gam e -> 0 < dfloor e -> 0 < pfloor e -> 1 <= gmax e -> settled e c (ConservedToPrimitive e c w).
Proof.
  intros Hg Hd Hp Hx. pose proof tol_pos as T0. pose proof tol_small as T1. unfold ConservedToPrimitive.
  assert (Em : 0 < dfloor e + pfloor e / (gam e - 1)) by (assert (0 < pfloor e / (gam e - 1)) by (apply Rdiv_lt_0_compat; lra); lra).
  set (em := dfloor e + pfloor e / (gam e - 1)) in *. clearbody em.
  assert (G : forall dd ee msq mm1 mm2 mm3 fixed, 0 < ee -> msq = mm1 * mm1 + mm2 * mm2 + mm3 * mm3 -> msq <= (1 - tol) * (ee * ee) -> settled e c (
  let rho_old := Rmax (rho w) (dfloor e) in
  let pgas_old := Rmax (pgas w) (pfloor e) in
  let fallback := {| rho := rho_old; pgas := pgas_old; u1 := u1 w; u2 := u2 w; u3 := u3 w |} in
  let '(q, ga, success, fixed) :=
    match ConservedToPrimitiveNormal (gam e) dd ee msq mm1 mm2 mm3 pgas_old with
    | None => (fallback, 0, false, true)
    | Some (q, ga) =>
      let rho_add := Rmax (dfloor e - rho q) 0 in
      let pgas_add := Rmax (pfloor e - pgas q) 0 in
      if ltR 0 rho_add || ltR 0 pgas_add then
        let wgas_add := rho_add + gam e / (gam e - 1) * pgas_add in
        match ConservedToPrimitiveNormal (gam e) (dd + rho_add * ga) (ee + (wgas_add * (ga * ga) + pgas_add)) msq mm1 mm2 mm3 pgas_old with
        | None => (fallback, ga, false, true)
        | Some (q, ga) => (q, ga, true, true)
        end
      else (q, ga, true, fixed)
    end in
  let ga := if success then ga else lorentz q in
  let '(q, fixed) :=
    if ltR (gmax e) ga then
      (let factor := sqrt ((gmax e * gmax e - 1) / (ga * ga - 1)) in
       ({| rho := rho q; pgas := pgas q; u1 := u1 q * factor; u2 := u2 q * factor; u3 := u3 q * factor |}, true))
    else (q, fixed) in
  let '(r, fixed) := if ltR (rho q) (dfloor e) then (dfloor e, true) else (rho q, fixed) in
  let '(p, fixed) := if ltR (pgas q) (pfloor e) then (pfloor e, true) else (pgas q, fixed) in
  let q := if success then {| rho := r; pgas := p; u1 := u1 q; u2 := u2 q; u3 := u3 q |} else {| rho := dfloor e; pgas := pfloor e; u1 := 0; u2 := 0; u3 := 0 |} in
  if fixed : bool then
    let wgas := rho q + gam e / (gam e - 1) * pgas q in
    let ga := lorentz q in
    ({| DD := rho q * ga; EE := wgas * (ga * ga) - pgas q; MM1 := wgas * ga * u1 q; MM2 := wgas * ga * u2 q; MM3 := wgas * ga * u3 q |}, q)
  else (c, q))).
  { intros dd ee msq mm1 mm2 mm3 fixed E0 -> Hb. cbv zeta.
    destruct (ConservedToPrimitiveNormal (gam e) dd ee _ mm1 mm2 mm3 _) as [[q ga] | ] eqn:N1.
    - destruct (ltR 0 (Rmax (dfloor e - rho q) 0) || ltR 0 (Rmax (pfloor e - pgas q) 0)) eqn:C.
      + match goal with |- context [ConservedToPrimitiveNormal (gam e) ?x ?y ?z ?a ?b ?d ?f] => destruct (ConservedToPrimitiveNormal (gam e) x y z a b d f) as [[q' ga'] | ] eqn:N2 end.
        * apply (finish_settled e c q' ga' true true Hx); [intros _ | discriminate].
          assert (K : 0 <= (Rmax (dfloor e - rho q) 0 + gam e / (gam e - 1) * Rmax (pfloor e - pgas q) 0) * (ga * ga) + Rmax (pfloor e - pgas q) 0).
          { pose proof (Rmax_r (dfloor e - rho q) 0). pose proof (Rmax_r (pfloor e - pgas q) 0). assert (0 < gam e / (gam e - 1)) by (apply Rdiv_lt_0_compat; lra).
            assert (0 <= ga * ga) by nra. apply Rplus_le_le_0_compat; [ | lra]. apply Rmult_le_pos; [ | lra]. apply Rplus_le_le_0_compat; [lra | apply Rmult_le_pos; lra]. }
          eapply normal_result in N2; [decompose [and] N2; assumption | lra | ].
          apply Rle_trans with (1 := Hb). apply Rmult_le_compat_l; [lra | nra].
        * apply (finish_settled e c _ ga false true Hx); [discriminate | reflexivity].
      + apply (finish_settled e c q ga true fixed Hx); [intros _ | discriminate]. eapply normal_result in N1; [decompose [and] N1; assumption | lra | exact Hb].
    - apply (finish_settled e c _ 0 false true Hx); [discriminate | reflexivity]. }
  assert (G2 : forall dd ee fixed, 0 < ee -> settled e c (let '(mm_sq, mm1, mm2, mm3, fixed) :=
    if ltR ((1 - tol) * (ee * ee)) (MM1 c * MM1 c + MM2 c * MM2 c + MM3 c * MM3 c) then (let factor := sqrt ((1 - tol) * (ee * ee) / (MM1 c * MM1 c + MM2 c * MM2 c + MM3 c * MM3 c)) in ((1 - tol) * (ee * ee), MM1 c * factor, MM2 c * factor, MM3 c * factor, true))
    else (MM1 c * MM1 c + MM2 c * MM2 c + MM3 c * MM3 c, MM1 c, MM2 c, MM3 c, fixed) in
  let rho_old := Rmax (rho w) (dfloor e) in
  let pgas_old := Rmax (pgas w) (pfloor e) in
  let fallback := {| rho := rho_old; pgas := pgas_old; u1 := u1 w; u2 := u2 w; u3 := u3 w |} in
  let '(q, ga, success, fixed) :=
    match ConservedToPrimitiveNormal (gam e) dd ee mm_sq mm1 mm2 mm3 pgas_old with
    | None => (fallback, 0, false, true)
    | Some (q, ga) =>
      let rho_add := Rmax (dfloor e - rho q) 0 in
      let pgas_add := Rmax (pfloor e - pgas q) 0 in
      if ltR 0 rho_add || ltR 0 pgas_add then
        let wgas_add := rho_add + gam e / (gam e - 1) * pgas_add in
        match ConservedToPrimitiveNormal (gam e) (dd + rho_add * ga) (ee + (wgas_add * (ga * ga) + pgas_add)) mm_sq mm1 mm2 mm3 pgas_old with
        | None => (fallback, ga, false, true)
        | Some (q, ga) => (q, ga, true, true)
        end
      else (q, ga, true, fixed)
    end in
  let ga := if success then ga else lorentz q in
  let '(q, fixed) :=
    if ltR (gmax e) ga then
      (let factor := sqrt ((gmax e * gmax e - 1) / (ga * ga - 1)) in
       ({| rho := rho q; pgas := pgas q; u1 := u1 q * factor; u2 := u2 q * factor; u3 := u3 q * factor |}, true))
    else (q, fixed) in
  let '(r, fixed) := if ltR (rho q) (dfloor e) then (dfloor e, true) else (rho q, fixed) in
  let '(p, fixed) := if ltR (pgas q) (pfloor e) then (pfloor e, true) else (pgas q, fixed) in
  let q := if success then {| rho := r; pgas := p; u1 := u1 q; u2 := u2 q; u3 := u3 q |} else {| rho := dfloor e; pgas := pfloor e; u1 := 0; u2 := 0; u3 := 0 |} in
  if fixed : bool then
    let wgas := rho q + gam e / (gam e - 1) * pgas q in
    let ga := lorentz q in
    ({| DD := rho q * ga; EE := wgas * (ga * ga) - pgas q; MM1 := wgas * ga * u1 q; MM2 := wgas * ga * u2 q; MM3 := wgas * ga * u3 q |}, q)
  else (c, q))).
  { intros dd ee fixed E0. assert (EP : 0 < ee * ee) by nra. assert (B0 : 0 < (1 - tol) * (ee * ee)) by (apply Rmult_lt_0_compat; lra).
    destruct (ltR ((1 - tol) * (ee * ee)) _) eqn:C; rewrite ?ltR_true, ?ltR_false in C.
    - cbv beta iota zeta. apply (G dd ee _ _ _ _ true E0); [ | lra]. symmetry. apply mm_rescaled; [lra | lra | reflexivity].
    - apply (G dd ee _ _ _ _ fixed E0); [reflexivity | lra]. }
  destruct (ltR (DD c) (dfloor e)); destruct (ltR (EE c) em) eqn:C2; rewrite ?ltR_true, ?ltR_false in C2.
  - exact (G2 (dfloor e) em true Em).
  - exact (G2 (dfloor e) (EE c) true ltac:(lra)).
  - exact (G2 (DD c) em true Em).
  - exact (G2 (DD c) (EE c) false ltac:(lra)).
Qed.
