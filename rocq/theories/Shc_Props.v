(** C97: the HLLC solver of special-relativistic hydrodynamics. *)
From Coq Require Import Reals Lra Bool PeanoNat.
From Verif Require Import Time_Model Time_Proofs Sr_Model Sr_Spec Sr_Proofs2 Sr_Proofs4 Srr_Model Srr_Spec Srr_Proofs Srr_Props Shc_Model Shc_Proofs.
Local Open Scope R_scope.

(** The energy flux of the averaged fan is zero or above the threshold below which the code drops the quadratic term. *)
Definition regular (T g : R) (wl wr : prim) : Prop := EE (flux_hll g wl wr) = 0 \/ T < Rabs (EE (flux_hll g wl wr)).

Section Fan.
Variables (T g : R) (wl wr : prim).
Hypothesis T0 : 0 <= T.
Hypothesis G : 1 < g <= 2.
Hypothesis Gl : gas_ok wl.
Hypothesis Gr : gas_ok wr.
Hypothesis Reg : regular T g wl wr.
Notation a := (lambda_l g wl wr).
Notation b := (lambda_r g wl wr).
Notation A := (EE (cons_hll g wl wr)).
Notation B := (EE (flux_hll g wl wr)).
Notation C := (MM1 (flux_hll g wl wr)).
Notation M := (MM1 (cons_hll g wl wr)).
Notation x := (lambda_star T g wl wr).
Lemma sides : a <= snd (lambdas g wl) /\ a <= snd (lambdas g wr) /\ fst (lambdas g wl) <= b /\ fst (lambdas g wr) <= b.
Proof using. unfold lambda_l, lambda_r. repeat split; first [apply Rmin_l | apply Rmin_r | apply Rmax_l | apply Rmax_r]. Qed.
Lemma hll_values : a < b ->
  A = (b * EE (cons_of g wr) - a * EE (cons_of g wl) + MM1 (cons_of g wl) - MM1 (cons_of g wr)) / (b - a) /\
  B = (b * MM1 (cons_of g wl) - a * MM1 (cons_of g wr) + a * b * (EE (cons_of g wr) - EE (cons_of g wl))) / (b - a) /\
  M = (b * MM1 (cons_of g wr) - a * MM1 (cons_of g wl) + MM1 (flux_of g wl) - MM1 (flux_of g wr)) / (b - a) /\
  C = (b * MM1 (flux_of g wl) - a * MM1 (flux_of g wr) + a * b * (MM1 (cons_of g wr) - MM1 (cons_of g wl))) / (b - a).
Proof using.
  intro O. destruct (energy_momentum g wl) as (_ & El & _). destruct (energy_momentum g wr) as (_ & Er & _). unfold cons_hll, flux_hll, each. cbv zeta. cbn [EE MM1]. rewrite El, Er. repeat split; field; lra.
Qed.
Lemma ends : GG A B C M 1 < 0 /\ 0 < GG A B C M (-1).
Proof using G Gl Gr.
  destruct (lambda_order g wl wr G Gl Gr) as (O1 & O2 & O3). destruct sides as (S1 & S2 & S3 & S4). destruct (hll_values O2) as (EA & EB & EM & EC).
  pose proof (excess_E g wr b G Gr S4 O3) as XR. pose proof (excess_E_left g wl a G Gl S1 O1) as XL. unfold GG. rewrite EA, EB, EM, EC.
  set (p := a) in *. set (q := b) in *. clearbody p q. set (el := EE (cons_of g wl)) in *. set (er := EE (cons_of g wr)) in *. set (ml := MM1 (cons_of g wl)) in *. set (mr := MM1 (cons_of g wr)) in *. set (fl := MM1 (flux_of g wl)) in *. set (fr := MM1 (flux_of g wr)) in *. clearbody el er ml mr fl fr.
  pose proof (Rle_abs (q * mr - fr)) as Y1. pose proof (Rle_abs (- (q * mr - fr))) as Y2. rewrite Rabs_Ropp in Y2. pose proof (Rle_abs (fl - p * ml)) as Y3. pose proof (Rle_abs (- (fl - p * ml))) as Y4. rewrite Rabs_Ropp in Y4.
  assert (I : 0 < / (q - p)) by (apply Rinv_0_lt_compat; lra). split.
  - match goal with |- ?e < 0 => replace e with (- (((1 - p) * ((q * er - mr) - (q * mr - fr)) + (1 - q) * ((ml - p * el) - (fl - p * ml))) * / (q - p))) by (field; lra) end.
    assert (0 < ((1 - p) * ((q * er - mr) - (q * mr - fr)) + (1 - q) * ((ml - p * el) - (fl - p * ml))) * / (q - p)) by (apply Rmult_lt_0_compat; [apply Rplus_lt_0_compat; apply Rmult_lt_0_compat; lra | exact I]). lra.
  - match goal with |- 0 < ?e => replace e with (((1 + p) * ((q * er - mr) + (q * mr - fr)) + (1 + q) * ((ml - p * el) + (fl - p * ml))) * / (q - p)) by (field; lra) end.
    apply Rmult_lt_0_compat; [apply Rplus_lt_0_compat; apply Rmult_lt_0_compat; lra | exact I].
Qed.
Lemma star_root : -1 < x < 1 /\ GG A B C M x = 0.
Proof using T0 G Gl Gr Reg.
  destruct ends as (H1 & H2). pose proof (root A B C M H1 H2) as R. cbv zeta in R. assert (P : 0 < A + C) by (unfold GG in H1, H2; lra). unfold lambda_star. cbv zeta. destruct (ltR T (Rabs B)) eqn:K.
  - replace (- (A + C) * - (A + C) - 4 * B * M) with ((A + C) * (A + C) - 4 * B * M) by ring. pose proof (sqrt_pos ((A + C) * (A + C) - 4 * B * M)) as S. set (s := sqrt ((A + C) * (A + C) - 4 * B * M)) in *.
    replace (-2 * M / (- (A + C) - s)) with (2 * M / (A + C + s)) by (field; split; lra). exact R.
  - apply ltR_false in K. assert (Z : B = 0) by (destruct Reg as [Z | Z]; [exact Z | lra]). rewrite Z in R. replace ((A + C) * (A + C) - 4 * 0 * M) with ((A + C) * (A + C)) in R by ring. rewrite sqrt_square in R by lra.
    replace (- M / - (A + C)) with (2 * M / (A + C + (A + C))) by (field; lra). rewrite Z. exact R.
Qed.
Lemma star_between : a < x < b.
Proof using T0 G Gl Gr Reg.
  destruct (lambda_order g wl wr G Gl Gr) as (O1 & O2 & O3). destruct sides as (S1 & S2 & S3 & S4). destruct ends as (H1 & H2). destruct star_root as (X1 & X2).
  assert (sq : forall t, 0 <= t * t) by (intro t; pose proof (Rle_0_sqr t) as Z; exact Z). assert (pr : forall t u, -1 < t < 1 -> -1 < u < 1 -> 0 < 1 - t * u) by (intros t u Ht Hu; clear - Ht Hu; nra).
  apply (root_inside A B C M); try assumption.
  - destruct (hll_values O2) as (EA & EB & EM & EC). pose proof (work g wr a b G Gr O1 S2 S4 O3) as W. pose proof (excess_E_left g wl a G Gl S1 O1) as XL. destruct (energy_momentum g wl) as (V1 & _ & V2). destruct (lambdas_ok g wl G Gl) as (L1 & L2 & L3). pose proof Gl as (Hr & Hp).
    assert (Q : 0 < a * a * EE (cons_of g wl) - 2 * a * MM1 (cons_of g wl) + MM1 (flux_of g wl)). { rewrite V2, V1. pose proof (cons_admissible g wl G Gl) as (_ & E0 & _). set (v := velocity wl) in *. set (e := EE (cons_of g wl)) in *. set (p := pgas wl) in *. replace (a * a * e - 2 * a * ((e + p) * v) + ((e + p) * v * v + p)) with ((e + p) * ((a - v) * (a - v)) + p * (1 - a * a)) by ring. assert (0 <= (e + p) * ((a - v) * (a - v))) by (apply Rmult_le_pos; [lra | apply sq]). assert (0 < p * (1 - a * a)) by (apply Rmult_lt_0_compat; [exact Hp | apply pr; lra]). lra. }
    unfold GG, HH in *. rewrite EA, EB, EM, EC. set (p := a) in *. set (q := b) in *. clearbody p q.
    match goal with |- 0 < ?e => replace e with (((MM1 (cons_of g wr) * (p + q) - p * q * EE (cons_of g wr) - MM1 (flux_of g wr)) * (1 - p * p) + (p * p * EE (cons_of g wl) - 2 * p * MM1 (cons_of g wl) + MM1 (flux_of g wl)) * (1 - q * p)) / (q - p)) by (field; lra) end.
    apply Rdiv_lt_0_compat; [ | lra]. apply Rplus_lt_0_compat; apply Rmult_lt_0_compat; try assumption; apply pr; lra.
  - destruct (hll_values O2) as (EA & EB & EM & EC). pose proof (work g wl a b G Gl O1 S1 S3 O3) as W. destruct (energy_momentum g wr) as (V1 & _ & V2). pose proof Gr as (Hr & Hp).
    assert (Q : 0 < b * b * EE (cons_of g wr) - 2 * b * MM1 (cons_of g wr) + MM1 (flux_of g wr)). { rewrite V2, V1. pose proof (cons_admissible g wr G Gr) as (_ & E0 & _). set (v := velocity wr) in *. set (e := EE (cons_of g wr)) in *. set (p := pgas wr) in *. replace (b * b * e - 2 * b * ((e + p) * v) + ((e + p) * v * v + p)) with ((e + p) * ((b - v) * (b - v)) + p * (1 - b * b)) by ring. assert (0 <= (e + p) * ((b - v) * (b - v))) by (apply Rmult_le_pos; [lra | apply sq]). assert (0 < p * (1 - b * b)) by (apply Rmult_lt_0_compat; [exact Hp | apply pr; lra]). lra. }
    unfold GG, HH in *. rewrite EA, EB, EM, EC. set (p := a) in *. set (q := b) in *. clearbody p q.
    match goal with |- ?e < 0 => replace e with (- (((MM1 (cons_of g wl) * (p + q) - p * q * EE (cons_of g wl) - MM1 (flux_of g wl)) * (1 - q * q) + (q * q * EE (cons_of g wr) - 2 * q * MM1 (cons_of g wr) + MM1 (flux_of g wr)) * (1 - q * p)) / (q - p))) by (field; lra) end.
    apply Ropp_lt_gt_0_contravar. apply Rdiv_lt_0_compat; [ | lra]. apply Rplus_lt_0_compat; apply Rmult_lt_0_compat; try assumption; apply pr; lra.
Qed.
Lemma star_carried s w : (s = a /\ w = wl) \/ (s = b /\ w = wr) -> flux_star g s x (pgas_star T g wl wr) w = carried (cons_star g s x (pgas_star T g wl wr) w) x (pgas_star T g wl wr).
Proof using T0 G Gl Gr Reg.
  intro Hs. destruct (lambda_order g wl wr G Gl Gr) as (O1 & O2 & O3). destruct star_root as (_ & X2). pose proof star_between as XB. assert (NE : s - x <> 0) by (destruct Hs as [[-> _] | [-> _]]; lra).
  destruct (energy_momentum g w) as (V1 & V2 & V3). assert (J1 : B = s * A - (s * EE (cons_of g w) - MM1 (cons_of g w)) /\ C = s * M - (s * MM1 (cons_of g w) - MM1 (flux_of g w))).
  { destruct (hll_values O2) as (EA & EB & EM & EC). rewrite EA, EB, EM, EC. destruct Hs as [[-> ->] | [-> ->]]; split; field; lra. }
  destruct J1 as (JB & JC). unfold pgas_star. set (y := x) in *. set (ps := - B * y + C). assert (P : ps * (1 - s * y) = (s * EE (cons_of g w) - MM1 (cons_of g w)) * y - (s * MM1 (cons_of g w) - MM1 (flux_of g w))).
  { assert (R : A * y - M + y * ps = 0) by (unfold ps; unfold GG in X2; lra). replace (ps * (1 - s * y)) with (ps - s * (y * ps)) by ring. replace (y * ps) with (M - A * y) by lra. unfold ps. rewrite JB, JC. ring. }
  rewrite V3 in P. rewrite V1 in P. pose proof (flux_carried g _ w (cons_describes g w)) as FC. unfold flux_star, cons_star, each. cbv zeta. change (u1 w / lorentz w) with (u1 w / lorentz w). assert (VV : u1 w / lorentz w = velocity w) by (unfold velocity; rewrite lorentz_lfac; reflexivity). rewrite VV, FC. unfold carried. rewrite V1. set (v := velocity w) in *. set (e := EE (cons_of g w)) in *. set (p := pgas w) in *. clearbody v e p ps y. clear FC V1 V2 V3 VV.
  apply cons_ext; cbn [DD EE MM1 MM2 MM3].
  - field. exact NE.
  - apply (Rmult_eq_reg_r (s - y)); [ | exact NE]. match goal with |- ?l = ?r => replace l with ((e + p) * v * (s - y) + s * (e * (s - v) + (ps * y - p * v) - e * (s - y))) by (field; exact NE); replace r with ((e + p) * v * (s - v) + (ps - p)) by (field; exact NE) end. lra.
  - field. exact NE.
  - field. exact NE.
  - field. exact NE.
Qed.
End Fan.

(** The contact is between the outer waves: the flux is that of three waves that satisfy the jump conditions; next to the contact the gas moves with it, with one pressure on both sides and positive density. *)
Theorem C97_fan : forall T g cl cr wl wr, 0 <= T -> 1 < g <= 2 -> gas_ok wl -> gas_ok wr -> regular T g wl wr -> densities g cl wl -> densities g cr wr ->
  lambda_l g wl wr < 0 < lambda_r g wl wr ->
  exists v p c c', lambda_l g wl wr < v < lambda_r g wl wr /\ 0 < DD c /\ 0 < DD c' /\
    jump (lambda_l g wl wr) (carried c v p) c (carried cl (velocity wl) (pgas wl)) cl /\ jump (lambda_r g wl wr) (carried c' v p) c' (carried cr (velocity wr) (pgas wr)) cr /\
    HLLC_SR T g wl wr = if Rle_dec 0 v then carried c v p else carried c' v p.
Proof.
  intros T g cl cr wl wr T0 G Gl Gr Reg Hl Hr (N0 & N4). rewrite <- (flux_carried g cl wl Hl), <- (flux_carried g cr wr Hr), (cons_unique g cl wl Hl), (cons_unique g cr wr Hr).
  pose proof (star_between T g wl wr T0 G Gl Gr Reg) as XB. pose proof (star_carried T g wl wr T0 G Gl Gr Reg) as SC. destruct (sides g wl wr) as (S1 & S2 & S3 & S4). destruct (lambdas_ok g wl G Gl) as (L1 & L2 & L3). destruct (lambdas_ok g wr G Gr) as (R1 & R2 & R3).
  destruct (cons_admissible g wl G Gl) as (DL & _). destruct (cons_admissible g wr G Gr) as (DR & _). assert (VL : u1 wl / lorentz wl = velocity wl) by (unfold velocity; rewrite lorentz_lfac; reflexivity). assert (VR : u1 wr / lorentz wr = velocity wr) by (unfold velocity; rewrite lorentz_lfac; reflexivity).
  pose proof (SC _ _ (or_introl (conj eq_refl eq_refl))) as CL. pose proof (SC _ _ (or_intror (conj eq_refl eq_refl))) as CR. unfold HLLC_SR. cbv zeta. set (ll := lambda_l g wl wr) in *. set (lr := lambda_r g wl wr) in *. set (y := lambda_star T g wl wr) in *. set (ps := pgas_star T g wl wr) in *. clearbody ll lr y ps.
  exists y, ps, (cons_star g ll y ps wl), (cons_star g lr y ps wr). rewrite <- CL, <- CR. split; [exact XB | ]. split; [ | split; [ | split; [ | split]]].
  - unfold cons_star. cbv zeta. cbn [DD]. rewrite VL. set (d := DD (cons_of g wl)) in *. replace (d * (ll - velocity wl) * (1 / (ll - y))) with (d * (velocity wl - ll) / (y - ll)) by (field; lra). apply Rdiv_lt_0_compat; [apply Rmult_lt_0_compat; lra | lra].
  - unfold cons_star. cbv zeta. cbn [DD]. rewrite VR. set (d := DD (cons_of g wr)) in *. replace (d * (lr - velocity wr) * (1 / (lr - y))) with (d * (lr - velocity wr) / (lr - y)) by (field; lra). apply Rdiv_lt_0_compat; [apply Rmult_lt_0_compat; lra | lra].
  - unfold jump, across, flux_star, each. cbn [DD EE MM1 MM2 MM3]. repeat split; ring.
  - unfold jump, across, flux_star, each. cbn [DD EE MM1 MM2 MM3]. repeat split; ring.
  - replace (leR 0 ll) with false by (symmetry; apply leR_false; exact N0). replace (leR lr 0) with false by (symmetry; apply leR_false; exact N4). unfold leR. destruct (Rle_dec 0 y); reflexivity.
Qed.
Print Assumptions C97_fan.

(** When all waves move in one direction the flux is that of the gas upstream. *)
Theorem C97_upwind : forall T g cl cr wl wr, 1 < g <= 2 -> gas_ok wl -> gas_ok wr -> densities g cl wl -> densities g cr wr ->
  (0 <= lambda_l g wl wr -> HLLC_SR T g wl wr = carried cl (velocity wl) (pgas wl)) /\ (lambda_r g wl wr <= 0 -> HLLC_SR T g wl wr = carried cr (velocity wr) (pgas wr)).
Proof.
  intros T g cl cr wl wr G Gl Gr Hl Hr. rewrite <- (flux_carried g cl wl Hl), <- (flux_carried g cr wr Hr). destruct (lambda_order g wl wr G Gl Gr) as (_ & O & _). unfold HLLC_SR. cbv zeta. split; intro H.
  - replace (leR 0 (lambda_l g wl wr)) with true; [reflexivity | ]. symmetry. apply leR_true. exact H.
  - replace (leR 0 (lambda_l g wl wr)) with false by (symmetry; apply leR_false; lra). replace (leR (lambda_r g wl wr) 0) with true; [reflexivity | ]. symmetry. apply leR_true. exact H.
Qed.
Print Assumptions C97_upwind.

(** A contact, where only density and tangential motion jump, is resolved exactly. *)
Theorem C97_contact : forall T g cl cr wl wr, 0 <= T -> 1 < g <= 2 -> gas_ok wl -> gas_ok wr -> regular T g wl wr -> densities g cl wl -> densities g cr wr ->
  velocity wr = velocity wl -> pgas wr = pgas wl ->
  HLLC_SR T g wl wr = if Rle_dec 0 (velocity wl) then carried cl (velocity wl) (pgas wl) else carried cr (velocity wr) (pgas wr).
Proof.
  intros T g cl cr wl wr T0 G Gl Gr Reg Hl Hr EV EP. rewrite <- (flux_carried g cl wl Hl), <- (flux_carried g cr wr Hr). destruct (lambda_order g wl wr G Gl Gr) as (O1 & O2 & O3). destruct (sides g wl wr) as (S1 & S2 & S3 & S4). destruct (lambdas_ok g wl G Gl) as (L1 & L2 & L3).
  destruct (ends g wl wr G Gl Gr) as (H1 & H2). destruct (star_root T g wl wr T0 G Gl Gr Reg) as (X1 & X2). destruct (hll_values g wl wr O2) as (EA & EB & EM & EC). destruct (energy_momentum g wl) as (V1 & V2 & V3). destruct (energy_momentum g wr) as (W1 & W2 & W3). rewrite EV, EP in *.
  assert (RV : GG (EE (cons_hll g wl wr)) (EE (flux_hll g wl wr)) (MM1 (flux_hll g wl wr)) (MM1 (cons_hll g wl wr)) (velocity wl) = 0).
  { rewrite EA, EB, EM, EC, V3, W3, V1, W1. unfold GG. set (v := velocity wl). set (p := pgas wl). set (a := lambda_l g wl wr) in *. set (b := lambda_r g wl wr) in *. clearbody v p a b. field. lra. }
  assert (XV : lambda_star T g wl wr = velocity wl) by (apply (root_unique _ _ _ _ _ _ H1 H2 X1); [lra | exact X2 | exact RV]).
  assert (PS : pgas_star T g wl wr = pgas wl). { unfold pgas_star. rewrite XV, EB, EC, V3, W3, V1, W1. set (v := velocity wl). set (p := pgas wl). set (a := lambda_l g wl wr) in *. set (b := lambda_r g wl wr) in *. clearbody v p a b. field. lra. }
  assert (ST : forall s w, s <> velocity wl -> velocity w = velocity wl -> pgas w = pgas wl -> flux_star g s (velocity wl) (pgas wl) w = flux_of g w).
  { intros s w NE Ev Ep. assert (VV : u1 w / lorentz w = velocity wl) by (rewrite <- Ev; unfold velocity; rewrite lorentz_lfac; reflexivity). unfold flux_star, cons_star, each. cbv zeta. rewrite VV, Ep. assert (N : s - velocity wl <> 0) by lra. apply cons_ext; cbn [DD EE MM1 MM2 MM3]; field; exact N. }
  unfold HLLC_SR. cbv zeta. rewrite XV, PS. rewrite !ST by (first [reflexivity | assumption | lra]).
  destruct (leR 0 (lambda_l g wl wr)) eqn:K1; [apply leR_true in K1 | apply leR_false in K1]; [destruct (Rle_dec 0 (velocity wl)); [reflexivity | exfalso; lra] | ].
  destruct (leR (lambda_r g wl wr) 0) eqn:K2; [apply leR_true in K2 | apply leR_false in K2]; [destruct (Rle_dec 0 (velocity wl)); [exfalso; lra | reflexivity] | ]. unfold leR. destruct (Rle_dec 0 (velocity wl)); reflexivity.
Qed.
Print Assumptions C97_contact.
Theorem C97_consistent : forall T g c w, 0 <= T -> 1 < g <= 2 -> gas_ok w -> densities g c w -> (MM1 c = 0 \/ T < Rabs (MM1 c)) -> HLLC_SR T g w w = carried c (velocity w) (pgas w).
Proof.
  intros T g c w T0 G Gw H N. assert (Reg : regular T g w w).
  { unfold regular. destruct (lambda_order g w w G Gw Gw) as (_ & O2 & _). destruct (hll_values g w w O2) as (_ & EB & _). assert (E : EE (flux_hll g w w) = MM1 c) by (rewrite EB, (cons_unique g c w H); field; lra). rewrite E. exact N. }
  rewrite (C97_contact T g c c w w T0 G Gw Gw Reg H H eq_refl eq_refl). destruct (Rle_dec 0 (velocity w)); reflexivity.
Qed.
Print Assumptions C97_consistent.

(** Examples: the gas of C96 streaming against its mirror image; the same gas on both sides. *)
Example ex_consistent : MM1 (cons_of 2 fast) = 15 / 2 /\ / 10 ^ 20 < Rabs (MM1 (cons_of 2 fast)).
Proof. assert (E : MM1 (cons_of 2 fast) = 15 / 2) by (unfold cons_of; rewrite fast_lorentz; unfold wgas, fast; cbn; field). split; [exact E | ]. rewrite E, Rabs_right by lra. apply Rlt_trans with 1; [ | lra]. rewrite <- Rinv_1. apply Rinv_1_lt_contravar; [lra | ]. apply Rlt_pow_R1; [lra | apply Nat.lt_0_succ]. Qed.
Example ex_fan : regular (/ 10 ^ 20) 2 fast (mirror fast) /\ lambda_l 2 fast (mirror fast) < 0 < lambda_r 2 fast (mirror fast).
Proof.
  destruct ex_collision as (A & B & _). split; [left | rewrite A, B; lra]. destruct (hll_values 2 fast (mirror fast) ltac:(rewrite A, B; lra)) as (_ & E & _). rewrite E, A, B, cons_mirror. cbn [umirror EE MM1]. field.
Qed.
