From Coq Require Import Reals ZArith Bool Lra Psatz.
From Verif Require Import Time_Model Time_Proofs Eos_Model Eos_Proofs Rie_Model Rie_Spec.
Local Open Scope R_scope.

Lemma cons_eq : forall a b c d e a' b' c' d' e', a = a' -> b = b' -> c = c' -> d = d' -> e = e' -> mkU a b c d e = mkU a' b' c' d' e'.
Proof. intros. subst. reflexivity. Qed.
Lemma pr_P : forall e w, pr e w = P e w.
Proof. intros [g|c] w; unfold pr, P; [reflexivity | ring]. Qed.
Lemma en_E : forall e w, en e w = E e w.
Proof. intros [g|c] w; unfold en, E, SQR; [| reflexivity]. set (x := w_p w / (g - 1)). field. Qed.

(** The conserved variables of a state. *)
Definition uof (e : eos) (w : prim) : cons := mkU (w_d w) (w_d w * w_vx w) (w_d w * w_vy w) (w_d w * w_vz w) (E e w).
Definition sub (b : R) (f u : cons) : cons := map3 (fun f u _ => f - b * u) f u u.
Lemma flux_along_eq : forall e b w, flux_along e b w = sub b (physical e w) (uof e w).
Proof.
  intros e b w. unfold flux_along, sub, map3, physical, uof. cbn [u_d u_m1 u_m2 u_m3 u_e]. rewrite pr_P, en_E.
  apply cons_eq; try ring. destruct e; unfold if_energy; [ring | unfold E; ring].
Qed.
Lemma flux_llf_eq : forall e w, flux_llf e w = physical e w.
Proof. intros e w. unfold flux_llf, physical. rewrite pr_P, en_E. apply cons_eq; try ring. destruct e; reflexivity. Qed.
Lemma du_eq : forall e wl wr, du e wl wr = map3 (fun l r _ => r - l) (uof e wl) (uof e wr) (uof e wr).
Proof.
  intros e wl wr. unfold du, map3, uof. cbn [u_d u_m1 u_m2 u_m3 u_e]. rewrite !en_E. apply cons_eq; try ring. destruct e; unfold if_energy; [reflexivity | unfold E; ring].
Qed.
Lemma uof_mirror : forall e w, uof e (mirror w) = mkU (w_d w) (- (w_d w * w_vx w)) (w_d w * w_vy w) (w_d w * w_vz w) (E e w).
Proof. intros e w. unfold uof, mirror. cbn [w_d w_vx w_vy w_vz]. apply cons_eq; try ring. destruct e; unfold E; cbn [w_d w_vx w_vy w_vz w_p]; [unfold Rdiv; ring | reflexivity]. Qed.
Lemma physical_mirror : forall e w, physical e (mirror w) = mirror_flux (physical e w).
Proof.
  intros e w.
  assert (EE : E e (mirror w) = E e w) by (destruct e; unfold E, mirror; cbn [w_d w_vx w_vy w_vz w_p]; [unfold Rdiv; ring | reflexivity]).
  assert (PP : P e (mirror w) = P e w) by (destruct e; reflexivity).
  unfold physical, mirror_flux. rewrite EE, PP. unfold mirror. cbn [u_d u_m1 u_m2 u_m3 u_e w_d w_vx w_vy w_vz].
  apply cons_eq; try ring. destruct e; ring.
Qed.
Lemma cs_mirror : forall e w, cs e (mirror w) = cs e w.
Proof. intros [g|c] w; reflexivity. Qed.
Lemma cs_pos : forall e w, good_eos e -> good e w -> 0 < cs e w.
Proof.
  intros [g|c] w G [D Q]; unfold cs; [| exact G]. unfold SoundSpeed. cbn in G. apply sqrt_lt_R0. apply Rdiv_lt_0_compat; [apply Rmult_lt_0_compat; lra | exact D].
Qed.

(** ** One component at a time. *)
Lemma map3_eq : forall f a b c g, (forall k : cons -> R, (k = u_d \/ k = u_m1 \/ k = u_m2 \/ k = u_m3 \/ k = u_e) -> f (k a) (k b) (k c) = k g) -> map3 f a b c = g.
Proof. intros f a b c g H. unfold map3. rewrite (H u_d), (H u_m1), (H u_m2), (H u_m3), (H u_e) by tauto. destruct g; reflexivity. Qed.
Ltac comp := match goal with H : _ \/ _ |- _ => destruct H as [->|[->|[->|[->| ->]]]] end; cbn [u_d u_m1 u_m2 u_m3 u_e map3].

Lemma LLF_consistent : forall e w, LLF e w w = physical e w.
Proof. intros e w. unfold LLF. cbv zeta. rewrite flux_llf_eq, du_eq. apply map3_eq. intros k H. comp; field. Qed.
Lemma LLF_mirror : forall e wl wr, LLF e (mirror wr) (mirror wl) = mirror_flux (LLF e wl wr).
Proof.
  intros e wl wr. unfold LLF. cbv zeta. rewrite !flux_llf_eq, !du_eq, !uof_mirror, !physical_mirror, !cs_mirror.
  unfold mirror at 1 2. cbn [w_vx]. rewrite !Rabs_Ropp. rewrite Rmax_comm. set (a := 1 / 2 * Rmax _ _). clearbody a.
  unfold map3, mirror_flux, uof. cbn [u_d u_m1 u_m2 u_m3 u_e]. apply cons_eq; field.
Qed.

(** ** HLLE. *)
Lemma plus_nonneg : forall x, 0 <= plus_part x.
Proof. intro x. unfold plus_part. destruct (ltR 0 x) eqn:H; [apply ltR_true in H; lra | lra]. Qed.
Lemma minus_nonpos : forall x, minus_part x <= 0.
Proof. intro x. unfold minus_part. destruct (ltR x 0) eqn:H; [apply ltR_true in H; lra | lra]. Qed.
Lemma plus_opp : forall x, plus_part (- x) = - minus_part x.
Proof.
  intro x. unfold plus_part, minus_part. destruct (ltR 0 (- x)) eqn:H, (ltR x 0) eqn:K; try lra; try apply ltR_true in H; try apply ltR_false in H; try apply ltR_true in K; try apply ltR_false in K; lra.
Qed.
Lemma minus_opp : forall x, minus_part (- x) = - plus_part x.
Proof. intro x. pose proof (plus_opp (- x)) as H. rewrite Ropp_involutive in H. lra. Qed.
Lemma plus_pos : forall x, 0 < x -> plus_part x = x.
Proof. intros x H. unfold plus_part. destruct (ltR 0 x) eqn:K; [reflexivity | apply ltR_false in K; lra]. Qed.
Lemma plus_neg : forall x, x <= 0 -> plus_part x = 0.
Proof. intros x H. unfold plus_part. destruct (ltR 0 x) eqn:K; [apply ltR_true in K; lra | reflexivity]. Qed.
Lemma minus_neg : forall x, x < 0 -> minus_part x = x.
Proof. intros x H. unfold minus_part. destruct (ltR x 0) eqn:K; [reflexivity | apply ltR_false in K; lra]. Qed.
Lemma minus_pos : forall x, 0 <= x -> minus_part x = 0.
Proof. intros x H. unfold minus_part. destruct (ltR x 0) eqn:K; [apply ltR_true in K; lra | reflexivity]. Qed.

Lemma hll_consistent : forall bp bm f u, 0 <= bp -> bm <= 0 -> hll_combine bp bm (f - bm * u) (f - bp * u) = f.
Proof.
  intros bp bm f u A B. unfold hll_combine. destruct (eqR bp bm) eqn:H.
  - apply eqR_true in H. assert (bp = 0) by lra. assert (bm = 0) by lra. subst. field.
  - apply eqR_false in H. field. intro X0. lra.
Qed.
Lemma hll_mirror : forall bp bm fl fr, hll_combine (- bm) (- bp) (- fr) (- fl) = - hll_combine bp bm fl fr.
Proof.
  intros bp bm fl fr. unfold hll_combine. destruct (eqR bp bm) eqn:H; destruct (eqR (- bm) (- bp)) eqn:K.
  - ring.
  - apply eqR_true in H. apply eqR_false in K. exfalso. lra.
  - apply eqR_false in H. apply eqR_true in K. exfalso. lra.
  - apply eqR_false in H. apply eqR_false in K. field. repeat apply conj; intro X0; lra.
Qed.
Lemma hll_opp : forall bp bm fl fr, hll_combine bp bm (- fl) (- fr) = - hll_combine bp bm fl fr.
Proof. intros. unfold hll_combine. set (t := if eqR bp bm then 0 else _). ring. Qed.
Lemma hll_mirror' : forall bp bm fl fr, hll_combine (- bm) (- bp) fr fl = hll_combine bp bm fl fr.
Proof. intros. pose proof (hll_mirror bp bm (- fl) (- fr)) as H. rewrite !Ropp_involutive in H. rewrite H, hll_opp. ring. Qed.
Lemma hll_left : forall bp fl fr, 0 < bp -> hll_combine bp 0 fl fr = fl.
Proof. intros bp fl fr H. unfold hll_combine. destruct (eqR bp 0) eqn:K; [apply eqR_true in K; lra |]. field. intro X0; lra. Qed.
Lemma hll_right : forall bm fl fr, bm < 0 -> hll_combine 0 bm fl fr = fr.
Proof. intros bm fl fr H. unfold hll_combine. destruct (eqR 0 bm) eqn:K; [apply eqR_true in K; lra |]. field. intro X0; lra. Qed.

Lemma roe_mirror : forall e wl wr, roe_average e (mirror wr) (mirror wl) = mirror (roe_average e wl wr).
Proof.
  intros e wl wr. unfold roe_average, mirror. cbn [w_d w_vx w_vy w_vz w_p].
  assert (EE : forall w, en e (mkW (w_d w) (- w_vx w) (w_vy w) (w_vz w) (w_p w)) = en e w)
    by (intro w; destruct e; unfold en; cbn [w_d w_vx w_vy w_vz w_p]; [unfold SQR; ring | reflexivity]).
  rewrite !EE. set (a := sqrt (w_d wl)). set (b := sqrt (w_d wr)). replace (b + a) with (a + b) by ring. set (c := 1 / (a + b)). f_equal; try ring. destruct e; unfold if_energy; ring.
Qed.
Lemma vsq_mirror : forall w, vsq (mirror w) = vsq w.
Proof. intro w. unfold vsq, SQR, mirror. cbn [w_vx w_vy w_vz]. ring. Qed.
Lemma hlle_a_mirror : forall e wl wr, hlle_a e (mirror wr) (mirror wl) = hlle_a e wl wr.
Proof. intros e wl wr. unfold hlle_a. destruct e; [| reflexivity]. rewrite roe_mirror, vsq_mirror. reflexivity. Qed.
Lemma min_opp : forall a b, Rmin (- a) (- b) = - Rmax a b.
Proof. intros. unfold Rmin, Rmax. destruct (Rle_dec (- a) (- b)), (Rle_dec a b); lra. Qed.
Lemma hlle_al_mirror : forall e wl wr, hlle_al e (mirror wr) (mirror wl) = - hlle_ar e wl wr.
Proof.
  intros e wl wr. unfold hlle_al, hlle_ar. rewrite roe_mirror, hlle_a_mirror, cs_mirror. rewrite <- min_opp. unfold mirror. cbn [w_vx]. f_equal; ring.
Qed.
Lemma mirror_twice : forall w, mirror (mirror w) = w.
Proof. intros [d vx vy vz p]. unfold mirror. cbn [w_d w_vx w_vy w_vz w_p]. rewrite Ropp_involutive. reflexivity. Qed.
Lemma hlle_ar_mirror : forall e wl wr, hlle_ar e (mirror wr) (mirror wl) = - hlle_al e wl wr.
Proof. intros e wl wr. pose proof (hlle_al_mirror e (mirror wr) (mirror wl)) as H. rewrite !mirror_twice in H. lra. Qed.

Lemma HLLE_consistent : forall e w, HLLE e w w = physical e w.
Proof.
  intros e w. unfold HLLE. cbv zeta. rewrite !flux_along_eq. apply map3_eq. intros k H.
  pose proof (plus_nonneg (hlle_ar e w w)) as A. pose proof (minus_nonpos (hlle_al e w w)) as B. unfold sub.
  comp; apply hll_consistent; assumption.
Qed.
Lemma HLLE_mirror : forall e wl wr, HLLE e (mirror wr) (mirror wl) = mirror_flux (HLLE e wl wr).
Proof.
  intros e wl wr. unfold HLLE. cbv zeta. rewrite !flux_along_eq, hlle_al_mirror, hlle_ar_mirror, plus_opp, minus_opp, !uof_mirror, !physical_mirror.
  set (bp := plus_part (hlle_ar e wl wr)). set (bm := minus_part (hlle_al e wl wr)). clearbody bp bm.
  unfold map3, mirror_flux, sub, map3. cbn [u_d u_m1 u_m2 u_m3 u_e uof]. unfold uof. cbn [u_d u_m1 u_m2 u_m3 u_e].
  apply cons_eq; try (rewrite <- hll_mirror; f_equal; ring). rewrite <- hll_mirror'. f_equal; ring.
Qed.
(** The Roe-averaged sound speed is positive. *)
Lemma roe_q_pos : forall g wl wr, 1 < g -> good (Adi g) wl -> good (Adi g) wr ->
  0 < w_p (roe_average (Adi g) wl wr) - (1/2) * vsq (roe_average (Adi g) wl wr).
Proof.
  intros g wl wr G [Dl Pl] [Dr Pr]. unfold roe_average. cbn [w_p if_energy]. unfold vsq. cbn [w_vx w_vy w_vz]. unfold en, SQR.
  pose proof (sqrt_lt_R0 _ Dl) as A. pose proof (sqrt_lt_R0 _ Dr) as B.
  pose proof (sqrt_sqrt _ (Rlt_le _ _ Dl)) as A2. pose proof (sqrt_sqrt _ (Rlt_le _ _ Dr)) as B2.
  set (a := sqrt (w_d wl)) in *. set (b := sqrt (w_d wr)) in *. rewrite <- A2, <- B2.
  set (hl := w_p wl / (g - 1) + w_p wl). set (hr := w_p wr / (g - 1) + w_p wr).
  assert (Hl : 0 < hl) by (unfold hl; assert (0 < w_p wl / (g - 1)) by (apply Rdiv_lt_0_compat; lra); lra).
  assert (Hr : 0 < hr) by (unfold hr; assert (0 < w_p wr / (g - 1)) by (apply Rdiv_lt_0_compat; lra); lra).
  replace ((w_p wl / (g - 1) + 1 / 2 * (a * a) * (w_vx wl * w_vx wl + w_vy wl * w_vy wl + w_vz wl * w_vz wl) + w_p wl) / a)
    with (hl / a + (1 / 2) * a * (w_vx wl * w_vx wl + w_vy wl * w_vy wl + w_vz wl * w_vz wl)) by (unfold hl; field; split; intro X0; lra).
  replace ((w_p wr / (g - 1) + 1 / 2 * (b * b) * (w_vx wr * w_vx wr + w_vy wr * w_vy wr + w_vz wr * w_vz wr) + w_p wr) / b)
    with (hr / b + (1 / 2) * b * (w_vx wr * w_vx wr + w_vy wr * w_vy wr + w_vz wr * w_vz wr)) by (unfold hr; field; split; intro X0; lra).
  assert (X : 0 < hl / a + hr / b) by (apply Rplus_lt_0_compat; apply Rdiv_lt_0_compat; assumption).
  assert (Y : 0 < 1 / (a + b)) by (apply Rdiv_lt_0_compat; lra).
  set (x := hl / a + hr / b) in *.
  assert (V : forall p q, (a * p + b * q) * (1 / (a + b)) * ((a * p + b * q) * (1 / (a + b))) <= (a * (p * p) + b * (q * q)) * (1 / (a + b))).
  { intros p q. apply Rminus_le. replace ((a * p + b * q) * (1 / (a + b)) * ((a * p + b * q) * (1 / (a + b))) - (a * (p * p) + b * (q * q)) * (1 / (a + b)))
      with (- (a * b * ((p - q) * (p - q)) * ((1 / (a + b)) * (1 / (a + b))))) by (field; intro X0; lra).
    apply Ropp_le_cancel. rewrite Ropp_0, Ropp_involutive. apply Rmult_le_pos; [apply Rmult_le_pos; [apply Rmult_le_pos; lra | apply Rle_0_sqr] | apply Rmult_le_pos; lra]. }
  pose proof (V (w_vx wl) (w_vx wr)) as V1. pose proof (V (w_vy wl) (w_vy wr)) as V2. pose proof (V (w_vz wl) (w_vz wr)) as V3.
  assert (XY : 0 < x * (1 / (a + b))) by (apply Rmult_lt_0_compat; assumption).
  replace (hl / a + 1 / 2 * a * (w_vx wl * w_vx wl + w_vy wl * w_vy wl + w_vz wl * w_vz wl) + (hr / b + 1 / 2 * b * (w_vx wr * w_vx wr + w_vy wr * w_vy wr + w_vz wr * w_vz wr)))
    with (x + 1/2 * ((a * (w_vx wl * w_vx wl) + b * (w_vx wr * w_vx wr)) + (a * (w_vy wl * w_vy wl) + b * (w_vy wr * w_vy wr)) + (a * (w_vz wl * w_vz wl) + b * (w_vz wr * w_vz wr)))) by (unfold x; ring).
  set (i := 1 / (a + b)) in *. clearbody i x. lra.
Qed.
Lemma hlle_a_pos : forall e wl wr, good_eos e -> good e wl -> good e wr -> 0 < hlle_a e wl wr.
Proof.
  intros [g|c] wl wr G Gl Gr; unfold hlle_a; [| exact G]. pose proof (roe_q_pos g wl wr G Gl Gr) as Q. set (q := w_p _ - _) in *. clearbody q.
  destruct (ltR q 0) eqn:H; [apply ltR_true in H; lra |]. cbn in G. apply sqrt_lt_R0. apply Rmult_lt_0_compat; lra.
Qed.
Lemma HLLE_upwind_left : forall e wl wr, good_eos e -> good e wl -> good e wr -> 0 <= hlle_al e wl wr -> HLLE e wl wr = physical e wl.
Proof.
  intros e wl wr G Gl Gr H. unfold HLLE. cbv zeta. rewrite (minus_pos _ H). pose proof (hlle_a_pos e wl wr G Gl Gr) as A.
  assert (B : 0 < hlle_ar e wl wr).
  { unfold hlle_al in H. unfold hlle_ar. pose proof (Rmin_l (w_vx (roe_average e wl wr) - hlle_a e wl wr) (w_vx wl - cs e wl)).
    pose proof (Rmax_l (w_vx (roe_average e wl wr) + hlle_a e wl wr) (w_vx wr + cs e wr)). lra. }
  rewrite (plus_pos _ B). rewrite !flux_along_eq. apply map3_eq. intros k K. unfold sub. comp; rewrite hll_left by exact B; ring.
Qed.
Lemma good_mirror : forall e w, good e w -> good e (mirror w).
Proof. intros e w H. exact H. Qed.
Lemma mirror_flux_twice : forall f, mirror_flux (mirror_flux f) = f.
Proof. intros [a b c d e]. unfold mirror_flux. cbn [u_d u_m1 u_m2 u_m3 u_e]. rewrite !Ropp_involutive. reflexivity. Qed.
Lemma HLLE_upwind_right : forall e wl wr, good_eos e -> good e wl -> good e wr -> hlle_ar e wl wr <= 0 -> HLLE e wl wr = physical e wr.
Proof.
  intros e wl wr G Gl Gr H. rewrite <- (mirror_flux_twice (HLLE e wl wr)), <- HLLE_mirror. rewrite HLLE_upwind_left; try assumption.
  - rewrite physical_mirror. apply mirror_flux_twice.
  - rewrite hlle_al_mirror. lra.
Qed.

(** ** HLLC and LHLLC. *)
Lemma hllc_weights_mirror : forall am bp bm, bm < 0 < bp ->
  let '(sl, sr, sm) := hllc_weights am bp bm in
  let '(sl', sr', sm') := hllc_weights (- am) (- bm) (- bp) in sl' = sr /\ sr' = sl /\ sm' = sm.
Proof.
  intros am bp bm [A B]. unfold hllc_weights. destruct (leR 0 am) eqn:H, (leR 0 (- am)) eqn:K; try apply leR_true in H; try apply leR_false in H; try apply leR_true in K; try apply leR_false in K.
  - assert (am = 0) by lra. subst. (split; [|split]); (reflexivity || (field; repeat apply conj; intro X0; lra) || lra).
  - (split; [|split]); (reflexivity || (field; repeat apply conj; intro X0; lra) || lra).
  - (split; [|split]); (reflexivity || (field; repeat apply conj; intro X0; lra) || lra).
  - lra.
Qed.
Lemma bp_pos : forall T x, 0 < T -> 0 < bp_of T x.
Proof. intros T x H. unfold bp_of. destruct (ltR 0 x) eqn:K; [apply ltR_true in K; lra | lra]. Qed.
Lemma bm_neg : forall T x, 0 < T -> bm_of T x < 0.
Proof. intros T x H. unfold bm_of. destruct (ltR x 0) eqn:K; [apply ltR_true in K; lra | lra]. Qed.
Lemma bp_opp : forall T x, bp_of T (- x) = - bm_of T x.
Proof.
  intros T x. unfold bp_of, bm_of. destruct (ltR 0 (- x)) eqn:H, (ltR x 0) eqn:K; try lra; try apply ltR_true in H; try apply ltR_false in H; try apply ltR_true in K; try apply ltR_false in K; lra.
Qed.
Lemma bm_opp : forall T x, bm_of T (- x) = - bp_of T x.
Proof. intros T x. pose proof (bp_opp T (- x)) as H. rewrite Ropp_involutive in H. lra. Qed.
Lemma hllc_flux_mirror : forall e T am cp al ar wl wr, 0 < T ->
  hllc_flux e T (- am) cp (- ar) (- al) (mirror wr) (mirror wl) = mirror_flux (hllc_flux e T am cp al ar wl wr).
Proof.
  intros e T am cp al ar wl wr H. unfold hllc_flux. cbv zeta. rewrite bp_opp, bm_opp.
  pose proof (bp_pos T ar H) as A. pose proof (bm_neg T al H) as B. set (bp := bp_of T ar) in *. set (bm := bm_of T al) in *. clearbody bp bm.
  pose proof (hllc_weights_mirror am bp bm (conj B A)) as W. destruct (hllc_weights am bp bm) as [[sl sr] sm]. destruct (hllc_weights (- am) (- bm) (- bp)) as [[sl' sr'] sm'].
  destruct W as (-> & -> & ->). rewrite !flux_along_eq, !uof_mirror, !physical_mirror. unfold map3, mirror_flux, sub, map3, uof, contact_flux. cbn [u_d u_m1 u_m2 u_m3 u_e].
  apply cons_eq; ring.
Qed.
Lemma hllc_flux_consistent : forall e T am cp al ar w, 0 < T -> am = w_vx w -> cp = P e w -> (match e with Adi _ => True | Iso _ => False end) ->
  hllc_flux e T am cp al ar w w = physical e w.
Proof.
  intros [g|c] T am cp al ar w H A C N; [clear N | contradiction]. unfold hllc_flux. cbv zeta. pose proof (bp_pos T ar H) as X. pose proof (bm_neg T al H) as Y. set (bp := bp_of T ar) in *. set (bm := bm_of T al) in *. clearbody bp bm.
  unfold hllc_weights. subst am cp. unfold map3, flux_along, physical, contact_flux, if_energy. rewrite en_E. cbn [u_d u_m1 u_m2 u_m3 u_e pr P].
  destruct (leR 0 (w_vx w)) eqn:K; [apply leR_true in K | apply leR_false in K]; apply cons_eq; field; intro X0; lra.
Qed.
Section speeds.
Variables (g : R) (wl wr : prim).
Hypothesis (G : 1 < g) (Gl : good (Adi g) wl) (Gr : good (Adi g) wr).
Lemma hllc_q_pos : forall p pm, 0 < p -> 1 <= hllc_q g p pm.
Proof using G.
  intros p pm Q. unfold hllc_q. destruct (leR pm p) eqn:H; [lra |]. apply leR_false in H.
  assert (X : 0 <= (g + 1) / (2 * g) * (pm / p - 1)).
  { apply Rmult_le_pos; [apply Rmult_le_pos; [lra | left; apply Rinv_0_lt_compat; lra] |]. apply (Rmult_le_reg_r p); [exact Q |]. replace ((pm / p - 1) * p) with (pm - p) by (field; intro X0; lra). lra. }
  rewrite <- sqrt_1 at 1. apply sqrt_le_1; lra.
Qed.
Lemma hllc_al_lt : hllc_al g wl wr < w_vx wl.
Proof using G Gl. unfold hllc_al. pose proof (cs_pos (Adi g) wl G Gl) as C. destruct Gl as [_ Pl]. pose proof (hllc_q_pos (w_p wl) (hllc_pmid g wl wr) Pl). nra. Qed.
Lemma hllc_ar_gt : w_vx wr < hllc_ar g wl wr.
Proof using G Gr. unfold hllc_ar. pose proof (cs_pos (Adi g) wr G Gr) as C. destruct Gr as [_ Pr]. pose proof (hllc_q_pos (w_p wr) (hllc_pmid g wl wr) Pr). nra. Qed.
Lemma hllc_pmid_mirror : hllc_pmid g (mirror wr) (mirror wl) = hllc_pmid g wl wr.
Proof using. unfold hllc_pmid. rewrite !cs_mirror. unfold mirror. cbn [w_d w_vx w_p]. ring. Qed.
Lemma hllc_al_mirror : hllc_al g (mirror wr) (mirror wl) = - hllc_ar g wl wr.
Proof using. unfold hllc_al, hllc_ar. rewrite hllc_pmid_mirror, cs_mirror. unfold mirror. cbn [w_vx w_p]. ring. Qed.
Lemma hllc_ar_mirror : hllc_ar g (mirror wr) (mirror wl) = - hllc_al g wl wr.
Proof using. unfold hllc_al, hllc_ar. rewrite hllc_pmid_mirror, cs_mirror. unfold mirror. cbn [w_vx w_p]. ring. Qed.
Lemma hllc_masses : 0 < w_d wl * (w_vx wl - hllc_al g wl wr) /\ 0 < - (w_d wr * (w_vx wr - hllc_ar g wl wr)).
Proof using G Gl Gr.
  pose proof hllc_al_lt. pose proof hllc_ar_gt. destruct Gl as [Dl _]. destruct Gr as [Dr _]. split; [apply Rmult_lt_0_compat; lra |].
  replace (- (w_d wr * (w_vx wr - hllc_ar g wl wr))) with (w_d wr * (hllc_ar g wl wr - w_vx wr)) by ring. apply Rmult_lt_0_compat; lra.
Qed.
Lemma hllc_am_mirror : hllc_am g (mirror wr) (mirror wl) = - hllc_am g wl wr.
Proof using G Gl Gr.
  unfold hllc_am. rewrite hllc_al_mirror, hllc_ar_mirror. cbv zeta. pose proof hllc_masses as [A B]. unfold mirror. cbn [w_d w_vx w_p].
  set (al := hllc_al g wl wr) in *. set (ar := hllc_ar g wl wr) in *. clearbody al ar. field. repeat apply conj; intro X0; nra.
Qed.
Lemma hllc_cp_mirror : hllc_cp g (mirror wr) (mirror wl) = hllc_cp g wl wr.
Proof using G Gl Gr.
  unfold hllc_cp. rewrite hllc_al_mirror, hllc_ar_mirror. cbv zeta. pose proof hllc_masses as [A B]. unfold mirror. cbn [w_d w_vx w_p].
  set (al := hllc_al g wl wr) in *. set (ar := hllc_ar g wl wr) in *. clearbody al ar.
  match goal with |- (if ltR 0 ?x then _ else _) = (if ltR 0 ?y then _ else _) => replace x with y; [reflexivity |] end.
  field. repeat apply conj; intro X0; nra.
Qed.
Lemma lhllc_th_mirror : forall dvn dvt, lhllc_th g dvn dvt (mirror wr) (mirror wl) = lhllc_th g dvn dvt wl wr.
Proof using. intros. unfold lhllc_th. rewrite !cs_mirror. rewrite (Rmax_comm (cs (Adi g) wr)). reflexivity. Qed.
Lemma lhllc_am_mirror : forall dvn dvt, lhllc_am g dvn dvt (mirror wr) (mirror wl) = - lhllc_am g dvn dvt wl wr.
Proof using G Gl Gr.
  intros. unfold lhllc_am. rewrite hllc_al_mirror, hllc_ar_mirror, lhllc_th_mirror. cbv zeta. pose proof hllc_masses as [A B]. unfold mirror. cbn [w_d w_vx w_p].
  set (al := hllc_al g wl wr) in *. set (ar := hllc_ar g wl wr) in *. set (th := lhllc_th g dvn dvt wl wr). clearbody al ar th. field. repeat apply conj; intro X0; nra.
Qed.
Lemma lhllc_cp_mirror : lhllc_cp g (mirror wr) (mirror wl) = lhllc_cp g wl wr.
Proof using G Gl Gr.
  unfold lhllc_cp. rewrite hllc_al_mirror, hllc_ar_mirror, !cs_mirror, !vsq_mirror. rewrite (Rmax_comm (cs (Adi g) wr)), (Rmax_comm (vsq wr)). cbv zeta.
  pose proof hllc_masses as [A B]. set (chi := Rmin 1 (sqrt (Rmax (vsq wl) (vsq wr)) / Rmax (cs (Adi g) wl) (cs (Adi g) wr))). clearbody chi. unfold mirror. cbn [w_d w_vx w_p].
  set (al := hllc_al g wl wr) in *. set (ar := hllc_ar g wl wr) in *. clearbody al ar.
  match goal with |- (if ltR 0 ?x then _ else _) = (if ltR 0 ?y then _ else _) => replace x with y; [reflexivity |] end.
  field. repeat apply conj; intro X0; nra.
Qed.
Lemma HLLC_mirror : forall T, 0 < T -> HLLC T g (mirror wr) (mirror wl) = mirror_flux (HLLC T g wl wr).
Proof using G Gl Gr. intros T HT. unfold HLLC. rewrite hllc_am_mirror, hllc_cp_mirror, hllc_al_mirror, hllc_ar_mirror. apply hllc_flux_mirror. exact HT. Qed.
Lemma LHLLC_mirror : forall T dvn dvt, 0 < T -> LHLLC T g dvn dvt (mirror wr) (mirror wl) = mirror_flux (LHLLC T g dvn dvt wl wr).
Proof using G Gl Gr. intros T dvn dvt HT. unfold LHLLC. rewrite lhllc_am_mirror, lhllc_cp_mirror, hllc_al_mirror, hllc_ar_mirror. apply hllc_flux_mirror. exact HT. Qed.
End speeds.
Section equal.
Variables (g : R) (w : prim).
Hypothesis (G : 1 < g) (Gw : good (Adi g) w).
Lemma equal_q : hllc_q g (w_p w) (hllc_pmid g w w) = 1.
Proof using. unfold hllc_pmid, hllc_q. destruct (leR _ _) eqn:H; [reflexivity |]. apply leR_false in H. nra. Qed.
Lemma equal_al : hllc_al g w w = w_vx w - cs (Adi g) w.
Proof using. unfold hllc_al. rewrite equal_q. ring. Qed.
Lemma equal_ar : hllc_ar g w w = w_vx w + cs (Adi g) w.
Proof using. unfold hllc_ar. rewrite equal_q. ring. Qed.
Lemma equal_am : hllc_am g w w = w_vx w.
Proof using G Gw.
  unfold hllc_am. rewrite equal_al, equal_ar. pose proof (cs_pos (Adi g) w G Gw) as C. destruct Gw as [D Q]. set (c := cs (Adi g) w) in *. clearbody c. cbv zeta. field. intro X0. nra.
Qed.
Lemma pos_cond : forall x, 0 < x -> (if ltR 0 x then x else 0) = x.
Proof using. intros x H. destruct (ltR 0 x) eqn:K; [reflexivity | apply ltR_false in K; lra]. Qed.
Lemma equal_cp : hllc_cp g w w = w_p w.
Proof using G Gw.
  unfold hllc_cp. rewrite equal_al, equal_ar. pose proof (cs_pos (Adi g) w G Gw) as C. destruct Gw as [D Q]. set (c := cs (Adi g) w) in *. clearbody c. cbv zeta.
  match goal with |- (if ltR 0 ?x then _ else _) = _ => replace x with (w_p w) end; [apply pos_cond; exact Q |]. field. intro X0. nra.
Qed.
Lemma equal_lam : forall dvn dvt, lhllc_am g dvn dvt w w = w_vx w.
Proof using G Gw.
  intros. unfold lhllc_am. rewrite equal_al, equal_ar. pose proof (cs_pos (Adi g) w G Gw) as C. destruct Gw as [D Q]. set (c := cs (Adi g) w) in *. clearbody c. cbv zeta. field. intro X0. nra.
Qed.
Lemma equal_lcp : lhllc_cp g w w = w_p w.
Proof using G Gw.
  unfold lhllc_cp. rewrite equal_al, equal_ar. pose proof (cs_pos (Adi g) w G Gw) as C. destruct Gw as [D Q]. cbv zeta. set (chi := Rmin 1 _). clearbody chi. set (c := cs (Adi g) w) in *. clearbody c.
  match goal with |- (if ltR 0 ?x then _ else _) = _ => replace x with (w_p w) end; [apply pos_cond; exact Q |]. field. intro X0. nra.
Qed.
Lemma HLLC_consistent : forall T, 0 < T -> HLLC T g w w = physical (Adi g) w.
Proof using G Gw. intros T H. unfold HLLC. apply hllc_flux_consistent; [exact H | apply equal_am | apply equal_cp | exact I]. Qed.
Lemma LHLLC_consistent : forall T dvn dvt, 0 < T -> LHLLC T g dvn dvt w w = physical (Adi g) w.
Proof using G Gw. intros T dvn dvt H. unfold LHLLC. apply hllc_flux_consistent; [exact H | apply equal_lam | apply equal_lcp | exact I]. Qed.
End equal.
(** In supersonic flow: a mixture of the upwind flux and the flux at the contact, with weight T/(am+T). *)
Definition contact (e : eos) (am cp : R) (w : prim) : cons :=
  mkU (w_d w * am) (w_d w * w_vx w * am + cp) (w_d w * w_vy w * am) (w_d w * w_vz w * am) (E e w * am + cp * am).
Lemma hllc_flux_upwind : forall g T am cp al ar wl wr, 0 < T -> 0 <= al -> 0 <= am ->
  hllc_flux (Adi g) T am cp al ar wl wr = map3 (fun f c _ => (1 - T / (am + T)) * f + T / (am + T) * c) (physical (Adi g) wl) (contact (Adi g) am cp wl) (physical (Adi g) wl).
Proof.
  intros g T am cp al ar wl wr H A B. unfold hllc_flux. cbv zeta. unfold bm_of. destruct (ltR al 0) eqn:K; [apply ltR_true in K; lra |].
  unfold hllc_weights. destruct (leR 0 am) eqn:L; [| apply leR_false in L; lra]. set (bp := bp_of T ar). clearbody bp.
  unfold map3, flux_along, physical, contact, contact_flux, if_energy. rewrite en_E. cbn [u_d u_m1 u_m2 u_m3 u_e pr P].
  apply cons_eq; field; intro X0; lra.
Qed.
