From Coq Require Import Reals ZArith Bool Lia Lra Psatz.
From Verif Require Import Time_Model Time_Proofs Fv_Model Eos_Model Rie_Model Rie_Spec Rie_Proofs Pos_Model Pos_Spec.
Local Open Scope R_scope.

(** ** Vectors of conserved variables. *)
Definition vadd (u v : cons) : cons := mkU (u_d u + u_d v) (u_m1 u + u_m1 v) (u_m2 u + u_m2 v) (u_m3 u + u_m3 v) (u_e u + u_e v).
Definition vscale (c : R) (u : cons) : cons := mkU (c * u_d u) (c * u_m1 u) (c * u_m2 u) (c * u_m3 u) (c * u_e u).
Lemma cons_ext : forall u v, u_d u = u_d v -> u_m1 u = u_m1 v -> u_m2 u = u_m2 v -> u_m3 u = u_m3 v -> u_e u = u_e v -> u = v.
Proof. intros [a b c d e] [a' b' c' d' e']. cbn [u_d u_m1 u_m2 u_m3 u_e]. intros. apply cons_eq; assumption. Qed.
Lemma div_sum : forall a b p q, 0 < p -> 0 < q -> (a + b) ^ 2 / (2 * (p + q)) <= a ^ 2 / (2 * p) + b ^ 2 / (2 * q).
Proof.
  intros a b p q A B. apply Rminus_le. replace ((a + b) ^ 2 / (2 * (p + q)) - (a ^ 2 / (2 * p) + b ^ 2 / (2 * q))) with (- ((a * q - b * p) * (a * q - b * p) * / (2 * (p * q * (p + q))))) by (field; repeat apply conj; intro X0; nra).
  assert (0 < / (2 * (p * q * (p + q)))) by (apply Rinv_0_lt_compat; assert (0 < p * q) by (apply Rmult_lt_0_compat; assumption); assert (0 < p * q * (p + q)) by (apply Rmult_lt_0_compat; lra); lra).
  pose proof (Rle_0_sqr (a * q - b * p)) as Q. unfold Rsqr in Q. assert (0 <= (a * q - b * p) * (a * q - b * p) * / (2 * (p * q * (p + q)))) by (apply Rmult_le_pos; lra). lra.
Qed.
Lemma adm_add : forall e u v, admissible e u -> admissible e v -> admissible e (vadd u v).
Proof.
  intros e u v [A B] [C D]. split; cbn [vadd u_d u_m1 u_m2 u_m3 u_e]; [lra |]. destruct e; [| exact I].
  pose proof (div_sum (u_m1 u) (u_m1 v) _ _ A C). pose proof (div_sum (u_m2 u) (u_m2 v) _ _ A C). pose proof (div_sum (u_m3 u) (u_m3 v) _ _ A C).
  unfold Rdiv in *. rewrite !Rmult_plus_distr_r in *. lra.
Qed.
Lemma adm_scale : forall e c u, 0 < c -> admissible e u -> admissible e (vscale c u).
Proof.
  intros e c u H [A B]. split; cbn [vscale u_d u_m1 u_m2 u_m3 u_e]; [apply Rmult_lt_0_compat; assumption |]. destruct e; [| exact I].
  replace (c * u_e u - ((c * u_m1 u) ^ 2 + (c * u_m2 u) ^ 2 + (c * u_m3 u) ^ 2) / (2 * (c * u_d u))) with (c * (u_e u - (u_m1 u ^ 2 + u_m2 u ^ 2 + u_m3 u ^ 2) / (2 * u_d u))) by (field; split; intro X0; lra).
  apply Rmult_lt_0_compat; assumption.
Qed.
Definition zero : cons := mkU 0 0 0 0 0.
Definition weak (e : eos) (u : cons) : Prop := u = zero \/ admissible e u.
Lemma vadd_zero : forall u, vadd u zero = u.
Proof. intros [a b c d e]. unfold vadd, zero. cbn [u_d u_m1 u_m2 u_m3 u_e]. rewrite !Rplus_0_r. reflexivity. Qed.
Lemma vadd_comm : forall u v, vadd u v = vadd v u.
Proof. intros. unfold vadd. apply cons_eq; ring. Qed.
Lemma adm_weak : forall e u v, admissible e u -> weak e v -> admissible e (vadd u v).
Proof. intros e u v A [->|B]; [rewrite vadd_zero; exact A | apply adm_add; assumption]. Qed.
Lemma weak_add : forall e u v, weak e u -> weak e v -> weak e (vadd u v).
Proof. intros e u v [->|A] B; [rewrite vadd_comm, vadd_zero; exact B | right; apply adm_weak; assumption]. Qed.
Lemma weak_scale : forall e c u, 0 <= c -> weak e u -> weak e (vscale c u).
Proof.
  intros e c u [H|H] [->|A].
  - left. unfold vscale, zero. cbn [u_d u_m1 u_m2 u_m3 u_e]. apply cons_eq; ring.
  - right. apply adm_scale; assumption.
  - left. unfold vscale, zero. cbn [u_d u_m1 u_m2 u_m3 u_e]. apply cons_eq; ring.
  - left. subst c. unfold vscale, zero. apply cons_eq; ring.
Qed.

(** ** alpha U - F and alpha U + F are admissible when alpha is at least the signal speed. *)
Definition side (s alpha : R) (u f : cons) : cons := vadd (vscale alpha u) (vscale s f).
Lemma side_adm' : forall e s alpha w, good_eos e -> good e w -> s = 1 \/ s = -1 -> cs e w <= alpha + s * w_vx w -> admissible e (side s alpha (uof e w) (physical e w)).
Proof.
  intros e s alpha w G Gw S K. pose proof (cs_pos e w G Gw) as C. destruct Gw as [D Q]. unfold side, vadd, vscale, uof, physical. cbn [u_d u_m1 u_m2 u_m3 u_e].
  split; cbn [u_d u_m1 u_m2 u_m3 u_e].
  - replace (alpha * w_d w + s * (w_d w * w_vx w)) with (w_d w * (alpha + s * w_vx w)) by ring. apply Rmult_lt_0_compat; lra.
  - destruct e as [g|c]; [| exact I]. set (b := alpha + s * w_vx w) in *.
    assert (CS : w_d w * (cs (Adi g) w * cs (Adi g) w) = g * w_p w). { unfold cs, SoundSpeed. cbn in G. rewrite sqrt_sqrt; [field; intro X0; lra |]. apply Rmult_le_pos; [apply Rmult_le_pos; lra | left; apply Rinv_0_lt_compat; exact D]. }
    set (c := cs (Adi g) w) in *. clearbody c. cbn [P E] in *. cbn in G.
    replace (alpha * (w_d w * w_vx w) + s * (w_d w * w_vx w ^ 2 + w_p w)) with (w_d w * w_vx w * b + s * w_p w) by (unfold b; ring).
    replace (alpha * (w_d w * w_vy w) + s * (w_d w * w_vx w * w_vy w)) with (w_d w * w_vy w * b) by (unfold b; ring).
    replace (alpha * (w_d w * w_vz w) + s * (w_d w * w_vx w * w_vz w)) with (w_d w * w_vz w * b) by (unfold b; ring).
    replace (alpha * w_d w + s * (w_d w * w_vx w)) with (w_d w * b) by (unfold b; ring).
    replace (alpha * (w_p w / (g - 1) + w_d w * (w_vx w ^ 2 + w_vy w ^ 2 + w_vz w ^ 2) / 2) + s * ((w_p w / (g - 1) + w_d w * (w_vx w ^ 2 + w_vy w ^ 2 + w_vz w ^ 2) / 2 + w_p w) * w_vx w))
      with (b * (w_p w / (g - 1) + w_d w * (w_vx w ^ 2 + w_vy w ^ 2 + w_vz w ^ 2) / 2) + s * (w_p w * w_vx w)) by (unfold b; ring).
    assert (B : 0 < b) by lra. assert (SS : s * s = 1) by (destruct S as [->| ->]; ring).
    replace (b * (w_p w / (g - 1) + w_d w * (w_vx w ^ 2 + w_vy w ^ 2 + w_vz w ^ 2) / 2) + s * (w_p w * w_vx w) - ((w_d w * w_vx w * b + s * w_p w) ^ 2 + (w_d w * w_vy w * b) ^ 2 + (w_d w * w_vz w * b) ^ 2) / (2 * (w_d w * b)))
      with (w_p w * (b / (g - 1) - (s * s) * w_p w / (2 * (w_d w * b)))) by (field; repeat apply conj; intro X0; lra).
    rewrite SS. apply Rmult_lt_0_compat; [exact Q |].
    assert (DB : 0 < w_d w * b) by (apply Rmult_lt_0_compat; assumption).
    replace (b / (g - 1) - 1 * w_p w / (2 * (w_d w * b))) with ((2 * (w_d w * (b * b)) - (g - 1) * w_p w) / ((g - 1) * (2 * (w_d w * b)))) by (field; repeat apply conj; intro X0; lra).
    apply Rdiv_lt_0_compat; [| apply Rmult_lt_0_compat; lra].
    assert (CB : w_d w * (c * c) <= w_d w * (b * b)) by (apply Rmult_le_compat_l; [lra |]; apply Rmult_le_compat; lra).
    assert (0 < g * w_p w) by (apply Rmult_lt_0_compat; lra). nra.
Qed.
Lemma side_adm : forall e s alpha w, good_eos e -> good e w -> s = 1 \/ s = -1 -> Rabs (w_vx w) + cs e w <= alpha -> admissible e (side s alpha (uof e w) (physical e w)).
Proof.
  intros e s alpha w G Gw S A. apply side_adm'; try assumption.
  pose proof (Rle_abs (w_vx w)) as B1. pose proof (Rle_abs (- w_vx w)) as B2. rewrite Rabs_Ropp in B2. destruct S as [->| ->]; lra.
Qed.
Lemma store_add : forall n u v, store n (vadd u v) = vadd (store n u) (store n v).
Proof. intros [|[|n]] u v; reflexivity. Qed.
Lemma store_scale : forall n c u, store n (vscale c u) = vscale c (store n u).
Proof. intros [|[|n]] c u; reflexivity. Qed.
Lemma adm_store : forall e n u, admissible e u -> admissible e (store n u).
Proof.
  intros e n u [A B]. split; [destruct n as [|[|n]]; exact A |]. destruct e; [| exact I]. destruct n as [|[|n]]; cbn [store u_d u_m1 u_m2 u_m3 u_e]; [exact B | |].
  - replace (u_m3 u ^ 2 + u_m1 u ^ 2 + u_m2 u ^ 2) with (u_m1 u ^ 2 + u_m2 u ^ 2 + u_m3 u ^ 2) by ring. exact B.
  - replace (u_m2 u ^ 2 + u_m3 u ^ 2 + u_m1 u ^ 2) with (u_m1 u ^ 2 + u_m2 u ^ 2 + u_m3 u ^ 2) by ring. exact B.
Qed.
Lemma store_uof : forall e n w, store n (uof e (load n w)) = uof e w.
Proof.
  intros e n w. destruct n as [|[|n]]; [reflexivity | |]; unfold store, load, uof; cbn [u_d u_m1 u_m2 u_m3 u_e w_d w_vx w_vy w_vz]; apply cons_eq; try reflexivity; destruct e; unfold E; cbn [w_d w_vx w_vy w_vz w_p]; try reflexivity; unfold Rdiv; ring.
Qed.
Lemma good_load : forall e n w, good e w -> good e (load n w).
Proof. intros e [|[|n]] w H; exact H. Qed.
Lemma cs_load : forall e n w, cs e (load n w) = cs e w.
Proof. intros [g|c] [|[|n]] w; reflexivity. Qed.
Lemma conserved_uof : forall e w, conserved e w = uof e w.
Proof. intros e w. unfold conserved, uof. rewrite en_E. apply cons_eq; try ring. destruct e; reflexivity. Qed.

(** The pieces of a flux in direction n. *)
Definition fdir (n : nat) (e : eos) (w : prim) : cons := store n (physical e (load n w)).
Definition alpha (n : nat) (e : eos) (wl wr : prim) : R := Rmax (speed n e wl) (speed n e wr).
Lemma flux_split : forall n e wl wr, store n (LLF e (load n wl) (load n wr)) =
  vadd (vscale (1/2) (vadd (fdir n e wl) (fdir n e wr))) (vscale (alpha n e wl wr / 2) (vadd (uof e wl) (vscale (-1) (uof e wr)))).
Proof.
  intros n e wl wr. unfold LLF. cbv zeta. rewrite !flux_llf_eq, du_eq, !cs_load. unfold alpha, speed, fdir. set (m := Rmax _ _). clearbody m.
  rewrite <- (store_uof e n wl), <- (store_uof e n wr). rewrite <- !store_scale, <- !store_add, <- !store_scale, <- !store_add. f_equal.
  unfold map3, vadd, vscale. cbn [u_d u_m1 u_m2 u_m3 u_e]. apply cons_eq; field.
Qed.
Lemma speed_pos : forall n e w, good_eos e -> good e w -> 0 < speed n e w.
Proof. intros n e w G Gw. unfold speed. pose proof (cs_pos e w G Gw). pose proof (Rabs_pos (w_vx (load n w))). lra. Qed.
Lemma piece_adm : forall n e s a w, good_eos e -> good e w -> s = 1 \/ s = -1 -> speed n e w <= a -> admissible e (side s a (uof e w) (fdir n e w)).
Proof.
  intros n e s a w G Gw S A. unfold side, fdir. rewrite <- (store_uof e n w). rewrite <- !store_scale, <- store_add. apply adm_store. apply (side_adm e s a (load n w)); [exact G | apply good_load; exact Gw | exact S |].
  rewrite cs_load. exact A.
Qed.
(** U0 (lam (a+ + a-)/2) - lam (F+ - F-), the part of a sweep. *)
Definition sweep (n : nat) (e : eos) (lam : R) (wm w0 wp : prim) : cons :=
  vadd (vscale (lam / 2 * (alpha n e wm w0 + alpha n e w0 wp)) (uof e w0)) (vscale (- lam) (vadd (store n (LLF e (load n w0) (load n wp))) (vscale (-1) (store n (LLF e (load n wm) (load n w0)))))).
Lemma sweep_eq : forall n e lam wm w0 wp, sweep n e lam wm w0 wp =
  vscale (lam / 2) (vadd (side (-1) (alpha n e w0 wp) (uof e wp) (fdir n e wp)) (side 1 (alpha n e wm w0) (uof e wm) (fdir n e wm))).
Proof.
  intros. unfold sweep, side. rewrite !flux_split. set (a := alpha n e w0 wp). set (b := alpha n e wm w0). set (fm := fdir n e wm). set (f0 := fdir n e w0). set (fp := fdir n e wp).
  set (um := uof e wm). set (u0 := uof e w0). set (up := uof e wp). clearbody a b fm f0 fp um u0 up.
  apply cons_ext; cbn [vadd vscale u_d u_m1 u_m2 u_m3 u_e]; field.
Qed.
Lemma sweep_adm : forall n e lam wm w0 wp, good_eos e -> good e wm -> good e wp -> 0 < lam -> admissible e (sweep n e lam wm w0 wp).
Proof.
  intros n e lam wm w0 wp G Gm Gp L. rewrite sweep_eq. apply adm_scale; [lra |]. apply adm_add; apply piece_adm; try assumption; try tauto; unfold alpha; [apply Rmax_r | apply Rmax_l].
Qed.

Lemma uof_adm : forall e w, good_eos e -> good e w -> admissible e (uof e w).
Proof.
  intros e w G [D Q]. split; [exact D |]. destruct e as [g|a]; [| exact I]. unfold uof. cbn [u_d u_m1 u_m2 u_m3 u_e E]. cbn in G.
  replace (w_p w / (g - 1) + w_d w * (w_vx w ^ 2 + w_vy w ^ 2 + w_vz w ^ 2) / 2 - ((w_d w * w_vx w) ^ 2 + (w_d w * w_vy w) ^ 2 + (w_d w * w_vz w) ^ 2) / (2 * w_d w)) with (w_p w / (g - 1)) by (field; split; intro X0; lra).
  apply Rdiv_lt_0_compat; lra.
Qed.
Lemma scal4 : forall (two three : bool) dx dy dz dt u f1 g1 f2 g2 f3 g3 a1 a2 a3, 0 < dx -> 0 < dy -> 0 < dz ->
  u - dt * (let v := dy * dz * f1 - dy * dz * g1 in let v := if two then v + (dx * dz * f2 - dx * dz * g2) else v in if three then v + (dx * dy * f3 - dx * dy * g3) else v) / (dx * dy * dz) =
  dt / dx / 2 * a1 * u + - (dt / dx) * (f1 + -1 * g1) + (1 - dt / dx / 2 * a1 - (if two then dt / dy / 2 * a2 else 0) - (if three then dt / dz / 2 * a3 else 0)) * u
  + (if two then dt / dy / 2 * a2 * u + - (dt / dy) * (f2 + -1 * g2) else 0) + (if three then dt / dz / 2 * a3 * u + - (dt / dz) * (f3 + -1 * g3) else 0).
Proof. intros two three dx dy dz dt u f1 g1 f2 g2 f3 g3 a1 a2 a3 DX DY DZ. cbv zeta. destruct two, three; field; repeat apply conj; intro X0; lra. Qed.
Section step.
Variables (e : eos) (d : dims) (dx dy dz dt c : R) (W : cells).
Hypothesis (G : good_eos e) (GW : forall k j i, good e (W k j i)) (DX : 0 < dx) (DY : 0 < dy) (DZ : 0 < dz) (T : 0 <= dt) (C : courant e d dx dy dz dt c W) (N : ndim d * c <= 1).
Lemma alpha_bound : forall n wl wr h, 0 < h -> dt * speed n e wl <= c * h -> dt * speed n e wr <= c * h -> dt / h * alpha n e wl wr <= c.
Proof using.
  intros n wl wr h H A B. unfold alpha. apply (Rmult_le_reg_r h); [exact H |]. replace (dt / h * Rmax (speed n e wl) (speed n e wr) * h) with (dt * Rmax (speed n e wl) (speed n e wr)) by (field; intro X0; lra).
  unfold Rmax. destruct (Rle_dec _ _); assumption.
Qed.
Definition two : bool := Z.ltb 1 (nx2 d).
Definition three : bool := Z.ltb 1 (nx3 d).
Definition rest (k j i : Z) : R :=
  1 - dt / dx / 2 * (alpha 0 e (W k j (i - 1)%Z) (W k j i) + alpha 0 e (W k j i) (W k j (i + 1)%Z))
    - (if two then dt / dy / 2 * (alpha 1 e (W k (j - 1)%Z i) (W k j i) + alpha 1 e (W k j i) (W k (j + 1)%Z i)) else 0)
    - (if three then dt / dz / 2 * (alpha 2 e (W (k - 1)%Z j i) (W k j i) + alpha 2 e (W k j i) (W (k + 1)%Z j i)) else 0).
Lemma c_nonneg : 0 <= c.
Proof using C DX G GW T.
  destruct (C 0 0 0)%Z as [A _]. pose proof (speed_pos 0 e (W 0 0 0)%Z G (GW _ _ _)) as S. apply (Rmult_le_reg_r dx); [exact DX |]. rewrite Rmult_0_l. apply Rle_trans with (2 := A). apply Rmult_le_pos; lra.
Qed.
Lemma rest_nonneg : forall k j i, 0 <= rest k j i.
Proof using C DX DY DZ N T.
  intros k j i. unfold rest.
  assert (A1 : dt / dx / 2 * (alpha 0 e (W k j (i - 1)%Z) (W k j i) + alpha 0 e (W k j i) (W k j (i + 1)%Z)) <= c).
  { pose proof (alpha_bound 0 (W k j (i - 1)%Z) (W k j i) dx DX (proj1 (C _ _ _)) (proj1 (C _ _ _))). pose proof (alpha_bound 0 (W k j i) (W k j (i + 1)%Z) dx DX (proj1 (C _ _ _)) (proj1 (C _ _ _))). lra. }
  assert (A2 : (if two then dt / dy / 2 * (alpha 1 e (W k (j - 1)%Z i) (W k j i) + alpha 1 e (W k j i) (W k (j + 1)%Z i)) else 0) <= (if two then c else 0)).
  { destruct two eqn:E2; [| lra]. unfold two in E2. apply Z.ltb_lt in E2.
    pose proof (alpha_bound 1 (W k (j - 1)%Z i) (W k j i) dy DY (proj1 (proj2 (C _ _ _)) E2) (proj1 (proj2 (C _ _ _)) E2)). pose proof (alpha_bound 1 (W k j i) (W k (j + 1)%Z i) dy DY (proj1 (proj2 (C _ _ _)) E2) (proj1 (proj2 (C _ _ _)) E2)). lra. }
  assert (A3 : (if three then dt / dz / 2 * (alpha 2 e (W (k - 1)%Z j i) (W k j i) + alpha 2 e (W k j i) (W (k + 1)%Z j i)) else 0) <= (if three then c else 0)).
  { destruct three eqn:E2; [| lra]. unfold three in E2. apply Z.ltb_lt in E2.
    pose proof (alpha_bound 2 (W (k - 1)%Z j i) (W k j i) dz DZ (proj2 (proj2 (C _ _ _)) E2) (proj2 (proj2 (C _ _ _)) E2)). pose proof (alpha_bound 2 (W k j i) (W (k + 1)%Z j i) dz DZ (proj2 (proj2 (C _ _ _)) E2) (proj2 (proj2 (C _ _ _)) E2)). lra. }
  unfold ndim in N. change (1 <? nx2 d)%Z with two in N. change (1 <? nx3 d)%Z with three in N. destruct two, three; lra.
Qed.
Lemma stage_split : forall k j i, active d k j i = true ->
  stage e d dx dy dz dt W k j i =
  vadd (vadd (vadd (sweep 0 e (dt / dx) (W k j (i - 1)%Z) (W k j i) (W k j (i + 1)%Z)) (vscale (rest k j i) (uof e (W k j i))))
    (if two then sweep 1 e (dt / dy) (W k (j - 1)%Z i) (W k j i) (W k (j + 1)%Z i) else zero))
    (if three then sweep 2 e (dt / dz) (W (k - 1)%Z j i) (W k j i) (W (k + 1)%Z j i) else zero).
Proof using DX DY DZ.
  intros k j i A. unfold stage, stage_of, AddFluxDivergence. rewrite A. unfold dflx. cbn [A1 A2 A3 V cart x1 x2 x3]. fold two. fold three. rewrite conserved_uof. unfold flux1, flux2, flux3, rest.
  replace (i + 1 - 1)%Z with i by lia. replace (j + 1 - 1)%Z with j by lia. replace (k + 1 - 1)%Z with k by lia. unfold sweep.
  set (f1 := store 0 (LLF e (load 0 (W k j i)) _)). set (g1 := store 0 (LLF e _ (load 0 (W k j i)))). set (f2 := store 1 (LLF e (load 1 (W k j i)) _)). set (g2 := store 1 (LLF e _ (load 1 (W k j i)))).
  set (f3 := store 2 (LLF e (load 2 (W k j i)) _)). set (g3 := store 2 (LLF e _ (load 2 (W k j i)))).
  set (a1 := alpha 0 _ _ _ + _). set (a2 := alpha 1 _ _ _ + _). set (a3 := alpha 2 _ _ _ + _). set (u := uof e (W k j i)). clearbody f1 g1 f2 g2 f3 g3 a1 a2 a3 u.
  assert (Z : forall q, q (zero) = 0 -> (q = u_d \/ q = u_m1 \/ q = u_m2 \/ q = u_m3 \/ q = u_e) -> forall b x, q (if b : bool then x else zero) = if b then q x else 0) by (intros q Hq _ [|] x; [reflexivity | exact Hq]).
  unfold vadd at 1 2 3. rewrite (Z u_d), (Z u_m1), (Z u_m2), (Z u_m3), (Z u_e) by (tauto || reflexivity). rewrite (Z u_d), (Z u_m1), (Z u_m2), (Z u_m3), (Z u_e) by (tauto || reflexivity).
  unfold vadd, vscale. cbn [u_d u_m1 u_m2 u_m3 u_e].
  apply cons_eq; exact (scal4 two three dx dy dz dt _ _ _ _ _ _ _ a1 a2 a3 DX DY DZ).
Qed.
Theorem stage_adm : forall k j i, admissible e (stage e d dx dy dz dt W k j i).
Proof using All.
  intros k j i. destruct (active d k j i) eqn:A.
  - destruct T as [TP|T0].
    + rewrite stage_split by exact A. assert (L1 : 0 < dt / dx) by (apply Rdiv_lt_0_compat; assumption). assert (L2 : 0 < dt / dy) by (apply Rdiv_lt_0_compat; assumption). assert (L3 : 0 < dt / dz) by (apply Rdiv_lt_0_compat; assumption).
      apply adm_weak; [apply adm_weak; [apply adm_weak |] |].
      * apply sweep_adm; auto.
      * apply weak_scale; [apply rest_nonneg | right; apply uof_adm; [exact G | apply GW]].
      * destruct two; [right; apply sweep_adm; auto | left; reflexivity].
      * destruct three; [right; apply sweep_adm; auto | left; reflexivity].
    + assert (S : stage e d dx dy dz dt W k j i = uof e (W k j i)); [| rewrite S; apply uof_adm; [exact G | apply GW]].
      unfold stage, stage_of, AddFluxDivergence. rewrite A, conserved_uof, <- T0. unfold uof. cbn [u_d u_m1 u_m2 u_m3 u_e]. unfold Rdiv. apply cons_eq; ring.
  - assert (S : stage e d dx dy dz dt W k j i = uof e (W k j i)); [| rewrite S; apply uof_adm; [exact G | apply GW]].
    unfold stage, stage_of, AddFluxDivergence. rewrite A, conserved_uof. reflexivity.
Qed.

(** ** Scalars. *)
Lemma mass_split : forall n wl wr, u_d (store n (LLF e (load n wl) (load n wr))) =
  (w_d wl * (alpha n e wl wr + w_vx (load n wl)) - w_d wr * (alpha n e wl wr - w_vx (load n wr))) / 2.
Proof using.
  intros n wl wr. rewrite flux_split. unfold vadd, vscale, fdir. cbn [u_d].
  assert (D : forall w, u_d (store n (physical e (load n w))) = w_d w * w_vx (load n w)) by (intro w; destruct n as [|[|n]]; reflexivity). rewrite !D. unfold uof. cbn [u_d]. field.
Qed.
Lemma alpha_v : forall n wl wr, good e wl -> good e wr -> 0 <= alpha n e wl wr + w_vx (load n wl) /\ 0 <= alpha n e wl wr - w_vx (load n wl) /\ 0 <= alpha n e wl wr + w_vx (load n wr) /\ 0 <= alpha n e wl wr - w_vx (load n wr).
Proof using G.
  intros n wl wr Gl Gr. unfold alpha. pose proof (cs_pos e wl G Gl). pose proof (cs_pos e wr G Gr).
  pose proof (Rmax_l (speed n e wl) (speed n e wr)) as A. pose proof (Rmax_r (speed n e wl) (speed n e wr)) as B. unfold speed in A at 1. unfold speed in B at 1.
  pose proof (Rle_abs (w_vx (load n wl))). pose proof (Rle_abs (w_vx (load n wr))). pose proof (Rle_abs (- w_vx (load n wl))) as X. pose proof (Rle_abs (- w_vx (load n wr))) as Y. rewrite Rabs_Ropp in X, Y. lra.
Qed.
Lemma upwind_out : forall m rl rr bound, 0 <= rl -> 0 <= rr -> m <= bound -> 0 <= bound -> ComputeUpwindFlux m rl rr <= bound * rl.
Proof using.
  intros m rl rr bound A B M P. unfold ComputeUpwindFlux. destruct (leR 0 m) eqn:L; [apply leR_true in L; apply Rmult_le_compat_r; assumption |]. apply leR_false in L.
  assert (0 <= bound * rl) by (apply Rmult_le_pos; assumption). assert (0 <= (- m) * rr) by (apply Rmult_le_pos; lra). lra.
Qed.
Lemma upwind_in : forall m rl rr bound, 0 <= rl -> 0 <= rr -> - m <= bound -> 0 <= bound -> - (bound * rr) <= ComputeUpwindFlux m rl rr.
Proof using.
  intros m rl rr bound A B M P. unfold ComputeUpwindFlux. destruct (leR 0 m) eqn:L; [apply leR_true in L | apply leR_false in L].
  - assert (0 <= bound * rr) by (apply Rmult_le_pos; assumption). assert (0 <= m * rl) by (apply Rmult_le_pos; lra). lra.
  - assert (- m * rr <= bound * rr) by (apply Rmult_le_compat_r; assumption). lra.
Qed.
(** The loss of scalar through the two faces of a direction. *)
Lemma sweep_loss : forall n lam wm w0 wp rm r0 rp, 0 <= lam -> good e wm -> good e w0 -> good e wp -> 0 <= rm -> 0 <= r0 -> 0 <= rp ->
  lam * (ComputeUpwindFlux (u_d (store n (LLF e (load n w0) (load n wp)))) r0 rp - ComputeUpwindFlux (u_d (store n (LLF e (load n wm) (load n w0)))) rm r0)
  <= lam / 2 * (alpha n e wm w0 + alpha n e w0 wp) * (r0 * w_d w0).
Proof using G.
  intros n lam wm w0 wp rm r0 rp L Gm G0 Gp Rm R0 Rp. rewrite !mass_split.
  destruct (alpha_v n w0 wp G0 Gp) as (P1 & _ & _ & P4). destruct (alpha_v n wm w0 Gm G0) as (M1 & _ & _ & M4). destruct Gm as [Dm _]. destruct G0 as [D0 _]. destruct Gp as [Dp _].
  set (ap := alpha n e w0 wp) in *. set (am := alpha n e wm w0) in *. clearbody ap am.
  assert (Z1 : 0 <= w_d w0 * (ap + w_vx (load n w0))) by (apply Rmult_le_pos; lra). assert (Z2 : 0 <= w_d wp * (ap - w_vx (load n wp))) by (apply Rmult_le_pos; lra).
  assert (Z3 : 0 <= w_d wm * (am + w_vx (load n wm))) by (apply Rmult_le_pos; lra). assert (Z4 : 0 <= w_d w0 * (am - w_vx (load n w0))) by (apply Rmult_le_pos; lra).
  pose proof (upwind_out ((w_d w0 * (ap + w_vx (load n w0)) - w_d wp * (ap - w_vx (load n wp))) / 2) r0 rp (w_d w0 * (ap + w_vx (load n w0)) / 2) R0 Rp ltac:(lra) ltac:(lra)) as A.
  pose proof (upwind_in ((w_d wm * (am + w_vx (load n wm)) - w_d w0 * (am - w_vx (load n w0))) / 2) rm r0 (w_d w0 * (am - w_vx (load n w0)) / 2) Rm R0 ltac:(lra) ltac:(lra)) as B.
  set (x := ComputeUpwindFlux _ r0 rp) in *. set (y := ComputeUpwindFlux _ rm r0) in *. clearbody x y.
  apply Rle_trans with (lam * (w_d w0 * (ap + w_vx (load n w0)) / 2 * r0 + w_d w0 * (am - w_vx (load n w0)) / 2 * r0)); [apply Rmult_le_compat_l; lra |]. right. field.
Qed.
Lemma scalar_nonneg : forall r k j i, (forall k j i, 0 <= r k j i) -> 0 <= scalar_stage e d dx dy dz dt W r k j i.
Proof using All.
  intros r k j i H. unfold scalar_stage, AddFluxDivergence. pose proof (GW k j i) as [D0 _].
  destruct (active d k j i) eqn:A; [| apply Rmult_le_pos; [apply H | lra]].
  unfold dflx. cbn [A1 A2 A3 V cart x1 x2 x3]. fold two. fold three. unfold sflux1, sflux2, sflux3, flux1, flux2, flux3. replace (i + 1 - 1)%Z with i by lia. replace (j + 1 - 1)%Z with j by lia. replace (k + 1 - 1)%Z with k by lia.
  pose proof (rest_nonneg k j i) as RN. unfold rest in RN.
  assert (L1 : 0 <= dt / dx) by (apply Rmult_le_pos; [exact T | left; apply Rinv_0_lt_compat; exact DX]). assert (L2 : 0 <= dt / dy) by (apply Rmult_le_pos; [exact T | left; apply Rinv_0_lt_compat; exact DY]). assert (L3 : 0 <= dt / dz) by (apply Rmult_le_pos; [exact T | left; apply Rinv_0_lt_compat; exact DZ]).
  pose proof (sweep_loss 0 (dt / dx) (W k j (i - 1)%Z) (W k j i) (W k j (i + 1)%Z) (r k j (i - 1)%Z) (r k j i) (r k j (i + 1)%Z) L1 (GW _ _ _) (GW _ _ _) (GW _ _ _) (H _ _ _) (H _ _ _) (H _ _ _)) as S1.
  pose proof (sweep_loss 1 (dt / dy) (W k (j - 1)%Z i) (W k j i) (W k (j + 1)%Z i) (r k (j - 1)%Z i) (r k j i) (r k (j + 1)%Z i) L2 (GW _ _ _) (GW _ _ _) (GW _ _ _) (H _ _ _) (H _ _ _) (H _ _ _)) as S2.
  pose proof (sweep_loss 2 (dt / dz) (W (k - 1)%Z j i) (W k j i) (W (k + 1)%Z j i) (r (k - 1)%Z j i) (r k j i) (r (k + 1)%Z j i) L3 (GW _ _ _) (GW _ _ _) (GW _ _ _) (H _ _ _) (H _ _ _) (H _ _ _)) as S3.
  assert (Q : 0 <= r k j i * w_d (W k j i)) by (apply Rmult_le_pos; [apply H | lra]). set (q := r k j i * w_d (W k j i)) in *.
  set (f1 := ComputeUpwindFlux _ _ _) in *. set (g1 := ComputeUpwindFlux _ (r k j (i - 1)%Z) _) in *.
  set (f2 := ComputeUpwindFlux _ (r k j i) (r k (j + 1)%Z i)) in *. set (g2 := ComputeUpwindFlux _ (r k (j - 1)%Z i) _) in *.
  set (f3 := ComputeUpwindFlux _ (r k j i) (r (k + 1)%Z j i)) in *. set (g3 := ComputeUpwindFlux _ (r (k - 1)%Z j i) _) in *.
  set (a1 := alpha 0 _ _ _ + _) in *. set (a2 := alpha 1 _ _ _ + _) in *. set (a3 := alpha 2 _ _ _ + _) in *. clearbody f1 g1 f2 g2 f3 g3 a1 a2 a3 q.
  destruct two, three.
  - replace (q - dt * (dy * dz * f1 - dy * dz * g1 + (dx * dz * f2 - dx * dz * g2) + (dx * dy * f3 - dx * dy * g3)) / (dx * dy * dz)) with (q - dt / dx * (f1 - g1) - dt / dy * (f2 - g2) - dt / dz * (f3 - g3)) by (field; repeat apply conj; intro X0; lra).
    assert (0 <= (1 - dt / dx / 2 * a1 - dt / dy / 2 * a2 - dt / dz / 2 * a3) * q) by (apply Rmult_le_pos; assumption). lra.
  - replace (q - dt * (dy * dz * f1 - dy * dz * g1 + (dx * dz * f2 - dx * dz * g2)) / (dx * dy * dz)) with (q - dt / dx * (f1 - g1) - dt / dy * (f2 - g2)) by (field; repeat apply conj; intro X0; lra).
    assert (0 <= (1 - dt / dx / 2 * a1 - dt / dy / 2 * a2 - 0) * q) by (apply Rmult_le_pos; assumption). lra.
  - replace (q - dt * (dy * dz * f1 - dy * dz * g1 + (dx * dy * f3 - dx * dy * g3)) / (dx * dy * dz)) with (q - dt / dx * (f1 - g1) - dt / dz * (f3 - g3)) by (field; repeat apply conj; intro X0; lra).
    assert (0 <= (1 - dt / dx / 2 * a1 - 0 - dt / dz / 2 * a3) * q) by (apply Rmult_le_pos; assumption). lra.
  - replace (q - dt * (dy * dz * f1 - dy * dz * g1) / (dx * dy * dz)) with (q - dt / dx * (f1 - g1)) by (field; repeat apply conj; intro X0; lra).
    assert (0 <= (1 - dt / dx / 2 * a1 - 0 - 0) * q) by (apply Rmult_le_pos; assumption). lra.
Qed.
(** Affine change of the scalar. *)
Lemma upwind_affine : forall a b m rl rr, ComputeUpwindFlux m (a * rl + b) (a * rr + b) = a * ComputeUpwindFlux m rl rr + b * m.
Proof using. intros. unfold ComputeUpwindFlux. destruct (leR 0 m); ring. Qed.
Lemma scalar_affine : forall a b r k j i, scalar_stage e d dx dy dz dt W (fun k j i => a * r k j i + b) k j i = a * scalar_stage e d dx dy dz dt W r k j i + b * u_d (stage e d dx dy dz dt W k j i).
Proof using.
  intros. unfold scalar_stage, stage, stage_of, AddFluxDivergence. cbn [u_d conserved]. destruct (active d k j i); [| ring].
  unfold dflx. cbn [x1 x2 x3]. unfold sflux1, sflux2, sflux3. rewrite !upwind_affine. destruct (Z.ltb 1 (nx2 d)), (Z.ltb 1 (nx3 d)); unfold Rdiv; ring.
Qed.
Theorem scalar_bounds : forall r lo hi k j i, (forall k j i, lo <= r k j i <= hi) ->
  lo * u_d (stage e d dx dy dz dt W k j i) <= scalar_stage e d dx dy dz dt W r k j i <= hi * u_d (stage e d dx dy dz dt W k j i).
Proof using All.
  intros r lo hi k j i H.
  pose proof (scalar_nonneg (fun k j i => 1 * r k j i + - lo) k j i) as A. rewrite scalar_affine in A.
  pose proof (scalar_nonneg (fun k j i => -1 * r k j i + hi) k j i) as B. rewrite scalar_affine in B.
  specialize (A ltac:(intros k' j' i'; destruct (H k' j' i'); lra)). specialize (B ltac:(intros k' j' i'; destruct (H k' j' i'); lra)). lra.
Qed.
End step.
