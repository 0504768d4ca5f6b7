(** The ring of blocks. *)
From Coq Require Import Reals ZArith List Bool Lia Lra Psatz.
From Verif Require Import Time_Model Time_Proofs2 Fv_Model Fv_Spec Fv_Proofs2 Rec_Model Rec_Spec Orb_Model Orb_Spec Orb_Proofs Orb_Proofs2.
Import ListNotations.
Local Open Scope R_scope.

Lemma ring_periodic : forall nb onx js st r, (0 < nb)%Z -> (0 < onx)%Z -> periodic (nb * onx) (ring_of nb onx js st r).
Proof.
  intros nb onx js st r Hb Ho x. unfold ring_of.
  rewrite Z.div_add by lia. rewrite Z_mod_plus_full.
  replace ((x / onx + nb) mod nb)%Z with ((x / onx) mod nb)%Z by (rewrite <- (Z_mod_plus_full (x / onx) 1 nb); f_equal; lia). reflexivity.
Qed.
Lemma ring_holds : forall nb onx js st r m, (0 < onx)%Z -> (0 <= m < nb)%Z -> holds onx js (st m r) m (ring_of nb onx js st r).
Proof.
  intros nb onx js st r m Ho Hm a Ha. unfold ring_of.
  rewrite Z.add_comm with (n := (m * onx)%Z), Z.div_add, Z.div_small, Z_mod_plus_full, (Z.mod_small a) by lia.
  rewrite Z.add_0_l, Z.mod_small by lia. reflexivity.
Qed.

Section Ring.
Variables (ppm full first : bool) (onx js nb : Z) (nh ns : nat) (offsets : list Z) (nrow : nat) (olen : nat -> R) (dx : R) (st old : Z -> nat -> line) (m : Z).
Hypothesis Honx : (0 < onx)%Z.
Hypothesis Hnb : (0 < nb)%Z.
Hypothesis Hdx : 0 < dx.
Hypothesis Hm : (0 <= m < nb)%Z.
Let off := fun r => fst (edge (olen r) dx).
Let eps := fun r => snd (edge (olen r) dx).
Hypothesis Hloops : map off (seq 0 nrow) = loops nh ns offsets.
Lemma window : forall r, (r < nrow)%nat -> window_ok ppm onx js (olen r) dx (full_row ppm full onx js nb off first st old m r) (ring_of nb onx js st r) (m * onx) full.
Proof using Honx Hnb Hm.
  intros r Hr x Hx Hw. apply (full_at ppm full onx js Honx nb nrow off Hnb first st old (ring_of nb onx js st)); try assumption.
  - apply ring_periodic; assumption.
  - intros b Hb. apply ring_holds; assumption.
Qed.
Lemma advance_displaced : exists u', advance ppm full onx js nb (Z.of_nat nh + Z.of_nat ns) offsets nrow off eps first st old m = Some u' /\
  (forall r j, (r < nrow)%nat -> (js <= j <= js + onx - 1)%Z -> Rabs (olen r) <= dx * IZR (onx - xgh ppm) ->
    u' r j = displaced (reconstructed ppm (ring_of nb onx js st r)) (olen r / dx) (m * onx + (j - js))%Z) /\
  (forall r j, (r < nrow)%nat -> ~ (js <= j <= js + onx - 1)%Z -> u' r j = st m r j).
Proof using Honx Hnb Hdx Hm Hloops.
  unfold advance. rewrite (buffers_ok ppm full onx js nb nh ns offsets nrow off Hloops). cbn [bind].
  eexists. split; [reflexivity|]. split; intros r j Hr Hj.
  - intro Hl. cbv beta. replace ((js <=? j)%Z && (j <=? je onx js)%Z)%bool with true by (symmetry; unfold je; apply andb_true_intro; split; apply Z.leb_le; lia).
    rewrite row_rows by assumption. unfold off, eps. apply (calculate_displaced ppm onx js (olen r) dx _ _ _ Honx Hdx Hl full); [|unfold je; lia].
    apply window; assumption.
  - cbv beta. destruct (Z.leb_spec js j), (Z.leb_spec j (je onx js)); cbn [andb]; try reflexivity. unfold je in *. lia.
Qed.
Lemma field_displaced : full = true -> exists F, field_fluxes ppm full onx js nb (Z.of_nat nh + Z.of_nat ns) offsets nrow off eps first st old m = Some F /\
  forall r j, (r < nrow)%nat -> (js <= j <= js + onx - 1)%Z -> Rabs (olen r) <= dx * IZR (onx - xgh ppm) ->
    st m r j - (F r (j + 1)%Z - F r j) = displaced (reconstructed ppm (ring_of nb onx js st r)) (olen r / dx) (m * onx + (j - js))%Z.
Proof using Honx Hnb Hdx Hm Hloops.
  intro Hf. unfold field_fluxes. rewrite (buffers_ok ppm full onx js nb nh ns offsets nrow off Hloops). cbn [bind].
  eexists. split; [reflexivity|]. intros r j Hr Hj Hl. cbv beta.
  rewrite row_rows by assumption.
  assert (W : window_ok ppm onx js (olen r) dx (full_row ppm full onx js nb off first st old m r) (ring_of nb onx js st r) (m * onx) true) by (rewrite <- Hf; apply window; assumption).
  unfold off, eps.
  rewrite !(field_global ppm onx js (olen r) dx _ _ _ Honx Hdx Hl _ W) by (unfold je; lia).
  replace (m * onx + (j + 1 - js))%Z with (m * onx + (j - js) + 1)%Z by lia.
  rewrite <- (passed_displaced ppm (olen r) dx _ Hdx). f_equal.
  replace j with (js + (j - js))%Z at 1 by lia. apply ring_holds; lia.
Qed.
End Ring.

(** ** Consequences of being a displacement *)
Lemma displaced_split : forall P s, exists k r, 0 <= r < 1 /\ forall y, displaced P s y = (P (y + k)%Z 1 - P (y + k)%Z r) + P (y + k + 1)%Z r.
Proof.
  intros P s. exists (Int_part (- s)), (- s - IZR (Int_part (- s))).
  destruct (base_Int_part (- s)) as [A B]. split; [lra|]. intro y.
  apply displaced_at; [lra|]. rewrite plus_IZR. ring.
Qed.
Lemma ring_shift : forall N g k, (0 < N)%Z -> periodic N g -> sum (map (fun x => g (x + k)%Z) (upto 0 (N - 1))) = sum (map g (upto 0 (N - 1))).
Proof.
  intros N g k HN Hp. pattern k. apply Z.bi_induction; [intros ? ? E; rewrite E; tauto| |].
  - apply sum_ext. intros. f_equal. lia.
  - intro z. assert (E : sum (map (fun x => g (x + Z.succ z)%Z) (upto 0 (N - 1))) - sum (map (fun x => g (x + z)%Z) (upto 0 (N - 1))) = 0).
    { rewrite <- sum_minus, (sum_ext _ _ (fun x => (fun y => g (y + z)%Z) (x + 1)%Z - (fun y => g (y + z)%Z) x)) by (intros; cbv beta; f_equal; f_equal; lia).
      rewrite (telescope' (fun y => g (y + z)%Z)) by lia. replace (N - 1 + 1 + z)%Z with (0 + z + N)%Z by lia. rewrite Hp. ring. }
    split; intro; lra.
Qed.
Lemma displaced_total : forall N (g : Z -> R) P s, (0 < N)%Z -> periodic N g -> (forall x, P x 1 = g x) -> (forall x r, P (x + N)%Z r = P x r) ->
  ring_total N (displaced P s) = ring_total N g.
Proof.
  intros N g P s HN Hp H1 HP. destruct (displaced_split P s) as (k & r & Hr & E). unfold ring_total.
  rewrite (sum_ext _ _ (fun x => g (x + k)%Z + ((fun y => P (y + k)%Z r) (x + 1)%Z - (fun y => P (y + k)%Z r) x))).
  2: { intros x _. rewrite E, H1. cbv beta. replace (x + 1 + k)%Z with (x + k + 1)%Z by lia. ring. }
  rewrite sum_plus, ring_shift by assumption. rewrite (telescope' (fun y => P (y + k)%Z r)) by lia.
  replace (N - 1 + 1 + k)%Z with (0 + k + N)%Z by lia. rewrite HP. ring.
Qed.
Lemma profile_local : forall ppm (g g' : Z -> R) x x' r, alike g g' x x' (-2) 2 -> reconstructed ppm g x r = reconstructed ppm g' x' r.
Proof.
  intros ppm g g' x x' r H. unfold reconstructed.
  assert (H0 : g x = g' x') by (eapply alike_at; [exact H|lia|lia]).
  destruct ppm.
  - unfold parabola. rewrite (ppm_local g g' x x' H), H0. reflexivity.
  - unfold linear, plm_slope. cbv beta iota zeta.
    replace (g (x + 1)%Z) with (g' (x' + 1)%Z) by (symmetry; eapply alike_at; [exact H|lia|lia]). replace (g (x - 1)%Z) with (g' (x' - 1)%Z) by (symmetry; eapply alike_at; [exact H|lia|lia]). rewrite H0. reflexivity.
Qed.
Lemma profile_periodic : forall ppm N (g : Z -> R), periodic N g -> forall x r, reconstructed ppm g (x + N)%Z r = reconstructed ppm g x r.
Proof. intros ppm N g H x r. apply profile_local. intros d _. replace (x + N + d)%Z with (x + d + N)%Z by lia. apply H. Qed.
Lemma sum_map_shift : forall (f : Z -> R) a n k, sum (map (fun x => f (x + k)%Z) (upto a (a + n - 1))) = sum (map f (upto (a + k) (a + k + n - 1))).
Proof.
  intros. unfold upto. rewrite !map_map. replace (a + k + n - 1 - (a + k) + 1)%Z with (a + n - 1 - a + 1)%Z by lia.
  f_equal. apply map_ext. intro. f_equal. lia.
Qed.
Lemma blocks_ring : forall nb onx js st r g, (0 <= nb)%Z -> (0 < onx)%Z -> (forall m, (0 <= m < nb)%Z -> holds onx js (st m r) m g) -> blocks_total nb onx js st r = ring_total (nb * onx) g.
Proof.
  intros nb onx js st r g Hb Ho H. unfold blocks_total, ring_total.
  revert H. pattern nb. apply natlike_ind; [| |assumption]; clear nb Hb.
  - intros _. reflexivity.
  - intros nb Hb IH H. replace (Z.succ nb - 1)%Z with (nb - 1 + 1)%Z by lia. rewrite upto_snoc, map_app, sum_app by lia.
    rewrite IH by (intros; apply H; lia). cbn [map]. rewrite sum_cons, sum_nil, Rplus_0_r.
    rewrite (upto_split 0 (Z.succ nb * onx - 1) (nb * onx)%Z) by nia. rewrite map_app, sum_app. f_equal.
    replace (nb - 1 + 1)%Z with nb by lia.
    replace (Z.succ nb * onx - 1)%Z with (0 + nb * onx + onx - 1)%Z by nia. replace (upto (nb * onx)) with (upto (0 + nb * onx)) by (f_equal; lia).
    rewrite <- sum_map_shift.
    replace (sum (map (st nb r) (upto js (js + onx - 1)))) with (sum (map (fun x => st nb r (x + js)%Z) (upto 0 (0 + onx - 1)))) by (rewrite sum_map_shift, Z.add_0_l; reflexivity).
    apply sum_ext. intros x Hx. rewrite in_upto in Hx.
    replace (x + js)%Z with (js + x)%Z by lia. rewrite H by lia. f_equal. lia.
Qed.
Lemma displaced_whole : forall ppm g n x, displaced (reconstructed ppm g) (IZR n) x = g (x - n)%Z.
Proof.
  intros. rewrite (displaced_at _ _ x (x - n) 0) by (rewrite ?minus_IZR; lra). rewrite !profile_zero, profile_one. ring.
Qed.
Lemma displaced_const : forall ppm (g : Z -> R) a s x, (forall y, g y = a) -> displaced (reconstructed ppm g) s x = a.
Proof.
  intros ppm g a s x H.
  assert (E : forall y r, reconstructed ppm g y r = reconstructed ppm g 0%Z r) by (intros; apply profile_local; intros d _; rewrite !H; reflexivity).
  unfold displaced. rewrite (E (_ + 1)%Z), !(E (Int_part _)), profile_one, H. ring.
Qed.
(** The limited linear profile stays between neighbouring means. *)
Lemma slope_bounds : forall (g : Z -> R) x, let sl := plm_slope false true (fun _ => 0) (fun _ => 0) g x in let a := g x - g (x - 1)%Z in let b := g (x + 1)%Z - g x in
  (0 <= a -> 0 <= sl <= 2 * a) /\ (a <= 0 -> 2 * a <= sl <= 0) /\ (0 <= b -> 0 <= sl <= 2 * b) /\ (b <= 0 -> 2 * b <= sl <= 0).
Proof.
  intros g x. cbv zeta. unfold plm_slope. cbv beta iota zeta. set (a := g x - g (x - 1)%Z). set (b := g (x + 1)%Z - g x).
  unfold leR. destruct (Rle_dec (a * b) 0) as [L|L]. { repeat split; lra. }
  assert (C : (0 < a /\ 0 < b) \/ (a < 0 /\ b < 0)) by (destruct (Rlt_le_dec 0 a), (Rlt_le_dec 0 b); try (left; split; assumption); right; nra).
  assert (E : 2 * (a * b) / (a + b) = 2 * a - 2 * (a * a) / (a + b)) by (field; intro; lra).
  assert (E' : 2 * (a * b) / (a + b) = 2 * b - 2 * (b * b) / (a + b)) by (field; intro; lra).
  destruct C as [[Ha Hb]|[Ha Hb]].
  - assert (0 < / (a + b)) by (apply Rinv_0_lt_compat; lra).
    assert (0 <= 2 * (a * b) / (a + b)) by (unfold Rdiv; apply Rmult_le_pos; nra).
    assert (0 <= 2 * (a * a) / (a + b)) by (unfold Rdiv; apply Rmult_le_pos; nra).
    assert (0 <= 2 * (b * b) / (a + b)) by (unfold Rdiv; apply Rmult_le_pos; nra).
    repeat split; lra.
  - assert (/ (a + b) < 0) by (apply Rinv_lt_0_compat; lra).
    assert (0 <= 2 * (a * b) * - / (a + b)) by (apply Rmult_le_pos; nra).
    assert (0 <= 2 * (a * a) * - / (a + b)) by (apply Rmult_le_pos; nra).
    assert (0 <= 2 * (b * b) * - / (a + b)) by (apply Rmult_le_pos; nra).
    unfold Rdiv in *. repeat split; lra.
Qed.
Lemma displaced_between : forall g s x, let y := Int_part (IZR x - s) in between (g y) (g (y + 1)%Z) (displaced (linear g) s x).
Proof.
  intros g s x. cbv zeta. unfold displaced. set (y := Int_part (IZR x - s)). set (r := IZR x - s - IZR y).
  assert (Hr : 0 <= r < 1) by (unfold r, y; destruct (base_Int_part (IZR x - s)); lra). clearbody r y.
  unfold linear. pose proof (slope_bounds g y) as S1. pose proof (slope_bounds g (y + 1)) as S2. cbv zeta in S1, S2.
  set (s1 := plm_slope _ _ _ _ g y) in *. set (s2 := plm_slope _ _ _ _ g (y + 1)) in *. clearbody s1 s2.
  replace (y + 1 - 1)%Z with y in S2 by lia.
  destruct S1 as (_ & _ & S1 & S1'). destruct S2 as (S2 & S2' & _ & _).
  set (A := g y) in *. set (B := g (y + 1)%Z) in *. clearbody A B. clear x s.
  replace (A * 1 + s1 * (1 * 1 - 1) / 2 - (A * r + s1 * (r * r - r) / 2) + (B * r + s2 * (r * r - r) / 2)) with ((1 - r) * (A + r * (s1 / 2)) + r * (B - (1 - r) * (s2 / 2))) by field.
  unfold between. destruct (Rle_dec A B) as [L|L].
  - rewrite Rmin_left, Rmax_right by lra. specialize (S1 ltac:(lra)). specialize (S2 ltac:(lra)).
    assert (A <= A + r * (s1 / 2) <= B) by nra. assert (A <= B - (1 - r) * (s2 / 2) <= B) by nra.
    split; nra.
  - rewrite Rmin_right, Rmax_left by lra. specialize (S1' ltac:(lra)). specialize (S2' ltac:(lra)).
    assert (B <= A + r * (s1 / 2) <= A) by nra. assert (B <= B - (1 - r) * (s2 / 2) <= A) by nra.
    split; nra.
Qed.
