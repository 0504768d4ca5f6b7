(** Proofs for C92: the displaced values. *)
From Coq Require Import Reals ZArith Lra Lia List Bool.
From Verif Require Import Time_Model Fv_Model Fv_Spec Fv_Proofs2 Rec_Model Rec_Spec Orb_Model Orb_Spec Orb_Proofs Orb_Proofs2 Orb_Proofs3 Shb_Model Shb_Proofs.
Import ListNotations.
Local Open Scope R_scope.

Lemma trunc_nonneg x : 0 <= x -> (0 <= trunc x)%Z /\ IZR (trunc x) <= x < IZR (trunc x) + 1.
Proof.
  intros H. unfold trunc. unfold leR. destruct (Rle_dec 0 x); [ | lra]. pose proof (base_Int_part x) as [A B]. split; [ | lra].
  assert (-1 < IZR (Int_part x)) by lra. apply lt_IZR in H0. lia.
Qed.
Lemma amount_value m yshear : (0 < nx2 m)%Z -> (0 < nblx2 m)%Z -> 0 < x2size m -> 0 <= yshear ->
  exists k J eps, amount m yshear = ((J mod nx2 m)%Z, (J / nx2 m)%Z, eps) /\ (0 <= J)%Z /\ 0 <= eps < 1 /\ yshear / dx m = IZR (k * (nblx2 m * nx2 m)) + IZR J + eps /\ 0 < dx m.
Proof.
  intros Hn Hb Hx Hy. assert (HN : 0 < IZR (nblx2 m * nx2 m)) by (apply IZR_lt; nia).
  assert (D : 0 < dx m) by (unfold dx; apply Rdiv_lt_0_compat; assumption).
  unfold amount. set (k := trunc (yshear / x2size m)). set (deltay := fmod yshear (x2size m)).
  assert (Q0 : 0 <= yshear / x2size m) by (apply Rmult_le_pos; [exact Hy | left; apply Rinv_0_lt_compat; exact Hx]).
  destruct (trunc_nonneg _ Q0) as (K0 & K1 & K2). fold k in K0, K1, K2.
  assert (E : deltay = yshear - x2size m * IZR k) by reflexivity.
  assert (D0 : 0 <= deltay). { rewrite E. replace yshear with (x2size m * (yshear / x2size m)) at 1 by (field; lra). nra. }
  assert (Q1 : 0 <= deltay / dx m) by (apply Rmult_le_pos; [exact D0 | left; apply Rinv_0_lt_compat; exact D]).
  destruct (trunc_nonneg _ Q1) as (J0 & J1 & J2). set (J := trunc (deltay / dx m)) in *.
  exists k, J, (fmod deltay (dx m) / dx m).
  assert (EP : fmod deltay (dx m) / dx m = deltay / dx m - IZR J). { unfold fmod. fold J. field. lra. }
  split; [ | split; [exact J0 | split; [rewrite EP; lra | split; [ | exact D]]]].
  - rewrite Z.quot_div_nonneg by lia. rewrite Z.mod_eq by lia. f_equal. f_equal. lia.
  - rewrite EP. rewrite E. rewrite mult_IZR. unfold dx. field. split; lra.
Qed.

Lemma profile_mul ppm N g : periodic N g -> forall k x r, reconstructed ppm g (x + k * N)%Z r = reconstructed ppm g x r.
Proof. intros H k x r. apply profile_local. intros d _. replace (x + k * N + d)%Z with (x + d + k * N)%Z by lia. apply periodic_mul. exact H. Qed.

Lemma remapped_value m flux upper yshear src old b g :
  (xgh (ppm m) <= NGHOST m)%Z -> (NGHOST m + xgh (ppm m) <= nx2 m)%Z -> (0 <= b < nblx2 m)%Z -> 0 < x2size m -> 0 <= yshear ->
  periodic (nblx2 m * nx2 m) g -> (forall s, (0 <= s < nblx2 m)%Z -> holds (nx2 m) (js m) (src s) s g) ->
  exists arr, exchange m flux upper yshear src old b = Some arr /\
    forall j, (js m - (if flux then 0 else NGHOST m) <= j <= je m + (if flux then 0 else NGHOST m))%Z ->
      remapped m upper (snd (amount m yshear)) arr j = displaced (reconstructed (ppm m) g) (if upper then - (yshear / dx m) else yshear / dx m) (b * nx2 m + (j - js m))%Z.
Proof.
  intros A B Hb Hx Hy Hg Hs. pose proof (xg_pos (ppm m)) as X.
  destruct (amount_value m yshear ltac:(lia) ltac:(lia) Hx Hy) as (k & J & eps & Am & J0 & E0 & Y & D).
  pose proof (Z.mod_pos_bound J (nx2 m) ltac:(lia)) as Mb. pose proof (Z.div_mod J (nx2 m) ltac:(lia)) as Dm.
  destruct (exchange_value m flux upper yshear src old b g _ _ _ A B Hb Hg Hs Am Mb) as (arr & Ex & V). exists arr. split; [exact Ex | ].
  intros j Hj. rewrite Am. cbn [snd]. set (N := (nblx2 m * nx2 m)%Z) in *. set (x := (b * nx2 m + (j - js m))%Z). unfold remapped.
  set (q := if flux then 0%Z else NGHOST m) in *. rewrite Y. clear Y.
  destruct upper; cbn [num].
  - assert (P : forall y, place m true (J mod nx2 m) (J / nx2 m) b y = (x + (y - xgh (ppm m)) - j + J)%Z) by (intros y; unfold place, jo_of, Ng_of, num, x; lia).
    replace (1 - IZR 1) with 0 by lra. replace ((1 - 2 * IZR 1) * eps) with (- eps) by lra.
    rewrite (flux_local (ppm m) arr g (j + 1 + xgh (ppm m))%Z (x + J + 1)%Z) by (intros d Hd; rewrite V by lia; rewrite P; f_equal; lia).
    rewrite (flux_local (ppm m) arr g (j + xgh (ppm m))%Z (x + J)%Z) by (intros d Hd; rewrite V by lia; rewrite P; f_equal; lia).
    rewrite V by lia. rewrite P. rewrite !flux_left. rewrite Ropp_involutive.
    rewrite (displaced_at _ _ x (x + J + k * N)%Z eps) by (rewrite ?plus_IZR; lra).
    replace (x + J + k * N + 1)%Z with (x + J + 1 + k * N)%Z by lia. rewrite !(profile_mul _ N g Hg). rewrite profile_one. replace (x + (j + (xgh (ppm m) + 1 - 1) - xgh (ppm m)) - j + J)%Z with (x + J)%Z by lia. ring.
  - assert (P : forall y, place m false (J mod nx2 m) (J / nx2 m) b y = (x + (y - xgh (ppm m)) - j - 1 - J)%Z) by (intros y; unfold place, jo_of, Ng_of, num, x; lia).
    replace (1 - IZR 0) with 1 by lra. replace ((1 - 2 * IZR 0) * eps) with eps by lra.
    rewrite (flux_local (ppm m) arr g (j + 1 + xgh (ppm m))%Z (x - J)%Z) by (intros d Hd; rewrite V by lia; rewrite P; f_equal; lia).
    rewrite (flux_local (ppm m) arr g (j + xgh (ppm m))%Z (x - J - 1)%Z) by (intros d Hd; rewrite V by lia; rewrite P; f_equal; lia).
    rewrite V by lia. rewrite P. rewrite !flux_right. replace (x + (j + (xgh (ppm m) + 1 - 0) - xgh (ppm m)) - j - 1 - J)%Z with (x - J)%Z by lia.
    destruct (Req_EM_T eps 0) as [E | E].
    + rewrite (displaced_at _ _ x (x - J + (- k) * N)%Z 0) by (rewrite ?plus_IZR, ?minus_IZR, ?mult_IZR, ?opp_IZR; lra). rewrite E, Rminus_0_r.
      rewrite !profile_zero. rewrite (profile_mul _ N g Hg). rewrite !profile_one. ring.
    + rewrite (displaced_at _ _ x (x - J - 1 + (- k) * N)%Z (1 - eps)) by (rewrite ?plus_IZR, ?minus_IZR, ?mult_IZR, ?opp_IZR; lra).
      replace (x - J - 1 + - k * N + 1)%Z with (x - J + (- k) * N)%Z by lia. rewrite !(profile_mul _ N g Hg). rewrite !profile_one. ring.
Qed.
