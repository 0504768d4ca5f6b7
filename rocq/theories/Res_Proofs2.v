(** The code on a periodic mesh in one block. *)
From Coq Require Import Reals ZArith List Bool Lra Lia Psatz.
From Verif Require Import Fv_Model Fv_Spec Pos_Model Lud_Spec Lud_Proofs Tor_Spec Tor_Proofs Dif_Model Dif_Spec Dif_Proofs Res_Model Res_Spec Res_Proofs.
Import ListNotations.
Local Open Scope R_scope.

Lemma mod1 (g : Z -> R) N : (0 < N)%Z -> (forall i, g (i + N)%Z = g i) -> forall i, g i = g (i mod N)%Z.
Proof.
  intros HN P i. assert (Q : forall m i, g (i + Z.of_nat m * N)%Z = g i).
  { induction m; intros i0; [f_equal; lia|]. replace (i0 + Z.of_nat (S m) * N)%Z with (i0 + Z.of_nat m * N + N)%Z by lia. rewrite P. auto. }
  assert (H : (i = i mod N + i / N * N)%Z) by (pose proof (Z.div_mod i N); lia).
  destruct (Z_le_dec 0 (i / N)).
  - rewrite H at 1. replace (i / N)%Z with (Z.of_nat (Z.to_nat (i / N))) by lia. apply Q.
  - rewrite <- (Q (Z.to_nat (- (i / N))) i). f_equal. rewrite H at 1. rewrite Z2Nat.id by lia. ring.
Qed.
Lemma per_mod n1 n2 n3 f : (0 < n1)%nat -> (0 < n2)%nat -> (0 < n3)%nat -> periodic n1 n2 n3 f -> forall k j i, f k j i = f (k mod Z.of_nat n3)%Z (j mod Z.of_nat n2)%Z (i mod Z.of_nat n1)%Z.
Proof.
  intros H1 H2 H3 P k j i. rewrite (mod1 (fun i => f k j i) (Z.of_nat n1)) by (try lia; intros; apply P). rewrite (mod1 (fun j => f k j (i mod Z.of_nat n1)%Z) (Z.of_nat n2)) by (try lia; intros; apply P).
  rewrite (mod1 (fun k => f k (j mod Z.of_nat n2)%Z (i mod Z.of_nat n1)%Z) (Z.of_nat n3)) by (try lia; intros; apply P). reflexivity.
Qed.

Lemma dt_oa_le d rmax w1 w2 w3 a c ohm ad k j i : (ks d <= k <= ke d)%Z -> (js d <= j <= je d)%Z -> (is_ d <= i <= ie d)%Z -> posR a || posR c = true ->
  dt_oa d rmax w1 w2 w3 a c ohm ad <= fac d * (len d w1 w2 w3 k j i * len d w1 w2 w3 k j i) / (eta_total a c ohm ad k j i + TINY_NUMBER).
Proof.
  intros Hk Hj Hi Hp. unfold dt_oa. rewrite Hp.
  assert (A : forall k j x i, Rmin x (fac d * (len d w1 w2 w3 k j i * len d w1 w2 w3 k j i) / (eta_total a c ohm ad k j i + TINY_NUMBER)) <= x) by (intros; apply Rmin_l).
  apply fold_hit with k; [| |apply in_upto; auto].
  - intros. apply fold_le. intros. apply fold_le. intros. apply A.
  - intros. apply fold_hit with j; [| |apply in_upto; auto].
    + intros. apply fold_le. intros. apply A.
    + intros. apply fold_hit with i; [| |apply in_upto; auto]; intros; [apply A|apply Rmin_r].
Qed.

Section Mesh.
Variables n1 n2 n3 : nat.
Variables dx dy dz : R.
Hypothesis Hx : 0 < dx.
Hypothesis Hy : 0 < dy.
Hypothesis Hz : 0 < dz.
Hypothesis N1 : (0 < n1)%nat.
Hypothesis N2 : (0 < n2)%nat.
Hypothesis N3 : (0 < n3)%nat.
Hypothesis H23 : n2 = 1%nat -> n3 = 1%nat.
Notation box := (box_sum n1 n2 n3).
Notation per := (periodic n1 n2 n3).
Notation d := (whole n1 n2 n3).
Notation D1m := (D1m dx).
Notation D2m := (D2m dy).
Notation D3m := (D3m dz).

Lemma f2_whole : f2 d = negb (Nat.eqb n2 1).
Proof. unfold f2, nx2, whole; cbn [je js]. destruct (Nat.eqb_spec n2 1); cbn [negb]; [apply Z.ltb_ge|apply Z.ltb_lt]; lia. Qed.
Lemma f3_whole : f3 d = negb (Nat.eqb n3 1).
Proof. unfold f3, nx3, whole; cbn [ke ks]. destruct (Nat.eqb_spec n3 1); cbn [negb]; [apply Z.ltb_ge|apply Z.ltb_lt]; lia. Qed.
Lemma nx2_whole : Z.eqb (nx2 d) 1 = Nat.eqb n2 1.
Proof. unfold nx2, whole; cbn [je js]. destruct (Nat.eqb_spec n2 1); [apply Z.eqb_eq|apply Z.eqb_neq]; lia. Qed.
Lemma nx3_whole : Z.eqb (nx3 d) 1 = Nat.eqb n3 1.
Proof. unfold nx3, whole; cbn [ke ks]. destruct (Nat.eqb_spec n3 1); [apply Z.eqb_eq|apply Z.eqb_neq]; lia. Qed.

Definition J1 (b : vec) : arr := fun k j i => D2m (x3 b) k j i - D3m (x2 b) k j i.
Definition J2 (b : vec) : arr := fun k j i => D3m (x1 b) k j i - D1m (x3 b) k j i.
Definition J3 (b : vec) : arr := fun k j i => D1m (x2 b) k j i - D2m (x1 b) k j i.

Lemma current b : periodic_field n1 n2 n3 b -> forall k j i,
  let J := CalcCurrent d (flat_dual dx dy dz) b in x1 J k j i = J1 b k j i /\ x2 J k j i = J2 b k j i /\ x3 J k j i = J3 b k j i.
Proof.
  intros [P1 [P2 P3]] k j i. cbv zeta. unfold CalcCurrent, J1, J2, J3, Res_Proofs.D1m, Res_Proofs.D2m, Res_Proofs.D3m. rewrite f2_whole, f3_whole. cbn [x1 x2 x3 len1 len2 len3 ar1 ar2 ar3 flat_dual].
  destruct (Nat.eqb_spec n2 1) as [E2|E2], (Nat.eqb_spec n3 1) as [E3|E3]; cbn [negb]; try (exfalso; auto; fail);
    rewrite ?(flat2m n1 n2 n3 _ k j i E2 P1), ?(flat2m n1 n2 n3 _ k j i E2 P3), ?(flat3m n1 n2 n3 _ k j i E3 P1), ?(flat3m n1 n2 n3 _ k j i E3 P2); repeat split; field; lra.
Qed.

(** A stage of CT with an electric field that agrees with a periodic one. *)
Lemma ct_stage e b E1 E2 E3 dt : per E1 -> per E2 -> per E3 ->
  (n2 <> 1%nat -> forall k j i, (0 <= k <= Z.of_nat n3)%Z -> (0 <= j <= Z.of_nat n2)%Z -> (0 <= i <= Z.of_nat n1)%Z -> x1 e k j i = E1 k j i) ->
  (forall k j i, (0 <= k <= Z.of_nat n3)%Z -> (0 <= j < Z.of_nat n2)%Z -> (0 <= i <= Z.of_nat n1)%Z -> x2 e k j i = E2 k j i) ->
  (forall k j i, (0 <= k < Z.of_nat n3)%Z -> (0 <= j <= Z.of_nat n2)%Z -> (0 <= i <= Z.of_nat n1)%Z -> x3 e k j i = E3 k j i) ->
  let b' := CT d (cart dx dy dz) e dt b in
  forall k j i, (0 <= k < Z.of_nat n3)%Z -> (0 <= j < Z.of_nat n2)%Z -> (0 <= i < Z.of_nat n1)%Z ->
  x1 b' k j i = x1 b k j i - dt * C1 dy dz E1 E2 E3 k j i /\ x2 b' k j i = x2 b k j i - dt * C2 dx dz E1 E2 E3 k j i /\ x3 b' k j i = x3 b k j i - dt * C3 dx dy E1 E2 E3 k j i.
Proof.
  intros P1 P2 P3 G1 G2 G3. cbv zeta. intros k j i Hk Hj Hi. unfold CT. fold (f2 d) (f3 d). rewrite f2_whole, f3_whole. cbn [x1 x2 x3 A1 A2 A3 L1 L2 L3 cart].
  assert (W1 : within (ks d) (ke d) k = true) by (apply within_iff; cbn; lia). assert (W1' : within (ks d) (ke d + 1) k = true) by (apply within_iff; cbn; lia).
  assert (W2 : within (js d) (je d) j = true) by (apply within_iff; cbn; lia). assert (W2' : within (if pole_in d then js d + 1 else js d)%Z (if pole_out d then je d else je d + 1)%Z j = true) by (apply within_iff; cbn; lia).
  assert (W3 : within (is_ d) (ie d) i = true) by (apply within_iff; cbn; lia). assert (W3' : within (is_ d) (ie d + 1) i = true) by (apply within_iff; cbn; lia).
  rewrite W1, W1', W2, W2', W3, W3'. cbn [andb]. unfold C1, C2, C3, D1p, D2p, D3p.
  rewrite !(G2 _ _ _) by lia. rewrite !(G3 _ _ _) by lia.
  destruct (Nat.eqb_spec n2 1) as [E|E], (Nat.eqb_spec n3 1) as [F|F]; cbn [negb]; try (exfalso; auto; fail); [| |].
  - rewrite !(flat2 n1 n2 n3 _ k j i E P1), !(flat2 n1 n2 n3 _ k j i E P3), !(flat3 n1 n2 n3 _ k j i F P1), !(flat3 n1 n2 n3 _ k j i F P2). repeat split; field; lra.
  - rewrite !(G1 E) by lia. rewrite !(flat3 n1 n2 n3 _ k j i F P1), !(flat3 n1 n2 n3 _ k j i F P2). repeat split; field; lra.
  - rewrite !(G1 E) by lia. repeat split; field; lra.
Qed.

(** Averages of a coefficient at edges. *)
Definition h1 (eta : arr) : arr := fun k j i => / 4 * (eta k j i + eta k (j - 1)%Z i + eta (k - 1)%Z j i + eta (k - 1)%Z (j - 1)%Z i).
Definition h2 (eta : arr) : arr := fun k j i => / 4 * (eta k j i + eta k j (i - 1)%Z + eta (k - 1)%Z j i + eta (k - 1)%Z j (i - 1)%Z).
Definition h3 (eta : arr) : arr := fun k j i => / 4 * (eta k j i + eta k j (i - 1)%Z + eta k (j - 1)%Z i + eta k (j - 1)%Z (i - 1)%Z).
Lemma per_h1 eta : per eta -> per (h1 eta).
Proof. intros P. unfold h1. apply per_mult; [apply per_const|]. repeat apply per_plus; auto using per_im, per_jm, per_km. exact (per_km n1 n2 n3 (fun k j i => eta k (j - 1)%Z i) (per_jm n1 n2 n3 eta P)). Qed.
Lemma per_h2 eta : per eta -> per (h2 eta).
Proof. intros P. unfold h2. apply per_mult; [apply per_const|]. repeat apply per_plus; auto using per_im, per_jm, per_km. exact (per_km n1 n2 n3 (fun k j i => eta k j (i - 1)%Z) (per_im n1 n2 n3 eta P)). Qed.
Lemma per_h3 eta : per eta -> per (h3 eta).
Proof. intros P. unfold h3. apply per_mult; [apply per_const|]. repeat apply per_plus; auto using per_im, per_jm, per_km. exact (per_jm n1 n2 n3 (fun k j i => eta k j (i - 1)%Z) (per_im n1 n2 n3 eta P)). Qed.
Lemma per_J b : periodic_field n1 n2 n3 b -> per (J1 b) /\ per (J2 b) /\ per (J3 b).
Proof. intros [P1 [P2 P3]]. unfold J1, J2, J3. split; [|split]; apply per_minus; auto using per_D1m, per_D2m, per_D3m. Qed.
Lemma any3 f k k' j i : n3 = 1%nat -> per f -> f k j i = f k' j i.
Proof. intros E P. rewrite (per_mod n1 n2 n3 f N1 N2 N3 P k j i), (per_mod n1 n2 n3 f N1 N2 N3 P k' j i), E. change (Z.of_nat 1) with 1%Z. rewrite !Z.mod_1_r. reflexivity. Qed.
Lemma any2 f k j j' i : n2 = 1%nat -> per f -> f k j i = f k j' i.
Proof. intros E P. rewrite (per_mod n1 n2 n3 f N1 N2 N3 P k j i), (per_mod n1 n2 n3 f N1 N2 N3 P k j' i), E. change (Z.of_nat 1) with 1%Z. rewrite !Z.mod_1_r. reflexivity. Qed.

Definition O1 (eta : arr) (b : vec) : arr := fun k j i => h1 eta k j i * J1 b k j i.
Definition O2 (eta : arr) (b : vec) : arr := fun k j i => h2 eta k j i * J2 b k j i.
Definition O3 (eta : arr) (b : vec) : arr := fun k j i => h3 eta k j i * J3 b k j i.
Lemma per_O eta b : per eta -> periodic_field n1 n2 n3 b -> per (O1 eta b) /\ per (O2 eta b) /\ per (O3 eta b).
Proof. intros P Q. destruct (per_J b Q) as [A [B C]]. unfold O1, O2, O3. split; [|split]; apply per_mult; auto using per_h1, per_h2, per_h3. Qed.

Ltac inside := match goal with |- context [if ?c then _ else _] => let W := fresh in assert (W : c = true); [rewrite ?andb_true_iff, ?orb_true_iff, ?Z.eqb_eq, ?within_iff; cbn [ks ke js je is_ ie whole]; lia|rewrite W; clear W] end.
Lemma ohmic eta b : per eta -> periodic_field n1 n2 n3 b -> let e := OhmicEMF d eta (CalcCurrent d (flat_dual dx dy dz) b) no_field in
  (n2 <> 1%nat -> forall k j i, (0 <= k <= Z.of_nat n3)%Z -> (0 <= j <= Z.of_nat n2)%Z -> (0 <= i <= Z.of_nat n1)%Z -> x1 e k j i = O1 eta b k j i) /\
  (forall k j i, (0 <= k <= Z.of_nat n3)%Z -> (0 <= j < Z.of_nat n2)%Z -> (0 <= i <= Z.of_nat n1)%Z -> x2 e k j i = O2 eta b k j i) /\
  (forall k j i, (0 <= k < Z.of_nat n3)%Z -> (0 <= j <= Z.of_nat n2)%Z -> (0 <= i <= Z.of_nat n1)%Z -> x3 e k j i = O3 eta b k j i).
Proof.
  intros P Q. cbv zeta. destruct (per_O eta b P Q) as [Q1 [Q2 Q3]]. unfold OhmicEMF. rewrite nx2_whole, nx3_whole.
  assert (Cu : forall k j i, let J := CalcCurrent d (flat_dual dx dy dz) b in x1 J k j i = J1 b k j i /\ x2 J k j i = J2 b k j i /\ x3 J k j i = J3 b k j i) by (apply current; auto). cbv zeta in Cu.
  destruct (Nat.eqb_spec n2 1) as [E|E]; [|destruct (Nat.eqb_spec n3 1) as [F|F]]; cbn [x1 x2 x3 no_field]; (split; [|split]); try (intros; exfalso; auto; fail); intros; try inside; rewrite ?(proj1 (Cu _ _ _)), ?(proj1 (proj2 (Cu _ _ _))), ?(proj2 (proj2 (Cu _ _ _))).
  - rewrite (any3 _ k 0%Z j i (H23 E) Q2), (any2 _ 0%Z j 0%Z i E Q2). unfold O2, h2. cbn [ks js whole]. rewrite (flat3m n1 n2 n3 _ 0 0 i (H23 E) P), (flat3m n1 n2 n3 _ 0 0 (i - 1) (H23 E) P). field.
  - rewrite (any3 _ k 0%Z j i (H23 E) Q3), (any2 _ 0%Z j 0%Z i E Q3). unfold O3, h3. cbn [ks js whole]. rewrite (flat2m n1 n2 n3 _ 0 0 i E P), (flat2m n1 n2 n3 _ 0 0 (i - 1) E P). field.
  - rewrite (any3 _ k 0%Z j i F Q1). unfold O1, h1. cbn [ks js whole]. rewrite (flat3m n1 n2 n3 _ 0 j i F P), (flat3m n1 n2 n3 _ 0 (j - 1) i F P). field.
  - rewrite (any3 _ k 0%Z j i F Q2). unfold O2, h2. cbn [ks js whole]. rewrite (flat3m n1 n2 n3 _ 0 j i F P), (flat3m n1 n2 n3 _ 0 j (i - 1) F P). field.
  - rewrite (any3 _ k 0%Z j i F Q3). unfold O3, h3. cbn [ks js whole]. ring.
  - unfold O1, h1. ring.
  - unfold O2, h2. ring.
  - unfold O3, h3. ring.
Qed.

(** The limit at the edges. *)
Lemma limit_cells rmax a c ohm ad dt : per ohm -> per ad -> (forall k j i, 0 <= ohm k j i) -> (forall k j i, 0 <= ad k j i) -> 0 <= dt -> posR a || posR c = true ->
  dt <= dt_oa d rmax (uniform dx) (uniform dy) (uniform dz) a c ohm ad -> forall k j i, dt * eta_total a c ohm ad k j i * stiff n2 n3 dx dy dz <= 2.
Proof.
  intros P Q Po Pa Hdt Hp Hl k j i.
  assert (Pt : per (eta_total a c ohm ad)). { unfold eta_total. intros k0 j0 i0. destruct (P k0 j0 i0) as [-> [-> ->]], (Q k0 j0 i0) as [-> [-> ->]]. auto. }
  assert (T0 : forall k j i, 0 <= eta_total a c ohm ad k j i). { intros. unfold eta_total. specialize (Po k0 j0 i0). specialize (Pa k0 j0 i0). destruct (posR a), (posR c); lra. }
  rewrite (per_mod n1 n2 n3 _ N1 N2 N3 Pt). set (k0 := (k mod Z.of_nat n3)%Z). set (j0 := (j mod Z.of_nat n2)%Z). set (i0 := (i mod Z.of_nat n1)%Z).
  pose proof (Z.mod_pos_bound k (Z.of_nat n3) ltac:(lia)) as Bk. pose proof (Z.mod_pos_bound j (Z.of_nat n2) ltac:(lia)) as Bj. pose proof (Z.mod_pos_bound i (Z.of_nat n1) ltac:(lia)) as Bi. fold k0 in Bk. fold j0 in Bj. fold i0 in Bi.
  assert (D : dt <= fac d * (len d (uniform dx) (uniform dy) (uniform dz) k0 j0 i0 * len d (uniform dx) (uniform dy) (uniform dz) k0 j0 i0) / (eta_total a c ohm ad k0 j0 i0 + TINY_NUMBER)) by (eapply Rle_trans; [exact Hl|apply dt_oa_le; auto; cbn; lia]).
  specialize (T0 k0 j0 i0). set (y := eta_total a c ohm ad k0 j0 i0) in *. pose proof tiny_pos as Ty.
  set (X := fac d * _) in D. assert (DX : dt * y <= X). { assert (dt * (y + TINY_NUMBER) <= X); [|nra]. replace X with (X / (y + TINY_NUMBER) * (y + TINY_NUMBER)) by (field; lra). apply Rmult_le_compat_r; lra. }
  assert (K : X * stiff n2 n3 dx dy dz <= 2).
  { unfold X, stiff, fac, len, uniform. rewrite f2_whole, f3_whole.
    assert (U : forall l h, 0 < l -> l <= h -> l * l * (4 / (h * h)) <= 4). { intros l h Pl Lh. replace (l * l * (4 / (h * h))) with (4 * (l * l) / (h * h)) by (field; lra). apply Rmult_le_reg_r with (h * h); [nra|]. unfold Rdiv. rewrite Rmult_assoc, Rinv_l by nra. nra. }
    destruct (Nat.eqb_spec n2 1) as [E|E], (Nat.eqb_spec n3 1) as [F|F]; cbn [negb]; try (exfalso; auto; fail).
    - pose proof (U dx dx Hx (Rle_refl _)). lra.
    - set (l := Rmin dx dy). assert (0 < l) by (apply Rmin_pos; auto). pose proof (U l dx ltac:(auto) (Rmin_l _ _)). pose proof (U l dy ltac:(auto) (Rmin_r _ _)). lra.
    - set (l := Rmin (Rmin dx dy) dz). assert (0 < l) by (apply Rmin_pos; auto; apply Rmin_pos; auto). pose proof (U l dx ltac:(auto) (Rle_trans _ _ _ (Rmin_l _ _) (Rmin_l _ _))). pose proof (U l dy ltac:(auto) (Rle_trans _ _ _ (Rmin_l _ _) (Rmin_r _ _))). pose proof (U l dz ltac:(auto) (Rmin_r _ _)). lra. }
  eapply Rle_trans; [|exact K]. apply Rmult_le_compat_r; auto. unfold stiff. assert (0 < 4 / (dx * dx)) by (apply Rmult_lt_0_compat; [lra|apply Rinv_0_lt_compat; nra]). assert (0 < 4 / (dy * dy)) by (apply Rmult_lt_0_compat; [lra|apply Rinv_0_lt_compat; nra]). assert (0 < 4 / (dz * dz)) by (apply Rmult_lt_0_compat; [lra|apply Rinv_0_lt_compat; nra]).
  destruct (Nat.eqb n2 1), (Nat.eqb n3 1); lra.
Qed.

Lemma ohmic_energy rmax a ohm ad b bc dt : 0 < a -> per ohm -> (forall k j i, 0 <= ohm k j i) -> periodic_field n1 n2 n3 b -> 0 <= dt ->
  dt <= dt_oa d rmax (uniform dx) (uniform dy) (uniform dz) a 0 ohm ad ->
  magnetic_energy n1 n2 n3 (field_stage d dx dy dz a 0 dt ohm ad b bc) <= magnetic_energy n1 n2 n3 b.
Proof.
  intros Ha P Po Q Hdt Hl. destruct (per_O ohm b P Q) as [Q1 [Q2 Q3]]. destruct (ohmic ohm b P Q) as [G1 [G2 G3]].
  assert (PA : posR a = true) by (unfold posR; destruct (Rlt_dec 0 a); auto; contradiction). assert (PZ : posR 0 = false) by (unfold posR; destruct (Rlt_dec 0 0); auto; lra).
  assert (EE : CalcDiffusionEMF d (flat_dual dx dy dz) a 0 ohm ad b bc = OhmicEMF d ohm (CalcCurrent d (flat_dual dx dy dz) b) no_field).
  { unfold CalcDiffusionEMF, isz. destruct (Req_EM_T 0 0); [|lra]. destruct (Req_EM_T a 0); [lra|]. reflexivity. }
  unfold field_stage, magnetic_energy. rewrite EE.
  pose proof (ct_stage _ b _ _ _ dt Q1 Q2 Q3 G1 G2 G3) as CS. cbv zeta in CS.
  rewrite (box_ext_in n1 n2 n3 _ (fun k j i => (x1 b k j i - dt * C1 dy dz (O1 ohm b) (O2 ohm b) (O3 ohm b) k j i) ^ 2 + (x2 b k j i - dt * C2 dx dz (O1 ohm b) (O2 ohm b) (O3 ohm b) k j i) ^ 2 + (x3 b k j i - dt * C3 dx dy (O1 ohm b) (O2 ohm b) (O3 ohm b) k j i) ^ 2)).
  2:{ intros k j i Hk Hj Hi. destruct (CS k j i Hk Hj Hi) as [-> [-> ->]]. reflexivity. }
  destruct Q as [B1 [B2 B3]]. apply energy_step; auto. intros k j i.
  assert (Z0 : eta_total a 0 ohm (fun _ _ _ => 0) = eta_total a 0 ohm ad) by (unfold eta_total; rewrite PZ; reflexivity).
  assert (Ll : dt <= dt_oa d rmax (uniform dx) (uniform dy) (uniform dz) a 0 ohm (fun _ _ _ => 0)) by (unfold dt_oa in *; rewrite Z0; exact Hl).
  pose proof (limit_cells rmax a 0 ohm (fun _ _ _ => 0) dt P ltac:(apply per_const) Po ltac:(intros; lra) Hdt ltac:(rewrite PA; reflexivity) Ll) as K.
  assert (K' : forall k j i, dt * ohm k j i * stiff n2 n3 dx dy dz <= 2) by (intros k0 j0 i0; specialize (K k0 j0 i0); unfold eta_total in K; rewrite PA, PZ in K; rewrite Rplus_0_l in K; exact K).
  set (S := stiff n2 n3 dx dy dz) in *.
  assert (A : forall h J, 0 <= h -> dt * h * S <= 2 -> dt * S * (h * J) ^ 2 <= 2 * (h * J * J)). { intros h J Hh HS. replace (dt * S * (h * J) ^ 2) with (dt * h * S * (h * J * J)) by ring. apply Rmult_le_compat_r; auto. replace (h * J * J) with (h * J ^ 2) by ring. apply Rmult_le_pos; auto. apply pow2_ge_0. }
  assert (B : forall w x y z, dt * w * S <= 2 -> dt * x * S <= 2 -> dt * y * S <= 2 -> dt * z * S <= 2 -> dt * (/ 4 * (w + x + y + z)) * S <= 2) by (intros; lra).
  pose proof (A (h1 ohm k j i) (J1 b k j i) ltac:(unfold h1; pose proof (Po k j i); pose proof (Po k (j - 1)%Z i); pose proof (Po (k - 1)%Z j i); pose proof (Po (k - 1)%Z (j - 1)%Z i); lra) ltac:(unfold h1; apply B; apply K')) as R1.
  pose proof (A (h2 ohm k j i) (J2 b k j i) ltac:(unfold h2; pose proof (Po k j i); pose proof (Po k j (i - 1)%Z); pose proof (Po (k - 1)%Z j i); pose proof (Po (k - 1)%Z j (i - 1)%Z); lra) ltac:(unfold h2; apply B; apply K')) as R2.
  pose proof (A (h3 ohm k j i) (J3 b k j i) ltac:(unfold h3; pose proof (Po k j i); pose proof (Po k j (i - 1)%Z); pose proof (Po k (j - 1)%Z i); pose proof (Po k (j - 1)%Z (i - 1)%Z); lra) ltac:(unfold h3; apply B; apply K')) as R3.
  fold (J1 b k j i) (J2 b k j i) (J3 b k j i). unfold O1, O2, O3. lra.
Qed.
End Mesh.
