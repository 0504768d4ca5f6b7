(** C54: orbital advection. *)
From Coq Require Import Reals ZArith List Bool Lia Lra Psatz.
From Verif Require Import Time_Model Time_Proofs2 Fv_Model Fv_Spec Fv_Proofs2 Rec_Model Rec_Spec Met_Model Orb_Model Orb_Spec Orb_Proofs Orb_Proofs2 Orb_Proofs3.
Import ListNotations.
Local Open Scope R_scope.

(** A ring of equal blocks; every row has a displacement; the rows come in the order of the loops; no row moves further than the buffers allow. *)
Record setup (ppm : bool) (onx nb : Z) (nh ns : nat) (offsets : list Z) (nrow : nat) (olen : nat -> R) (dx : R) : Prop := mkS {
  s_onx : (0 < onx)%Z; s_nb : (0 < nb)%Z; s_dx : 0 < dx;
  s_loops : map (fun r => fst (edge (olen r) dx)) (seq 0 nrow) = loops nh ns offsets;
  s_lim : forall r, (r < nrow)%nat -> Rabs (olen r) <= dx * IZR (onx - xgh ppm) }.

(** The messages always have the announced sizes, and every cell ends up with the mean of the reconstructed profile displaced by olen / dx cells around the ring, whatever the buffers held before and whichever message comes first. *)
Theorem C54_displaced : forall ppm first onx js nb nh ns offsets nrow olen dx st old m, setup ppm onx nb nh ns offsets nrow olen dx -> (0 <= m < nb)%Z ->
  exists u', orbital_cells ppm first onx js nb nh ns offsets nrow olen dx st old m = Some u' /\
  forall r j, (r < nrow)%nat -> (js <= j <= js + onx - 1)%Z -> u' r j = displaced (reconstructed ppm (ring_of nb onx js st r)) (olen r / dx) (m * onx + (j - js))%Z.
Proof.
  intros ppm first onx js nb nh ns offsets nrow olen dx st old m [H1 H2 H3 H4 H5] Hm.
  destruct (advance_displaced ppm false first onx js nb nh ns offsets nrow olen dx st old m H1 H2 H3 Hm H4) as (u' & E & A & _).
  exists u'. split; [exact E|]. intros r j Hr Hj. apply A; [assumption|assumption|]. apply H5; assumption.
Qed.
Print Assumptions C54_displaced.
(** The sum over the ring of every conserved variable and scalar is unchanged. *)
Theorem C54_conserved : forall ppm onx js nb nh ns offsets nrow olen dx st old first st', setup ppm onx nb nh ns offsets nrow olen dx ->
  (forall m, (0 <= m < nb)%Z -> orbital_cells ppm (first m) onx js nb nh ns offsets nrow olen dx st old m = Some (st' m)) ->
  forall r, (r < nrow)%nat -> blocks_total nb onx js st' r = blocks_total nb onx js st r.
Proof.
  intros ppm onx js nb nh ns offsets nrow olen dx st old first st' S H r Hr.
  pose proof (s_onx _ _ _ _ _ _ _ _ _ S) as H1. pose proof (s_nb _ _ _ _ _ _ _ _ _ S) as H2.
  rewrite (blocks_ring nb onx js st r (ring_of nb onx js st r)) by (first [lia | intros; apply ring_holds; lia]).
  rewrite (blocks_ring nb onx js st' r (displaced (reconstructed ppm (ring_of nb onx js st r)) (olen r / dx))); [|lia|lia|].
  - apply displaced_total; [nia|apply ring_periodic; lia|apply profile_one|]. apply profile_periodic, ring_periodic; lia.
  - intros m Hm a Ha. destruct (C54_displaced ppm (first m) onx js nb nh ns offsets nrow olen dx st old m S Hm) as (u' & E & A).
    rewrite H in E by assumption. injection E as <-. rewrite A by lia. f_equal. lia.
Qed.
Print Assumptions C54_conserved.
(** A whole number of cells is an exact rotation. *)
Theorem C54_rotation : forall ppm first onx js nb nh ns offsets nrow olen dx st old m u', setup ppm onx nb nh ns offsets nrow olen dx -> (0 <= m < nb)%Z ->
  orbital_cells ppm first onx js nb nh ns offsets nrow olen dx st old m = Some u' ->
  forall r j n, (r < nrow)%nat -> (js <= j <= js + onx - 1)%Z -> olen r = IZR n * dx -> u' r j = ring_of nb onx js st r (m * onx + (j - js) - n)%Z.
Proof.
  intros ppm first onx js nb nh ns offsets nrow olen dx st old m u' S Hm E r j n Hr Hj Hn.
  destruct (C54_displaced ppm first onx js nb nh ns offsets nrow olen dx st old m S Hm) as (v & E' & A). rewrite E in E'. injection E' as <-.
  rewrite A by assumption. rewrite Hn. pose proof (s_dx _ _ _ _ _ _ _ _ _ S). replace (IZR n * dx / dx) with (IZR n) by (field; lra). apply displaced_whole.
Qed.
Print Assumptions C54_rotation.
Theorem C54_constant : forall ppm first onx js nb nh ns offsets nrow olen dx st old m u' r a, setup ppm onx nb nh ns offsets nrow olen dx -> (0 <= m < nb)%Z ->
  orbital_cells ppm first onx js nb nh ns offsets nrow olen dx st old m = Some u' -> (r < nrow)%nat ->
  (forall b j, (0 <= b < nb)%Z -> (js <= j <= js + onx - 1)%Z -> st b r j = a) -> forall j, (js <= j <= js + onx - 1)%Z -> u' r j = a.
Proof.
  intros ppm first onx js nb nh ns offsets nrow olen dx st old m u' r a S Hm E Hr H j Hj.
  destruct (C54_displaced ppm first onx js nb nh ns offsets nrow olen dx st old m S Hm) as (v & E' & A). rewrite E in E'. injection E' as <-.
  rewrite A by assumption. apply displaced_const. intro y. unfold ring_of. pose proof (s_onx _ _ _ _ _ _ _ _ _ S). pose proof (s_nb _ _ _ _ _ _ _ _ _ S).
  pose proof (Z.mod_pos_bound y onx). pose proof (Z.mod_pos_bound (y / onx) nb). apply H; lia.
Qed.
Print Assumptions C54_constant.
(** With the linear reconstruction the new value lies between the two cells that overlap the displaced cell, so no new extremum and no negative value appears. *)
Theorem C54_bounded : forall first onx js nb nh ns offsets nrow olen dx st old m u', setup false onx nb nh ns offsets nrow olen dx -> (0 <= m < nb)%Z ->
  orbital_cells false first onx js nb nh ns offsets nrow olen dx st old m = Some u' ->
  forall r j, (r < nrow)%nat -> (js <= j <= js + onx - 1)%Z ->
  let y := Int_part (IZR (m * onx + (j - js)) - olen r / dx) in between (ring_of nb onx js st r y) (ring_of nb onx js st r (y + 1)%Z) (u' r j).
Proof.
  intros first onx js nb nh ns offsets nrow olen dx st old m u' S Hm E r j Hr Hj.
  destruct (C54_displaced false first onx js nb nh ns offsets nrow olen dx st old m S Hm) as (v & E' & A). rewrite E in E'. injection E' as <-.
  cbv zeta. rewrite A by assumption. apply displaced_between.
Qed.
Print Assumptions C54_bounded.
(** The time step taken by the main loop keeps every displacement within the limit. *)
Theorem C54_step_limit : forall start ppm onx dx vmax vmin dt v, 0 < dx -> (xgh ppm <= onx)%Z -> vmin <= v <= vmax -> 0 <= dt <= min_dt start ppm onx dx vmax vmin -> Rabs (dt * v) <= dx * IZR (onx - xgh ppm).
Proof.
  intros start ppm onx dx vmax vmin dt v Hdx Ho Hv Ht. unfold min_dt in Ht.
  assert (Hn : 0 <= IZR (onx - xgh ppm)) by (apply IZR_le; lia). set (n := IZR (onx - xgh ppm)) in *. clearbody n.
  destruct (Rle_lt_dec v 0) as [L|L].
  - rewrite Rabs_left1 by nra. unfold ltR in Ht. destruct (Rlt_dec vmin 0) as [V|V]; [|nra].
    assert (dt <= - dx * n / vmin) by (eapply Rle_trans; [apply Ht|apply Rmin_r]).
    assert (- dx * n / vmin * - vmin = dx * n) by (field; lra). nra.
  - rewrite Rabs_right by nra. unfold ltR in Ht. destruct (Rlt_dec 0 vmax) as [V|V]; [|lra].
    assert (dt <= dx * n / vmax).
    { destruct (Rlt_dec vmin 0); (eapply Rle_trans; [apply Ht|]); [eapply Rle_trans; [apply Rmin_l|]|]; apply Rmin_r. }
    assert (dx * n / vmax * vmax = dx * n) by (field; lra). nra.
Qed.
Print Assumptions C54_step_limit.

(** ** The magnetic field *)
(** One line (k, i) of a block: [r] is the row of the field component on it. *)
Record field_line (d : dims) (onx js_ : Z) : Prop := mkFL { fl_lo : Fv_Model.js d = js_; fl_hi : Fv_Model.je d = (js_ + onx - 1)%Z; fl_dim : (1 < onx)%Z }.
(** After the constrained transport step with the orbital electric field, the x1 field of every line is displaced exactly, in Cartesian and cylindrical coordinates, and so is the x3 field in Cartesian coordinates. *)
Theorem C54_field : forall s ppm first onx js nb offsets nrow olen dx st old m d g b f1 f3 F, setup ppm onx nb 1 0 offsets nrow olen dx -> (0 <= m < nb)%Z -> field_line d onx js ->
  orbital_field ppm first onx js nb offsets nrow olen dx st old m = Some F -> (forall j, dx2f g j = dx) ->
  let e := OrbitalEMF s g dx f1 f3 in
  (forall k i r j, s <> spherical_polar -> (r < nrow)%nat -> (Fv_Model.ks d <= k <= Fv_Model.ke d)%Z -> (is_ d <= i <= ie d + 1)%Z -> (js <= j <= js + onx - 1)%Z ->
     dx3f g k <> 0 -> x1f g i <> 0 ->
     (forall j', (js <= j' <= js + onx - 1)%Z -> st m r j' = x1 b k j' i) -> f1 k i = F r ->
     x1 (CT d (geometry s g) e 1 b) k j i = displaced (reconstructed ppm (ring_of nb onx js st r)) (olen r / dx) (m * onx + (j - js))%Z) /\
  (forall k i r j, s = cartesian -> (r < nrow)%nat -> (Fv_Model.ks d <= k <= Fv_Model.ke d + 1)%Z -> (is_ d <= i <= ie d)%Z -> (js <= j <= js + onx - 1)%Z ->
     dx1f g i <> 0 ->
     (forall j', (js <= j' <= js + onx - 1)%Z -> st m r j' = - x3 b k j' i) -> f3 k i = F r ->
     - x3 (CT d (geometry s g) e 1 b) k j i = displaced (reconstructed ppm (ring_of nb onx js st r)) (olen r / dx) (m * onx + (j - js))%Z).
Proof.
  intros s ppm first onx js nb offsets nrow olen dx st old m d g b f1 f3 F [H1 H2 H3 H4 H5] Hm [La Lb Lc] E Hg. cbv zeta.
  destruct (field_displaced ppm true first onx js nb 1 0 offsets nrow olen dx st old m H1 H2 H3 Hm H4 eq_refl) as (F' & E' & A).
  unfold orbital_field in E. change (Z.of_nat 1 + Z.of_nat 0)%Z with 1%Z in E'. rewrite E in E'. injection E' as <-.
  assert (W : forall j, (js <= j <= js + onx - 1)%Z -> within (Fv_Model.js d) (Fv_Model.je d) j = true) by (intros; unfold within; rewrite La, Lb; apply andb_true_intro; split; apply Z.leb_le; lia).
  assert (N2 : Z.ltb 1 (nx2 d) = true) by (unfold nx2; rewrite La, Lb; apply Z.ltb_lt; lia).
  split; intros k i r j Hs Hr Hk Hi Hj.
  - intros D3 X1 Hst Hf. unfold CT. cbn [x1].
    replace (within (Fv_Model.ks d) (Fv_Model.ke d) k && within (Fv_Model.js d) (Fv_Model.je d) j && within (is_ d) (ie d + 1) i)%bool with true
      by (symmetry; rewrite W by assumption; unfold within; rewrite !andb_true_iff, !Z.leb_le; lia).
    rewrite N2. cbv zeta. rewrite <- A by (try assumption; apply H5; assumption). rewrite Hst by assumption.
    unfold OrbitalEMF. cbn [x2 x3]. rewrite Hf.
    assert (P : forall X Y Z0 W0, X - 1 / A1 (geometry s g) k j i * (L3 (geometry s g) k (j + 1)%Z i * (Y * (h2f s g i * dx)) - L3 (geometry s g) k j i * (Z0 * (h2f s g i * dx))) + 1 / A1 (geometry s g) k j i * (W0 * 0 - W0 * 0) = X - (Y - Z0)).
    { intros. unfold geometry. cbn [A1 L3]. unfold GetFace1Area, GetEdge3Length, h2f. rewrite Hg. destruct s; try (contradiction Hs; reflexivity); field; repeat split; intro; lra. }
    destruct (Z.ltb 1 (nx3 d)).
    + rewrite <- (P _ _ _ 0). ring.
    + rewrite <- (P _ _ _ 0). ring.
  - intros D1 Hst Hf. subst s. unfold CT. cbn [x3].
    replace (within (Fv_Model.ks d) (Fv_Model.ke d + 1) k && within (Fv_Model.js d) (Fv_Model.je d) j && within (is_ d) (ie d) i)%bool with true
      by (symmetry; rewrite W by assumption; unfold within; rewrite !andb_true_iff, !Z.leb_le; lia).
    rewrite N2. cbv zeta. rewrite <- A by (try assumption; apply H5; assumption). rewrite Hst by assumption.
    unfold OrbitalEMF. cbn [x1 x2]. rewrite Hf. unfold geometry. cbn [A3 L1]. unfold GetFace3Area, GetEdge1Length, h2v. rewrite Hg. field. split; intro; lra.
Qed.
Print Assumptions C54_field.

Lemma edge_right : forall n a, (0 <= n)%Z -> 0 <= a < 1 -> 0 < IZR n + a -> edge (IZR n + a) 1 = ((n + 1)%Z, a).
Proof.
  intros n a Hn Ha Hp. unfold edge. rewrite fmod_frac by lra. unfold Rdiv. rewrite Rinv_1, Rmult_1_r.
  rewrite (trunc_pos _ n) by (first [assumption | lra]). unfold ltR. destruct (Rlt_dec 0 (IZR n + a)); [|contradiction]. f_equal. ring.
Qed.
Lemma edge_left : forall n a, (0 <= n)%Z -> 0 <= a < 1 -> edge (- (IZR n + a)) 1 = ((- n)%Z, - a).
Proof.
  intros n a Hn Ha. unfold edge. rewrite fmod_frac by lra. unfold Rdiv. rewrite Rinv_1, Rmult_1_r.
  rewrite (trunc_neg _ n) by (first [assumption | lra]). apply IZR_le in Hn. unfold ltR. destruct (Rlt_dec 0 (- (IZR n + a))); [lra|]. rewrite Z.add_0_r, opp_IZR. f_equal. ring.
Qed.
(** In cylindrical coordinates the electric field on the radial edges uses the volume-weighted radius of the cell, while the area of the x3 face belongs to its arithmetic mean: the x3 field is not rotated exactly even when the displacement is one whole cell. *)
Theorem C54_field_cylindrical_refuted : exists onx js nb offsets nrow olen dx st old d g b f1 f3 F k i j n,
  setup false onx nb 1 0 offsets nrow olen dx /\ field_line d onx js /\ orbital_field false true onx js nb offsets nrow olen dx st old 0 = Some F /\
  (forall j, dx2f g j = dx) /\ (forall i, x1f g (i + 1)%Z = x1f g i + dx1f g i) /\ 0 < x1f g i < x1f g (i + 1)%Z /\ (Fv_Model.ks d <= k <= Fv_Model.ke d + 1)%Z /\ (is_ d <= i <= ie d)%Z /\ (js <= j <= js + onx - 1)%Z /\
  (forall j', st 0%Z 0%nat j' = - x3 b k j' i) /\ f3 k i = F 0%nat /\ (0 < nrow)%nat /\ olen 0%nat = IZR n * dx /\
  - x3 (CT d (geometry cylindrical g) (OrbitalEMF cylindrical g dx f1 f3) 1 b) k j i <> ring_of nb onx js st 0%nat (j - js - n)%Z.
Proof.
  set (st := fun (_ : Z) (_ : nat) (j : Z) => if Z.eqb j 2 then 1 else 0).
  set (g := mkGrid (fun i => IZR i + 1) (fun i => IZR i) (fun i => IZR i) (fun _ => 1) (fun _ => 1) (fun _ => 1)).
  set (b := mkV (fun _ _ _ => 0) (fun _ _ _ => 0) (fun _ j _ => if Z.eqb j 2 then -1 else 0)).
  set (d := mkD 0 0 2 5 0 0 false false).
  assert (E1 : edge 1 1 = (2%Z, 0)) by (pose proof (edge_right 1 0 ltac:(lia) ltac:(lra) ltac:(lra)) as X; rewrite Rplus_0_r in X; exact X).
  assert (S : setup false 4 1 1 0 [2%Z] 1 (fun _ => 1) 1).
  { constructor; try lia; try lra.
    - cbn [seq map]. rewrite E1. reflexivity.
    - intros. rewrite Rabs_R1. cbn. lra. }
  destruct (field_displaced false true true 4 2 1 1 0 [2%Z] 1 (fun _ => 1) 1 st st 0 ltac:(lia) ltac:(lia) ltac:(lra) ltac:(lia) (s_loops _ _ _ _ _ _ _ _ _ S) eq_refl) as (F & E & A).
  exists 4%Z, 2%Z, 1%Z, [2%Z], 1%nat, (fun _ => 1), 1, st, st, d, g, b, (fun _ _ _ => 0), (fun _ _ => F 0%nat), F, 0%Z, 0%Z, 2%Z, 1%Z.
  split; [exact S|]. split; [constructor; cbn; lia|]. split; [exact E|].
  split; [reflexivity|]. split; [intro i; cbn; rewrite plus_IZR; ring|]. split; [cbn; lra|]. split; [cbn; lia|]. split; [cbn; lia|]. split; [lia|].
  split; [intro j'; unfold st, b; cbn [x3]; destruct (Z.eqb j' 2); ring|]. split; [reflexivity|]. split; [lia|]. split; [ring|].
  specialize (A 0%nat 2%Z ltac:(lia) ltac:(lia)). rewrite Rabs_R1 in A. specialize (A ltac:(cbn; lra)).
  replace (1 / 1) with (IZR 1) in A by field. rewrite displaced_whole in A.
  unfold ring_of in A |- *. change ((((0 * 4 + (2 - 2) - 1) / 4) mod 1)%Z) with 0%Z in A. change ((((2 - 2 - 1) / 4) mod 1)%Z) with 0%Z.
  change ((2 + (0 * 4 + (2 - 2) - 1) mod 4)%Z) with 5%Z in A. change ((2 + (2 - 2 - 1) mod 4)%Z) with 5%Z.
  unfold st in A at 1 2. unfold st at 1. change (2 =? 2)%Z with true in A. change (5 =? 2)%Z with false in *. cbv iota in A |- *.
  unfold CT. cbn [x3]. change (within (Fv_Model.ks d) (Fv_Model.ke d + 1) 0 && within (Fv_Model.js d) (Fv_Model.je d) 2 && within (is_ d) (ie d) 0)%bool with true.
  change (1 <? nx2 d)%Z with true. cbv iota zeta. unfold OrbitalEMF. cbn [x1 x2]. unfold geometry. cbn [A3 L1 L2].
  unfold GetFace3Area, GetEdge1Length, GetEdge2Length, coord_area3_i, coord_area2_i, h2v, x1v. unfold g, b. cbn [x1f dx1f dx2f x3].
  change (2 =? 2)%Z with true. cbv iota. change (0 + 1)%Z with 1%Z. change (2 + 1)%Z with 3%Z in *.
  assert (X : F 0%nat 3%Z = F 0%nat 2%Z + 1) by lra. rewrite X. clear. set (f := F 0%nat 2%Z). clearbody f. intro Y. field_simplify in Y. lra.
Qed.
Print Assumptions C54_field_cylindrical_refuted.

(** Three blocks of eight cells; one line moves 5/2 cells to the right, one 5/2 cells to the left. *)
Example C54_setup_ex : setup true 8 3 1 0 [3%Z; (-2)%Z] 2 (fun r => if Nat.eqb r 0 then 5 / 2 else - (5 / 2)) 1.
Proof.
  constructor; try lia; try lra.
  - cbn [seq map Nat.eqb]. replace (5 / 2) with (IZR 2 + 1 / 2) by (cbn; lra). rewrite edge_right, edge_left by (first [lia | cbn; lra]). reflexivity.
  - intros r Hr. destruct (Nat.eqb r 0); unfold Rabs; destruct (Rcase_abs _); cbn; lra.
Qed.
(** With two variables and a scalar on each of the two lines. *)
Example C54_setup_ex' : setup false 8 3 2 1 [3%Z; (-2)%Z] 6 (fun r => if Nat.ltb r 2 || Nat.eqb r 4 then 5 / 2 else - (5 / 2)) 1.
Proof.
  constructor; try lia; try lra.
  - cbn [seq map Nat.eqb Nat.ltb Nat.leb orb Datatypes.orb]. replace (5 / 2) with (IZR 2 + 1 / 2) by (cbn; lra). rewrite edge_right, edge_left by (first [lia | cbn; lra]). reflexivity.
  - intros r Hr. destruct (Datatypes.orb _ _); unfold Rabs; destruct (Rcase_abs _); cbn; lra.
Qed.
(** Half a cell to the right: half of each of the two cells when there is no slope; a straight line moves exactly. *)
Example C54_half_ex : displaced (linear (fun x => if Z.eqb x 0 then 4 else 0)) (1 / 2) 1 = 2.
Proof.
  rewrite (displaced_at _ _ 1 0 (1 / 2)) by (cbn; lra). unfold linear, plm_slope. cbv beta iota zeta. unfold leR.
  cbn [Z.eqb Z.add Z.sub Z.opp Pos.add Pos.sub Z.pos_sub Pos.pred_double].
  repeat (match goal with |- context [Rle_dec ?a ?b] => destruct (Rle_dec a b) end; [|exfalso; lra]). lra.
Qed.
Example C54_line_ex : displaced (linear IZR) (5 / 2) 10 = 15 / 2.
Proof.
  rewrite (displaced_at _ _ 10 7 (1 / 2)) by (cbn; lra). unfold linear, plm_slope. cbv beta iota zeta. unfold leR.
  cbn [Z.add Z.sub Z.opp Pos.add Pos.sub Pos.succ Z.pos_sub Pos.pred_double].
  repeat (match goal with |- context [Rle_dec ?a ?b] => destruct (Rle_dec a b) end; [exfalso; lra|]). lra.
Qed.
