(** C92: shearing-box boundaries. *)
From Coq Require Import Reals ZArith Lra Lia List Bool.
From Verif Require Import Time_Model Fv_Model Fv_Spec Fv_Proofs2 Rec_Model Rec_Spec Orb_Model Orb_Spec Orb_Proofs Orb_Proofs2 Orb_Proofs3 Shb_Model Shb_Spec Shb_Proofs Shb_Proofs2.
Import ListNotations.
Local Open Scope R_scope.

Lemma along_ring m u : along m u = ring_of (nblx2 m) (nx2 m) (js m) (fun s _ => u s) 0. Proof. reflexivity. Qed.
Lemma along_periodic m u : accepted m -> periodic (nblx2 m * nx2 m) (along m u).
Proof. intros (A & B & C & D). pose proof (xg_pos (ppm m)). rewrite along_ring. apply ring_periodic; lia. Qed.
Lemma along_holds m u s : accepted m -> (0 <= s < nblx2 m)%Z -> holds (nx2 m) (js m) (u s) s (along m u).
Proof. intros (A & B & C & D) H. pose proof (xg_pos (ppm m)). rewrite along_ring. apply (ring_holds (nblx2 m) (nx2 m) (js m) (fun s _ => u s) 0); lia. Qed.

(** Every ghost cell of every block holds the mean, over the cell displaced by the shear, of the values reconstructed along the whole boundary: to the right at the inner boundary and to the left at the outer one.  The exchange never fails. *)
Theorem C92_ghosts : forall m upper yshear src old b j, accepted m -> 0 <= yshear -> (0 <= b < nblx2 m)%Z -> (js m - NGHOST m <= j <= je m + NGHOST m)%Z ->
  ShearedGhost m upper yshear src old b j = Some (displaced (reconstructed (ppm m) (along m src)) ((if upper then -1 else 1) * (yshear / dx m)) (cell m b j)).
Proof.
  intros m upper yshear src old b j Ac Hy Hb Hj. pose proof Ac as (A & B & C & D).
  destruct (remapped_value m false upper yshear src old b (along m src) A B Hb D Hy (along_periodic m src Ac) (fun s => along_holds m src s Ac)) as (arr & E & V).
  unfold ShearedGhost. rewrite E. f_equal. rewrite V by exact Hj. unfold cell. f_equal. destruct upper; lra.
Qed.
Print Assumptions C92_ghosts.
Theorem C92_fluxes : forall m upper yshear own other old b j, accepted m -> 0 <= yshear -> (0 <= b < nblx2 m)%Z -> (js m <= j <= je m)%Z ->
  ShearedFlux m upper yshear own other old b j = Some ((own b j + displaced (reconstructed (ppm m) (along m other)) ((if upper then -1 else 1) * (yshear / dx m)) (cell m b j)) / 2).
Proof.
  intros m upper yshear own other old b j Ac Hy Hb Hj. pose proof Ac as (A & B & C & D).
  destruct (remapped_value m true upper yshear other old b (along m other) A B Hb D Hy (along_periodic m other Ac) (fun s => along_holds m other s Ac)) as (arr & E & V).
  unfold ShearedFlux. rewrite E. f_equal. rewrite V by lia. unfold cell. replace (if upper then - (yshear / dx m) else yshear / dx m) with ((if upper then -1 else 1) * (yshear / dx m)) by (destruct upper; lra). field.
Qed.
Print Assumptions C92_fluxes.

(** What leaves through one boundary enters through the other: the total fluxes agree, for all fluxes before. *)
Theorem C92_conserved : forall m yshear inner outer old old', accepted m -> 0 <= yshear ->
  exists inner' outer',
    (forall b j, (0 <= b < nblx2 m)%Z -> (js m <= j <= je m)%Z ->
       ShearedFlux m false yshear inner outer old b j = Some (inner' b j) /\ ShearedFlux m true yshear outer inner old' b j = Some (outer' b j)) /\
    boundary_total m inner' = (boundary_total m inner + boundary_total m outer) / 2 /\ boundary_total m outer' = boundary_total m inner'.
Proof.
  intros m yshear inner outer old old' Ac Hy. pose proof Ac as (A & B & C & D). pose proof (xg_pos (ppm m)) as X.
  exists (fun b j => (inner b j + displaced (reconstructed (ppm m) (along m outer)) (1 * (yshear / dx m)) (cell m b j)) / 2),
         (fun b j => (outer b j + displaced (reconstructed (ppm m) (along m inner)) (-1 * (yshear / dx m)) (cell m b j)) / 2).
  split; [intros b j Hb Hj; split; [apply (C92_fluxes m false) | apply (C92_fluxes m true)]; assumption | ].
  assert (T : forall u, boundary_total m u = ring_total (nblx2 m * nx2 m) (along m u)).
  { intros u. change (boundary_total m u) with (blocks_total (nblx2 m) (nx2 m) (js m) (fun s _ => u s) 0). apply blocks_ring; [lia | lia | ]. intros s Hs. apply along_holds; assumption. }
  assert (M : forall u v s, boundary_total m (fun b j => (u b j + displaced (reconstructed (ppm m) (along m v)) s (cell m b j)) / 2) = (boundary_total m u + boundary_total m v) / 2).
  { intros u v s. rewrite (T u), (T v). set (F := fun x => (along m u x + displaced (reconstructed (ppm m) (along m v)) s x) / 2).
    transitivity (ring_total (nblx2 m * nx2 m) F).
    - change (boundary_total m (fun b j => (u b j + displaced (reconstructed (ppm m) (along m v)) s (cell m b j)) / 2)) with
        (blocks_total (nblx2 m) (nx2 m) (js m) (fun b _ j => (u b j + displaced (reconstructed (ppm m) (along m v)) s (cell m b j)) / 2) 0).
      apply blocks_ring; [lia | lia | ]. intros q Hq a Ha. unfold F. rewrite (along_holds m u q Ac Hq a Ha). unfold cell. replace (q * nx2 m + (js m + a - js m))%Z with (q * nx2 m + a)%Z by lia. reflexivity.
    - rewrite <- (displaced_total (nblx2 m * nx2 m) (along m v) (reconstructed (ppm m) (along m v)) s); [ | nia | apply along_periodic; exact Ac | intros; apply profile_one | intros; apply profile_periodic; apply along_periodic; exact Ac].
      unfold ring_total, F. generalize (upto 0 (nblx2 m * nx2 m - 1)). intros l. induction l as [ | z l IH]; cbn [map]; rewrite ?sum_nil, ?sum_cons; [field | rewrite IH; field]. }
  rewrite !M. split; [reflexivity | lra].
Qed.
Print Assumptions C92_conserved.

(** A shear by a whole number of cells copies the values; a uniform line stays uniform; up to second order no value outside of the two neighbouring cells appears. *)
Theorem C92_whole : forall m upper n src old b j, accepted m -> (0 <= n)%Z -> (0 <= b < nblx2 m)%Z -> (js m - NGHOST m <= j <= je m + NGHOST m)%Z ->
  ShearedGhost m upper (IZR n * dx m) src old b j = Some (along m src (cell m b j + (if upper then n else - n))%Z).
Proof.
  intros m upper n src old b j Ac Hn Hb Hj. pose proof Ac as (A & B & C & D). pose proof (xg_pos (ppm m)) as X.
  assert (Dx : 0 < dx m) by (unfold dx; apply Rdiv_lt_0_compat; [exact D | apply IZR_lt; nia]).
  rewrite C92_ghosts; try assumption; [ | apply Rmult_le_pos; [apply IZR_le; exact Hn | lra]]. f_equal. replace (IZR n * dx m / dx m) with (IZR n) by (field; lra).
  replace ((if upper then -1 else 1) * IZR n) with (IZR (if upper then - n else n)) by (destruct upper; rewrite ?opp_IZR; lra). rewrite displaced_whole. f_equal. destruct upper; lia.
Qed.
Print Assumptions C92_whole.
Theorem C92_bounded : forall m upper yshear src old b j lo hi, accepted m -> ppm m = false -> 0 <= yshear -> (0 <= b < nblx2 m)%Z -> (js m - NGHOST m <= j <= je m + NGHOST m)%Z ->
  (forall s i, (0 <= s < nblx2 m)%Z -> (js m <= i <= je m)%Z -> lo <= src s i <= hi) ->
  exists v, ShearedGhost m upper yshear src old b j = Some v /\ lo <= v <= hi.
Proof.
  intros m upper yshear src old b j lo hi Ac Pp Hy Hb Hj H. rewrite C92_ghosts by assumption. eexists. split; [reflexivity | ]. rewrite Pp. cbn [reconstructed].
  pose proof Ac as (A & B & C & D). pose proof (xg_pos (ppm m)) as X.
  assert (L : forall x, lo <= along m src x <= hi). { intros x. unfold along. apply H; [apply Z.mod_pos_bound; lia | ]. pose proof (Z.mod_pos_bound x (nx2 m) ltac:(lia)). unfold je. lia. }
  match goal with |- context [displaced _ ?s ?x] => pose proof (displaced_between (along m src) s x) as Q; cbv zeta in Q; set (y := Int_part (IZR x - s)) in *; pose proof (L y); pose proof (L (y + 1)%Z) end.
  unfold between, Rmin, Rmax in Q. repeat match type of Q with context [Rle_dec ?a ?b] => destruct (Rle_dec a b) end; lra.
Qed.
Print Assumptions C92_bounded.

(** The gas of the other boundary moves faster or slower by the difference of the shear velocity; its internal energy stays. *)
Theorem C92_velocity : forall upper qomL d m2 e, d <> 0 ->
  let (m2', e') := ShearQuantities upper qomL d m2 e in
  m2' / d = m2 / d + (if upper then - qomL else qomL) /\ e' - d * (m2' / d) ^ 2 / 2 = e - d * (m2 / d) ^ 2 / 2.
Proof. intros upper qomL d m2 e H. unfold ShearQuantities. destruct upper; split; field; exact H. Qed.
Print Assumptions C92_velocity.

(** A box of two blocks of four cells. *)
Definition two : box := {| ppm := false; NGHOST := 2; nx2 := 4; js := 2; nblx2 := 2; x2size := 8 |}.
Lemma two_accepted : accepted two.
Proof. unfold accepted, two, Orb_Model.xgh. cbn. repeat split; try lra; try lia. Qed.
Example C92_example : exists v, ShearedGhost two false (13 / 2) (fun s j => IZR (s * 4 + j)) (fun _ => 0) 1 2 = Some v.
Proof. eexists. apply C92_ghosts; [exact two_accepted | lra | cbn; lia | cbn; lia]. Qed.

(** Refuted: that the sign of the shear does not matter.  A rotation in the other direction is accepted, but then the values are extrapolated upstream: a line of ones and zeros gives a negative value. *)
Definition pulse (s j : Z) : R := if Z.eqb s 0 && Z.eqb j 3 then 1 else 0.
Theorem C92_negative_refuted : exists m yshear src old b j v, accepted m /\ yshear < 0 /\ (0 <= b < nblx2 m)%Z /\ (js m <= j <= je m)%Z /\ (forall s i, 0 <= src s i <= 1) /\
  ShearedGhost m false yshear src old b j = Some v /\ v < 0.
Proof.
  exists two, (-1 / 2), pulse, (fun _ => 0), 0%Z, 4%Z, (-1 / 2). split; [exact two_accepted | split; [lra | split; [cbn; lia | split; [cbn; lia | split; [intros; unfold pulse; destruct (_ && _); lra | split; [ | lra]]]]]].
  assert (T0 : forall x, -1 < x <= 0 -> trunc x = 0%Z). { intros x H. unfold trunc, leR. destruct (Rle_dec 0 x); [replace x with 0 by lra; rewrite (int_part_unique 0 0) by lra; reflexivity | ]. rewrite (int_part_unique (- x) 0) by lra. reflexivity. }
  assert (Dx : dx two = 1) by (unfold dx, two; cbn [x2size nblx2 nx2]; change (2 * 4)%Z with 8%Z; lra).
  assert (F1 : fmod (-1 / 2) 8 = -1 / 2) by (unfold fmod; rewrite T0 by lra; lra). assert (F2 : fmod (-1 / 2) 1 = -1 / 2) by (unfold fmod; rewrite T0 by lra; lra).
  assert (Am : amount two (-1 / 2) = (0%Z, 0%Z, -1 / 2)). { unfold amount. rewrite Dx. cbn [x2size two]. rewrite F1, F2. rewrite T0 by lra. cbn. f_equal. lra. }
  assert (Pb : periodic (nblx2 two * nx2 two) (along two pulse)) by (apply along_periodic; exact two_accepted).
  destruct (exchange_value two false false (-1 / 2) pulse (fun _ => 0) 0 (along two pulse) 0 0 (-1 / 2) ltac:(cbn; lia) ltac:(cbn; lia) ltac:(cbn; lia) Pb (fun s => along_holds two pulse s two_accepted) Am ltac:(cbn; lia)) as (arr & E & V).
  unfold ShearedGhost. rewrite E. rewrite Am. cbn [snd]. f_equal.
  assert (W : arr 4%Z = 0 /\ arr 5%Z = 1 /\ arr 6%Z = 0 /\ arr 7%Z = 0). { repeat split; rewrite V by (cbn; lia); reflexivity. }
  destruct W as (W4 & W5 & W6 & W7).
  unfold remapped. cbn [two ppm num Orb_Model.xgh]. unfold RemapFlux, RemapFluxPlm.
  change (4 + (1 + 1 - 0))%Z with 6%Z. change (4 + 1 + 1 + 1)%Z with 7%Z. change (4 + 1 + 1 - 1)%Z with 5%Z. change (4 + 1 + 1)%Z with 6%Z. change (4 + 1 - 1)%Z with 4%Z. change (4 + 1)%Z with 5%Z.
  rewrite W4, W5, W6, W7. cbv zeta. unfold leR. destruct (Rle_dec ((0 - 1) * (0 - 0)) 0) as [ | Q]; [ | exfalso; lra]. destruct (Rle_dec ((1 - 0) * (0 - 1)) 0) as [ | Q]; [ | exfalso; lra]. lra.
Qed.
Print Assumptions C92_negative_refuted.
