(** Proofs for C88: a uniform population at rest on a block, and the pressure gradient row by row. *)
From Coq Require Import Reals ZArith List Bool Lra Lia Psatz.
From Verif Require Import Fv_Model Fv_Spec Met_Model Met_Spec Met_Proofs Met_Proofs4 Cr_Model Cr_Spec.
Local Open Scope R_scope.

(** Divergence of the flux of component n in a uniform population: pressure times the difference of the areas in direction n. *)
Definition areas (s : system) (g : grid) (d : dims) (n : nat) (k j i : Z) : R :=
  match n with
  | 1%nat => GetFace1Area s g k j (i + 1)%Z - GetFace1Area s g k j i
  | 2%nat => if Z.ltb 1 (nx2 d) then GetFace2Area s g k (j + 1)%Z i - GetFace2Area s g k j i else 0
  | 3%nat => if Z.ltb 1 (nx3 d) then GetFace3Area s g (k + 1)%Z j i - GetFace3Area s g k j i else 0
  | _ => 0
  end.
Lemma uniform_dflx : forall s g d vm e f n k j i, uniform_fluxes vm e f -> (n <= 3)%nat -> dflx s g d f n k j i = areas s g d n k j i * (vm * e / 3).
Proof.
  intros s g d vm e f n k j i U N. unfold dflx. destruct (U n k j i) as (-> & -> & ->). destruct (U n k j (i + 1)%Z) as (-> & _ & _). destruct (U n k (j + 1)%Z i) as (_ & -> & _). destruct (U n (k + 1)%Z j i) as (_ & _ & ->).
  assert (Nq : n = 0%nat \/ n = 1%nat \/ n = 2%nat \/ n = 3%nat) by lia. destruct Nq as [->|[->|[->| ->]]]; cbn [comp physical nth3 fst snd areas]; destruct (Z.ltb 1 (nx2 d)), (Z.ltb 1 (nx3 d)); ring.
Qed.

(** The geometric source is the divergence, per volume (n = 1, 2, 3). *)
Lemma balance : forall s d g k j i n vm e, nonempty d -> proper_block s d g -> is_active d k j i -> (n <= 3)%nat ->
  areas s g d n k j i * (vm * e / 3) / GetCellVolume s g k j i = coord_source s g vm (fun _ _ _ => e) n k j i.
Proof.
  intros s d g k j i n vm e N B Ha Nn. pose proof B as (A & P & S). specialize (P k j i Ha). pose proof (vi_pos s g k j i A P) as Hv. pose proof (vj_pos s g k j i A P) as Hj. pose proof (vk_pos s g k j i A P) as Hk.
  pose proof (proj1 (A i)) as Hd. pose proof (P1 s g k j i P) as H1. pose proof (P2 s g k j i P) as H2. unfold vi, vj in Hv, Hj.
  assert (Nq : n = 0%nat \/ n = 1%nat \/ n = 2%nat \/ n = 3%nat) by lia. destruct s; unfold areas, coord_source, GetFace1Area, GetFace2Area, GetFace3Area, GetCellVolume; cbv zeta.
  - destruct Nq as [->|[->|[->| ->]]]; unfold Rdiv; try destruct (Z.ltb 1 (nx2 d)); try destruct (Z.ltb 1 (nx3 d)); ring.
  - destruct Nq as [->|[->|[->| ->]]]; [unfold Rdiv; ring| |unfold Rdiv; destruct (Z.ltb 1 (nx2 d)); ring|unfold Rdiv; destruct (Z.ltb 1 (nx3 d)); ring].
    unfold coord_src1_i. set (Vi := coord_vol_i cylindrical g i) in *. clearbody Vi. rewrite Hd. set (a := x1f g i) in *. set (b := x1f g (i + 1)%Z) in *. set (c := dx2f g j) in *. set (w := dx3f g k) in *. clearbody a b c w. field. lra.
  - destruct Nq as [->|[->|[->| ->]]]; [unfold Rdiv; ring| | |unfold Rdiv; destruct (Z.ltb 1 (nx3 d)); ring].
    + unfold coord_src1_i. change (coord_area1_j g j) with (coord_vol_j g j). unfold coord_area1_i. assert (EA : (x1f g (i + 1)%Z * x1f g (i + 1)%Z - x1f g i * x1f g i) = 2 * coord_area2_i g i) by (unfold coord_area2_i; field).
      set (Vi := coord_vol_i spherical_polar g i) in *. set (Vj := coord_vol_j g j) in *. set (c := coord_area2_i g i) in *. set (aa := x1f g (i + 1)%Z * x1f g (i + 1)%Z) in *. set (bb := x1f g i * x1f g i) in *. set (w := dx3f g k) in *. assert (Eaa : aa = bb + 2 * c) by lra. rewrite Eaa.
      clearbody Vi Vj c bb w. field. lra.
    + unfold coord_src1_i, coord_src1_j. set (Vi := coord_vol_i spherical_polar g i) in *. set (Vj := coord_vol_j g j) in *. set (c := coord_area2_i g i) in *. set (w := dx3f g k) in *. destruct (Z.ltb_spec 1 (nx2 d)) as [L|L].
      * set (s1 := coord_area2_j g j). set (s2 := coord_area2_j g (j + 1)%Z). clearbody Vi Vj c w s1 s2. field. lra.
      * assert (Ej : j = js d) by (apply one_cell; [exact N|destruct N as (N0 & _); unfold nx2 in *; lia|unfold is_active in Ha; lia]). specialize (S ltac:(destruct N as (N0 & _); unfold nx2 in *; lia) eq_refl). rewrite <- Ej in S.
        replace (coord_area2_j g (j + 1)%Z) with (coord_area2_j g j) by (unfold coord_area2_j; rewrite S, sin_PI_x; reflexivity). clearbody Vi Vj c w. field. lra.
Qed.

Lemma uniform_kept : forall s d g vm wght e f out n k j i, nonempty d -> proper_block s d g -> is_active d k j i -> uniform_fluxes vm e f -> (n <= 3)%nat -> (n = 0%nat -> TINY <= out n k j i) ->
  FluxDivergence s g d vm wght f (fun _ _ _ => e) out n k j i = out n k j i.
Proof.
  intros s d g vm wght e f out n k j i N B Ha U Nn E. unfold FluxDivergence; cbv zeta. rewrite (uniform_dflx s g d vm e f n k j i U Nn).
  replace (out n k j i - wght * (areas s g d n k j i * (vm * e / 3)) / GetCellVolume s g k j i + wght * coord_source s g vm (fun _ _ _ : Z => e) n k j i) with (out n k j i).
  - destruct n; [|reflexivity]. unfold lt. destruct (Rlt_dec _ _); [specialize (E eq_refl); lra|reflexivity].
  - rewrite <- (balance s d g k j i n vm e N B Ha Nn). unfold Rdiv. ring.
Qed.

(** What the row (k,j) sees does not depend on the rows before it. *)
Lemma grad_row_fresh : forall s g d vm f e stale stale' n k j i, is_active d k j i -> grad_row s g d vm f e stale k j n k j i = grad_row s g d vm f e stale' k j n k j i.
Proof.
  intros s g d vm f e a b n k j i Ha. apply active_iff in Ha. unfold grad_row, CRGradPcCoordTermsDivergence; cbv zeta. rewrite !Z.eqb_refl, Ha. cbn [andb]. reflexivity.
Qed.
Lemma grad_uniform : forall s d g vm e f stale n k j i, vm <> 0 -> nonempty d -> proper_block s d g -> is_active d k j i -> uniform_fluxes vm e f -> (n < 3)%nat ->
  grad_row s g d vm f (fun _ _ _ => e) stale k j n k j i = match s, n with spherical_polar, 1%nat => coord_src1_i spherical_polar g i * coord_src1_j g j * (e / 3) | _, _ => 0 end.
Proof.
  intros s d g vm e f stale n k j i V N B Ha U Nn. pose proof Ha as Hact. apply active_iff in Hact. unfold grad_row, CRGradPcCoordTermsDivergence; cbv zeta. rewrite !Z.eqb_refl, Hact. cbn [andb].
  assert (D : forall m, (m < 3)%nat -> ((GetFace1Area s g k j (i + 1)%Z * fx1 f (S m) k j (i + 1)%Z - GetFace1Area s g k j i * fx1 f (S m) k j i) / GetCellVolume s g k j i
       + (if Z.ltb 1 (nx2 d) then (GetFace2Area s g k (j + 1)%Z i * fx2 f (S m) k (j + 1)%Z i - GetFace2Area s g k j i * fx2 f (S m) k j i) / GetCellVolume s g k j i else 0)
       + (if Z.ltb 1 (nx3 d) then (GetFace3Area s g (k + 1)%Z j i * fx3 f (S m) (k + 1)%Z j i - GetFace3Area s g k j i * fx3 f (S m) k j i) / GetCellVolume s g k j i else 0)) * (1 / vm) = coord_source s g vm (fun _ _ _ => e) (S m) k j i / vm).
  { intros m Hm. rewrite <- (balance s d g k j i (S m) vm e N B Ha ltac:(lia)). rewrite <- (uniform_dflx s g d vm e f (S m) k j i U ltac:(lia)). unfold dflx. destruct (Z.ltb 1 (nx2 d)), (Z.ltb 1 (nx3 d)); unfold Rdiv; ring. }
  assert (Nq : n = 0%nat \/ n = 1%nat \/ n = 2%nat) by lia. destruct Nq as [->|[->| ->]]; destruct s; rewrite D by lia; unfold coord_source; cbv zeta; field; exact V.
Qed.
