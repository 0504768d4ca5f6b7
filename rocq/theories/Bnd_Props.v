(** C47: physical boundary conditions.

    [promised], [promised_face], [filled], [consistent], [out_flux] are defined in
    Bnd_Spec.v without reference to the loops that fill the ghost zones. *)
From Coq Require Import List ZArith Reals Bool Lia Lra.
From Verif Require Import Bnd_Model Bnd_Spec Bnd_Proofs Bnd_Proofs2 Bnd_Proofs3 Bnd_Proofs4 Bnd_Proofs5.
From Verif Require Import Eos_Model Rie_Model Rie_Spec Rie_Props.
Import ListNotations.
Local Open Scope Z_scope.

(** *** The function completes whenever polar wedges are at x2 boundaries only. *)
Theorem C47_completes : forall p g s, legal g -> exists s', ApplyPhysicalBoundaries p g s = Some s'.
Proof. exact apply_total. Qed.

(** *** Every element of the primitive and scalar arrays, ghost edges and corners included,
    shows the promised value. *)
Theorem C47_cells : forall p g s s' n k j i, wf g -> legal g ->
  ApplyPhysicalBoundaries p g s = Some s' -> in_array g k j i ->
  (0 <= n <= 4 -> s_w s' (n, k, j, i) = promised g (s_w s) (hydro_axis n) n k j i) /\
  (0 <= n < NSCALARS g -> s_r s' (n, k, j, i) = promised g (s_r s) 0 n k j i).
Proof.
  intros p g s s' n k j i W L H A. apply apply_vars in H. destruct H as (HW & HR & _).
  rewrite HW, HR. cbn zeta. split; intro Hn.
  - apply (cc_result Hydro); try assumption. exact I.
  - apply (cc_result (Scalars (NSCALARS g))); try assumption; [exact I|cbn [nu_of]; lia].
Qed.

(** *** Every element of the face-field arrays shows the promised value. *)
Theorem C47_faces : forall p g s s' n k j i, wf g -> legal g -> wedge_ok g ->
  ApplyPhysicalBoundaries p g s = Some s' -> in_face_array g n k j i ->
  s_b s' (n, k, j, i) = promised_face g (s_b s) n k j i.
Proof.
  intros p g s s' n k j i W L Wo H A. apply apply_vars in H. destruct H as (_ & _ & HB).
  rewrite HB. apply fc_result; assumption.
Qed.

(** *** No active cell is modified: primitive variables, scalars, cell-centred field,
    conserved variables; and no face of an active cell except one on a polar axis. *)
Theorem C47_active_unchanged : forall p g s s' k j i, wf g -> legal g ->
  ApplyPhysicalBoundaries p g s = Some s' -> active g k j i ->
  (forall n, 0 <= n <= 4 -> s_w s' (n, k, j, i) = s_w s (n, k, j, i)) /\
  (forall n, 0 <= n < NSCALARS g -> s_r s' (n, k, j, i) = s_r s (n, k, j, i)) /\
  (forall n, 0 <= n <= 2 -> s_bcc s' (n, k, j, i) = s_bcc s (n, k, j, i)) /\
  (forall n, 0 <= n <= 4 -> s_u s' (n, k, j, i) = s_u s (n, k, j, i)) /\
  (forall n, 0 <= n < NSCALARS g -> s_s s' (n, k, j, i) = s_s s (n, k, j, i)).
Proof.
  intros p g s s' k j i W L H A.
  assert (IA : in_array g k j i).
  { destruct W as (G0 & GS & G1 & G2 & G3). destruct A as (Hi & Hj & Hk).
    unfold in_array. destruct (f2 g), (f3 g); lia. }
  assert (F : filled g k j i = false).
  { destruct A as (Hi & Hj & Hk). unfold filled.
    destruct (x2_flags g) as (i2, o2), (x3_flags g) as (i3, o3).
    rewrite !met_in by assumption. reflexivity. }
  destruct (derived_untouched p g s s' k j i W H IA F) as (D1 & D2 & D3).
  split; [|split; [|auto]].
  - intros n Hn. destruct (C47_cells p g s s' n k j i W L H IA) as (E & _).
    rewrite E by assumption. apply promised_active. exact A.
  - intros n Hn. destruct (C47_cells p g s s' n k j i W L H IA) as (_ & E).
    rewrite E by assumption. apply promised_active. exact A.
Qed.

Theorem C47_active_faces_unchanged : forall p g s s' n k j i, wf g -> legal g -> wedge_ok g ->
  ApplyPhysicalBoundaries p g s = Some s' -> 0 <= n <= 2 -> active_face g n k j i ->
  s_b s' (n, k, j, i) = if pole_face g n j then 0%R else s_b s (n, k, j, i).
Proof.
  intros p g s s' n k j i W L Wo H Hn A.
  assert (IA : in_face_array g n k j i).
  { destruct W as (G0 & GS & G1 & G2 & G3). destruct A as (Hi & Hj & Hk).
    pose proof (al_01 0 n) as D0. pose proof (al_01 1 n) as D1. pose proof (al_01 2 n) as D2.
    unfold in_face_array. fold (al 0 n) (al 1 n) (al 2 n) in *.
    destruct (f2 g), (f3 g); lia. }
  rewrite (C47_faces p g s s' n k j i W L Wo H IA).
  destruct (pole_face g n j) eqn:P.
  - unfold promised_face. destruct (x2_flags g), (x3_flags g). rewrite P. reflexivity.
  - apply promised_face_active; assumption.
Qed.

(** *** Ghost cells filled by communication keep their values. *)
Theorem C47_communicated_kept : forall p g s s' k j i, wf g -> legal g ->
  ApplyPhysicalBoundaries p g s = Some s' -> in_array g k j i -> filled g k j i = false ->
  (forall n, 0 <= n <= 4 -> s_w s' (n, k, j, i) = s_w s (n, k, j, i)) /\
  (forall n, 0 <= n <= 4 -> s_u s' (n, k, j, i) = s_u s (n, k, j, i)) /\
  (forall n, 0 <= n <= 2 -> s_bcc s' (n, k, j, i) = s_bcc s (n, k, j, i)).
Proof.
  intros p g s s' k j i W L H IA F.
  destruct (derived_untouched p g s s' k j i W H IA F) as (D1 & D2 & D3).
  split; [|auto]. intros n Hn. destruct (C47_cells p g s s' n k j i W L H IA) as (E & _).
  rewrite E by assumption. unfold promised. unfold filled in F.
  destruct (x2_flags g) as (i2, o2), (x3_flags g) as (i3, o3).
  apply orb_false_iff in F. destruct F as (F & A3). apply orb_false_iff in F. destruct F as (A1 & A2).
  assert (Q : forall f1 f2 lo hi z, applied (met f1 f2 lo hi z) = false -> image f1 f2 lo hi z = z).
  { intros f1 f2' lo hi z Hz. unfold met in Hz. unfold image.
    destruct (z <? lo); [destruct f1; try discriminate Hz; reflexivity|].
    destruct (hi <? z); [destruct f2'; try discriminate Hz; reflexivity|reflexivity]. }
  rewrite (Q _ _ _ _ _ A1), (Q _ _ _ _ _ A2), (Q _ _ _ _ _ A3).
  rewrite (applied_false _ A1), (applied_false _ A2), (applied_false _ A3). cbn [mirror_sign]. ring.
Qed.

(** *** In every ghost cell a boundary function fills, edges and corners included, the
    cell-centred field, the conserved variables and the conserved scalars agree with the
    primitive variables and the face field. *)
Theorem C47_ghost_consistent : forall p g s s' k j i, wf g -> legal g -> poles_zero g s ->
  ApplyPhysicalBoundaries p g s = Some s' -> in_array g k j i -> filled g k j i = true ->
  consistent p (NSCALARS g) s' k j i.
Proof. exact derived_consistent. Qed.

(** *** Reflecting boundaries continue the field without divergence: the net field flux
    out of a ghost cell is that out of its mirror image. *)
Theorem C47_reflect_divergence : forall p g s s' ar k j i, wf g ->
  (forall f, mirrors (bcs g f)) -> walls_closed g (s_b s) -> symmetric_areas g ar ->
  ApplyPhysicalBoundaries p g s = Some s' -> in_array g k j i ->
  out_flux ar (s_b s') k j i =
  let '(k', j', i') := image_cell g k j i in out_flux ar (s_b s) k' j' i'.
Proof.
  intros p g s s' ar k j i W M C SA H IA.
  assert (L : legal g).
  { split; [|split]; [destruct (M inner_x1) as [-> | ->]; discriminate|
      destruct (M outer_x1) as [-> | ->]; discriminate|].
    intros _. split; [destruct (M inner_x3) as [-> | ->]; discriminate|
      destruct (M outer_x3) as [-> | ->]; discriminate]. }
  assert (Wo : wedge_ok g).
  { intros _ E. destruct (M inner_x2) as [E'|E']; rewrite E' in E; discriminate E. }
  apply mirrored_divergence; try assumption.
  intros. apply (C47_faces p g s s'); assumption.
Qed.

(** *** Nothing crosses a reflecting wall: between the first ghost cell and the first active
    cell every Riemann solver of the hydrodynamic module returns a flux without mass,
    tangential momentum or energy. *)
Definition prim_at (w : cells) (a b c : Z) (k j i : Z) : prim :=
  mkW (w (0, k, j, i)) (w (a, k, j, i)) (w (b, k, j, i)) (w (c, k, j, i)) (w (4, k, j, i)).

Definition closed (f : cons) : Prop := (u_d f = 0 /\ u_m2 f = 0 /\ u_m3 f = 0 /\ u_e f = 0)%R.

Lemma mirror_flux_fixed : forall f, mirror_flux f = f -> closed f.
Proof.
  intros [d m1 m2 m3 e] H. unfold mirror_flux in H. cbn [u_d u_m1 u_m2 u_m3 u_e] in H.
  injection H as H1 H2 H3 H4. unfold closed. cbn [u_d u_m2 u_m3 u_e]. lra.
Qed.

Lemma mirror_mirror : forall w, mirror (mirror w) = w.
Proof. intros [d x y z p]. unfold mirror. cbn. f_equal. ring. Qed.

Lemma wall_states : forall p g s s' k j, wf g -> legal g ->
  ApplyPhysicalBoundaries p g s = Some s' ->
  b_js g <= j <= b_je g -> b_ks g <= k <= b_ke g ->
  (bcs g inner_x1 = Reflect ->
     prim_at (s_w s') 1 2 3 k j (b_is g - 1) = mirror (prim_at (s_w s') 1 2 3 k j (b_is g))) /\
  (bcs g outer_x1 = Reflect ->
     prim_at (s_w s') 1 2 3 k j (b_ie g + 1) = mirror (prim_at (s_w s') 1 2 3 k j (b_ie g))).
Proof.
  intros p g s s' k j W L H Hj Hk.
  assert (IA : forall i, b_is g - 1 <= i <= b_ie g + 1 -> in_array g k j i).
  { destruct W as (G0 & GS & G1 & G2 & G3). intros i Hi. unfold in_array. destruct (f2 g), (f3 g); lia. }
  assert (G : b_is g <= b_ie g) by (destruct W as (G0 & GS & G1 & _); lia).
  assert (V : forall n i, 0 <= n <= 4 -> b_is g - 1 <= i <= b_ie g + 1 ->
     s_w s' (n, k, j, i) =
     (mirror_sign 1 (hydro_axis n) (met (bcs g inner_x1) (bcs g outer_x1) (b_is g) (b_ie g) i) *
      s_w s (n, k, j, image (bcs g inner_x1) (bcs g outer_x1) (b_is g) (b_ie g) i))%R).
  { intros n i Hn Hi. destruct (C47_cells p g s s' n k j i W L H (IA i Hi)) as (E & _).
    rewrite E by assumption. unfold promised. destruct (x2_flags g) as (i2, o2), (x3_flags g) as (i3, o3).
    rewrite (met_in i2), (met_in i3), (image_in i2), (image_in i3) by assumption.
    cbn [mirror_sign]. ring. }
  split; intro R; unfold prim_at, mirror; cbn [w_d w_vx w_vy w_vz w_p]; rewrite !V by lia.
  - rewrite !(met_in _ _ _ _ (b_is g)), !(image_in _ _ _ _ (b_is g)) by lia.
    unfold met, image. replace (b_is g - 1 <? b_is g) with true by (symmetry; apply Z.ltb_lt; lia).
    rewrite R. replace (2 * b_is g - 1 - (b_is g - 1)) with (b_is g) by lia.
    unfold hydro_axis, inb. cbn [Z.leb Z.compare Pos.compare Pos.compare_cont andb mirror_sign Z.eqb Pos.eqb].
    f_equal; ring.
  - rewrite !(met_in _ _ _ _ (b_ie g)), !(image_in _ _ _ _ (b_ie g)) by lia.
    unfold met, image. replace (b_ie g + 1 <? b_is g) with false by (symmetry; apply Z.ltb_ge; lia).
    replace (b_ie g <? b_ie g + 1) with true by (symmetry; apply Z.ltb_lt; lia).
    rewrite R. replace (2 * b_ie g + 1 - (b_ie g + 1)) with (b_ie g) by lia.
    unfold hydro_axis, inb. cbn [Z.leb Z.compare Pos.compare Pos.compare_cont andb mirror_sign Z.eqb Pos.eqb].
    f_equal; ring.
Qed.

Theorem C47_wall_closed : forall p g s s' k j T e gm, wf g -> legal g ->
  ApplyPhysicalBoundaries p g s = Some s' ->
  b_js g <= j <= b_je g -> b_ks g <= k <= b_ke g ->
  let w i := prim_at (s_w s') 1 2 3 k j i in
  (bcs g inner_x1 = Reflect ->
     closed (LLF e (w (b_is g - 1)) (w (b_is g))) /\
     closed (HLLE e (w (b_is g - 1)) (w (b_is g))) /\
     (good_eos e -> good e (w (b_is g)) -> closed (Roe e T (w (b_is g - 1)) (w (b_is g)))) /\
     ((0 < T)%R -> (1 < gm)%R -> good (Adi gm) (w (b_is g)) ->
        closed (HLLC T gm (w (b_is g - 1)) (w (b_is g))))) /\
  (bcs g outer_x1 = Reflect ->
     closed (LLF e (w (b_ie g)) (w (b_ie g + 1))) /\
     closed (HLLE e (w (b_ie g)) (w (b_ie g + 1))) /\
     (good_eos e -> good e (w (b_ie g)) -> closed (Roe e T (w (b_ie g)) (w (b_ie g + 1)))) /\
     ((0 < T)%R -> (1 < gm)%R -> good (Adi gm) (w (b_ie g)) ->
        closed (HLLC T gm (w (b_ie g)) (w (b_ie g + 1))))).
Proof.
  intros p g s s' k j T e gm W L H Hj Hk w.
  destruct (wall_states p g s s' k j W L H Hj Hk) as (M1 & M2). fold (w (b_is g)) in M1.
  fold (w (b_is g - 1)) in M1. fold (w (b_ie g)) (w (b_ie g + 1)) in M2.
  split; intro R.
  - rewrite (M1 R). set (v := w (b_is g)).
    assert (X : forall F : prim -> prim -> cons, F (mirror v) (mirror (mirror v)) = mirror_flux (F (mirror v) v) ->
       closed (F (mirror v) v)).
    { intros F E. apply mirror_flux_fixed. rewrite <- E, mirror_mirror. reflexivity. }
    repeat split; try (apply (X (LLF e)); apply C45_llf_mirror); try (apply (X (HLLE e)); apply C45_hlle_mirror).
    all: try (intros; apply (X (Roe e T)); apply C45_roe_mirror; try assumption; apply Rie_Proofs.good_mirror; assumption).
    all: try (intros; apply (X (HLLC T gm)); apply C45_hllc_mirror; try assumption; apply Rie_Proofs.good_mirror; assumption).
  - rewrite (M2 R). set (v := w (b_ie g)).
    assert (X : forall F : prim -> prim -> cons, F (mirror (mirror v)) (mirror v) = mirror_flux (F v (mirror v)) ->
       closed (F v (mirror v))).
    { intros F E. apply mirror_flux_fixed. rewrite <- E, mirror_mirror. reflexivity. }
    repeat split; try (apply (X (LLF e)); apply C45_llf_mirror); try (apply (X (HLLE e)); apply C45_hlle_mirror).
    all: try (intros; apply (X (Roe e T)); apply C45_roe_mirror; try assumption; apply Rie_Proofs.good_mirror; assumption).
    all: try (intros; apply (X (HLLC T gm)); apply C45_hllc_mirror; try assumption; apply Rie_Proofs.good_mirror; assumption).
Qed.

(** *** The field through a reflecting wall is not reset: if it is not zero the ghost field
    next to the wall has a divergence although the active field has none (a uniform field
    through the wall). *)
Theorem C47_reflect_open_wall_refuted : exists p g s s' k j i,
  wf g /\ (forall f, mirrors (bcs g f)) /\
  ApplyPhysicalBoundaries p g s = Some s' /\ in_array g k j i /\
  (forall k j i, out_flux (fun _ _ _ _ => 1%R) (s_b s) k j i = 0%R) /\
  out_flux (fun _ _ _ _ => 1%R) (s_b s') k j i <> 0%R.
Proof.
  set (p := mkP (fun _ _ _ _ => (/2)%R) (fun _ _ _ _ => (/2)%R) (fun _ _ _ => 0%R)).
  set (g := Bnd_Model.mkB 2 5 0 0 0 0 false false 2 0 (fun f => match f with inner_x1 => Reflect | _ => Comm end)).
  set (b := (fun c : idx => let '(n, k, j, i) := c in if n =? 0 then 1%R else 0%R) : cells).
  set (s := mkS (fun _ => 0%R) (fun _ => 0%R) b (fun _ => 0%R) (fun _ => 0%R) (fun _ => 0%R)).
  assert (W : wf g) by (unfold wf, g; cbn; lia).
  assert (L : legal g) by (unfold legal, g; cbn; repeat split; discriminate).
  assert (Wo : wedge_ok g) by (intros E; discriminate E).
  destruct (C47_completes p g s L) as (s' & H).
  exists p, g, s, s', 0, 0, 1. split; [exact W|]. split.
  { intros []; cbn; [left|right..]; reflexivity. }
  split; [exact H|]. split; [unfold in_array, g; cbn; lia|]. split.
  { intros k j i. unfold out_flux, s, b. cbn [s_b Z.eqb Pos.eqb]. ring. }
  unfold out_flux.
  assert (I : forall n k j i, 0 <= n <= 2 -> 0 <= i <= 7 -> 0 <= j <= (if n =? 1 then 1 else 0) ->
     0 <= k <= (if n =? 2 then 1 else 0) -> in_face_array g n k j i).
  { intros n k j i Hn Hi Hj Hk. unfold in_face_array, g. cbn [f2 f3 b_is b_ie b_js b_je b_ks b_ke NGHOST].
    destruct (n =? 0); lia. }
  rewrite !(C47_faces p g s s') by (assumption || (apply I; cbn; lia)).
  unfold promised_face, x2_flags, x3_flags, pole_face, g, s, b. cbn. lra.
Qed.

(** *** Outflow ghost zones of a divergence-free field are not divergence-free. *)
Theorem C47_outflow_divergence_refuted : exists p g s s' k j i,
  wf g /\ legal g /\ (forall f, bcs g f = Outflow \/ bcs g f = Comm) /\
  ApplyPhysicalBoundaries p g s = Some s' /\ in_array g k j i /\
  (forall k j i, out_flux (fun _ _ _ _ => 1%R) (s_b s) k j i = 0%R) /\
  out_flux (fun _ _ _ _ => 1%R) (s_b s') k j i <> 0%R.
Proof.
  set (p := mkP (fun _ _ _ _ => (/2)%R) (fun _ _ _ _ => (/2)%R) (fun _ _ _ => 0%R)).
  set (g := Bnd_Model.mkB 2 5 2 5 0 0 true false 2 0 (fun f => match f with inner_x1 => Outflow | _ => Comm end)).
  set (b := (fun c : idx => let '(n, k, j, i) := c in
               if n =? 0 then IZR i else if n =? 1 then (- IZR j)%R else 0%R) : cells).
  set (s := mkS (fun _ => 0%R) (fun _ => 0%R) b (fun _ => 0%R) (fun _ => 0%R) (fun _ => 0%R)).
  assert (W : wf g) by (unfold wf, g; cbn; lia).
  assert (L : legal g) by (unfold legal, g; cbn; repeat split; discriminate).
  assert (Wo : wedge_ok g) by (intros _ E; discriminate E).
  destruct (C47_completes p g s L) as (s' & H).
  exists p, g, s, s', 0, 3, 1. split; [exact W|]. split; [exact L|]. split.
  { intros []; cbn; [left|right..]; reflexivity. }
  split; [exact H|]. split; [unfold in_array, g; cbn; lia|]. split.
  { intros k j i. unfold out_flux, s, b. cbn [s_b Z.eqb Pos.eqb]. rewrite !plus_IZR. ring. }
  unfold out_flux.
  assert (I : forall n k j i, 0 <= n <= 2 -> 0 <= i <= 7 -> 0 <= j <= 7 ->
     0 <= k <= (if n =? 2 then 1 else 0) -> in_face_array g n k j i).
  { intros n k j i Hn Hi Hj Hk. unfold in_face_array, g. cbn [f2 f3 b_is b_ie b_js b_je b_ks b_ke NGHOST].
    destruct (n =? 0); destruct (n =? 1); lia. }
  rewrite !(C47_faces p g s s') by (assumption || (apply I; cbn; lia)).
  unfold promised_face, x2_flags, x3_flags, pole_face, g, s, b. cbn. lra.
Qed.

(** *** Non-vacuity: a three-dimensional block with every kind of boundary. *)
Definition ex_block : block :=
  Bnd_Model.mkB 2 5 2 5 2 5 true true 2 1
    (fun f => match f with inner_x1 => Reflect | outer_x1 => Outflow | inner_x2 => PolarWedge
                         | outer_x2 => Reflect | inner_x3 => Comm | outer_x3 => Reflect end).

Example ex_block_ok : wf ex_block /\ legal ex_block /\ wedge_ok ex_block.
Proof.
  unfold wf, legal, wedge_ok, ex_block. cbn. repeat split; try lia; try discriminate.
Qed.

(** the x1-velocity in a corner ghost cell: mirrored at inner x1, at the pole of inner x2 and at
    outer x3 *)
Example ex_corner : forall p s s', ApplyPhysicalBoundaries p ex_block s = Some s' ->
  s_w s' (1, 7, 0, 0) = (- s_w s (1, 4, 3, 3)%Z)%R /\
  s_w s' (2, 7, 0, 0) = (- s_w s (2, 4, 3, 3)%Z)%R /\
  s_w s' (0, 7, 0, 0) = s_w s (0, 4, 3, 3) /\
  s_w s' (3, 7, 0, 0) = s_w s (3, 4, 3, 3) /\
  s_w s' (0, 1, 3, 7) = s_w s (0, 1, 3, 5).
Proof.
  intros p s s' H. destruct ex_block_ok as (W & L & _).
  assert (C : forall n k j i, 0 <= n <= 4 -> 0 <= i <= 7 -> 0 <= j <= 7 -> 0 <= k <= 7 ->
    s_w s' (n, k, j, i) = promised ex_block (s_w s) (hydro_axis n) n k j i).
  { intros n k j i Hn Hi Hj Hk. apply (C47_cells p ex_block s s'); try assumption.
    unfold in_array, ex_block. cbn. lia. }
  rewrite !C by lia. unfold promised, x2_flags, x3_flags, hydro_axis, ex_block. cbn.
  repeat split; ring.
Qed.

(** a state with zero field satisfies the hypotheses on poles and walls, and unit areas have
    the symmetry asked for *)
Example ex_zero_field : forall s, (forall c, s_b s c = 0%R) ->
  poles_zero ex_block s /\ walls_closed ex_block (s_b s) /\
  symmetric_areas ex_block (fun _ _ _ _ => 1%R).
Proof.
  intros s Z. split; [|split].
  - split; intros; apply Z.
  - repeat split; intros; apply Z.
  - unfold symmetric_areas. destruct (x2_flags ex_block), (x3_flags ex_block). reflexivity.
Qed.

Print Assumptions C47_completes.
Print Assumptions C47_cells.
Print Assumptions C47_faces.
Print Assumptions C47_active_unchanged.
Print Assumptions C47_active_faces_unchanged.
Print Assumptions C47_communicated_kept.
Print Assumptions C47_ghost_consistent.
Print Assumptions C47_reflect_divergence.
Print Assumptions C47_wall_closed.
Print Assumptions C47_reflect_open_wall_refuted.
Print Assumptions C47_outflow_divergence_refuted.
