(** Property theorems about magnetic fields on refined meshes (C74). *)
From Coq Require Import List Arith NArith ZArith Bool Lia Permutation Reals Lra.
From Verif Require Import Fv_Model.
From Verif Require Fv_Spec Fv_Proofs.
From Verif Require Import Loc LB_Spec Tags_Model Tags_Spec Tags_Proofs AMR_Model AMR_Spec AMR_Proofs AMR_Proofs2 Tree_Model Tree_Spec Tree_Proofs1 Tree_Proofs2 Tree_Proofs3 Tree_Proofs4 Tree_Proofs5 Tree_Proofs6 Tree_Proofs7 Tree_Proofs8 Tree_Restart Tree_Proofs9 Tree_Proofs10 Tree_Props Nbr_Model Nbr_Spec Nbr_Proofs Nbr_Proofs2 Nbr_Proofs3 Nbr_Props Buf_Model Gho_Model Gho_Spec Gho_Proofs Gho_Proofs2 Gho_Props Con_Model Con_Spec Con_Proofs Emf_Model Emf_Spec Emf_Proofs Emf_Proofs2 Emf_Proofs3 Emf_Proofs4 Emf_Proofs5 Emf_Proofs6 Emf_Proofs7 Emf_Props Mag_Spec Mag_Proofs Mag_Proofs2.
Import ListNotations.
Local Open Scope Z_scope.


(** C74: on every mesh that a history of refinements leads to, if all blocks hold the same EMF on the edges they share (which C73 establishes), constrained transport leaves every shared face with the same field, and a coarse face with the flux of the finer faces on it. *)
Theorem C74_update : forall g, valid_grid g -> forall t, history g t -> forall ml, declared g ml (blocks t) -> forall B, fitting g B ml ->
  forall G, magnetic_geometry g B (blocks t) G -> forall E, single_valued g B (blocks t) (fun a => edge_lengths (G a)) E ->
  forall w b, fields_agree g B (blocks t) G b -> fields_agree g B (blocks t) G (fun a => CT (block_dims B) (G a) (edge_fields (block_dims B) (E a)) w (b a)).
Proof. intros g Vg t H ml ML B FT G MG E SV w b. apply (update_agrees g Vg t (hist_wf g Vg t H) ml ML B FT G MG E SV w b). Qed.
Print Assumptions C74_update.
(** C74: one update of the whole mesh, from any computed EMFs and with the messages of the correction handled in any order: the messages all arrive, blocks keep agreeing on the fields of shared faces, and the flux out of every cell stays what it is. *)
Theorem C74_step : forall g, valid_grid g -> no_pole g -> no_shear g -> forall t, history g t -> forall ml, declared g ml (blocks t) -> forall B, fitting g B ml ->
  forall G, magnetic_geometry g B (blocks t) G -> (forall a, In a (blocks t) -> Fv_Spec.good_geom (block_dims B) (G a)) ->
  forall E es es', any_order g ml t es -> any_order g ml t es' ->
  exists E', (forall a, In a (blocks t) -> ReceiveEmf g ml t B (fun a => edge_lengths (G a)) E a (es a) (es' a) = Some (E' a)) /\
  forall w b, (fields_agree g B (blocks t) G b -> fields_agree g B (blocks t) G (fun a => CT (block_dims B) (G a) (edge_fields (block_dims B) (E' a)) w (b a))) /\
  forall a k j i, In a (blocks t) -> Fv_Spec.is_active (block_dims B) k j i -> Fv_Spec.net_flux (G a) (CT (block_dims B) (G a) (edge_fields (block_dims B) (E' a)) w (b a)) k j i = Fv_Spec.net_flux (G a) (b a) k j i.
Proof.
  intros g Vg NP NS t H ml ML B FT G MG GG E es es' O1 O2. destruct (C73_corrected_emfs g Vg NP NS t H ml ML B FT (fun a => edge_lengths (G a)) E (mg_lengths _ _ _ _ MG) es es') as (E' & H1 & _ & H3).
  { intros a Ha. destruct (O1 a Ha) as (ns & X1 & X2). destruct (O2 a Ha) as (ns' & Y1 & Y2). rewrite X1 in Y1. injection Y1 as <-. exists ns. split; [exact X1|]. split; assumption. }
  exists E'. split; [exact H1|]. intros w b. split; [apply (C74_update g Vg t H ml ML B FT G MG E' H3)|]. intros a k j i Ha A. apply (update_flux g Vg ml B FT); [apply GG, Ha|exact A].
Qed.
Print Assumptions C74_step.
(** C74: averages of registers keep both. *)
Theorem C74_average : forall g, valid_grid g -> forall ml bs B, fitting g B ml -> forall G w o a b c e, Fv_Spec.sound_weights w ->
  fields_agree g B bs G o -> fields_agree g B bs G a -> fields_agree g B bs G b -> fields_agree g B bs G c -> fields_agree g B bs G e ->
  fields_agree g B bs G (fun l => WeightedAve (block_dims B) w (o l) (a l) (b l) (c l) (e l)).
Proof.
  intros g Vg ml bs B FT G w o a b c e SW [O1 O2] [A1 A2] [B1 B2] [C1 C2] [E1 E2]. split.
  - intros x y dir p q Hx Hy Hl Hr Hp Hq Hs. rewrite !(average_at g Vg ml B FT) by assumption. rewrite (O1 x y dir p q), (A1 x y dir p q), (B1 x y dir p q), (C1 x y dir p q), (E1 x y dir p q) by assumption. reflexivity.
  - intros x y dir p qs Hx Hy Hl Hr Hp Hf. rewrite (average_at g Vg ml B FT) by assumption.
    replace (area (G x) dir p * (w0 w * normal (o x) dir p + w1 w * normal (a x) dir p + w2 w * normal (b x) dir p + w3 w * normal (c x) dir p + w4 w * normal (e x) dir p))%R with (w0 w * (area (G x) dir p * normal (o x) dir p) + w1 w * (area (G x) dir p * normal (a x) dir p) + w2 w * (area (G x) dir p * normal (b x) dir p) + w3 w * (area (G x) dir p * normal (c x) dir p) + w4 w * (area (G x) dir p * normal (e x) dir p))%R by ring.
    rewrite (O2 x y dir p qs), (A2 x y dir p qs), (B2 x y dir p qs), (C2 x y dir p qs), (E2 x y dir p qs) by assumption. destruct Hf as (_ & _ & Hq). assert (Fq : forall q, In q qs -> face_of g B dir q) by (intros q X; apply Hq in X; apply X). clear Hq O1 O2 A1 A2 B1 B2 C1 C2 E1 E2.
    induction qs as [|q qs IH]; cbn [map]; rewrite ?sum_cons'; [change (Fv_Spec.sum []) with 0%R; lra|]. rewrite <- IH by (intros z Hz; apply Fq; right; exact Hz). rewrite (average_at g Vg ml B FT) by (try assumption; apply Fq; left; reflexivity). ring.
Qed.
Print Assumptions C74_average.
(** C74: after any number of updates, averages and copies, if the fields of all registers agree and are free of magnetic charge at the start, they are at the end. *)
Theorem C74_history : forall g, valid_grid g -> no_pole g -> no_shear g -> forall t, history g t -> forall ml, declared g ml (blocks t) -> forall B, fitting g B ml ->
  forall G, magnetic_geometry g B (blocks t) G -> (forall a, In a (blocks t) -> Fv_Spec.good_geom (block_dims B) (G a)) ->
  forall regs regs', (forall r, fields_agree g B (blocks t) G (regs r) /\ no_charge B (blocks t) G (regs r)) -> field_run g ml t B G regs regs' ->
  forall r, fields_agree g B (blocks t) G (regs' r) /\ no_charge B (blocks t) G (regs' r).
Proof.
  intros g Vg NP NS t H ml ML B FT G MG GG regs regs' H0 HR. induction HR as [|mid fin HR IH HS]; [exact H0|].
  assert (Ext : forall b b', (forall a, b a = b' a) -> fields_agree g B (blocks t) G b /\ no_charge B (blocks t) G b -> fields_agree g B (blocks t) G b' /\ no_charge B (blocks t) G b').
  { intros b b' Hb [[X1 X2] X3]. split; [split|]; [intros a a' dir p q Ha Ha' Hl Hr Hp Hq Hs; rewrite <- !Hb; apply (X1 a a'); assumption|intros a a' dir p qs Ha Ha' Hl Hr Hp Hf; rewrite <- !Hb; apply X2; assumption|intros a k j i Ha A; rewrite <- Hb; apply X3; assumption]. }
  destruct HS as [r E E' es es' w O1 O2 HE Hf|r i1 i2 i3 i4 w SW Hf|r i Hf]; intros s; (destruct (Nat.eqb s r) eqn:Es; [|apply (Ext (mid s)); [intros a; rewrite Hf, Es; reflexivity|apply IH]]).
  - destruct (C74_step g Vg NP NS t H ml ML B FT G MG GG E es es' O1 O2) as (E2 & H1 & H2). apply (Ext (fun a => CT (block_dims B) (G a) (edge_fields (block_dims B) (E' a)) w (mid s a))); [intros a; rewrite Hf, Es; reflexivity|]. destruct (H2 w (mid s)) as [H3 H4]. destruct (IH s) as [I1 I2].
    assert (EE : forall a, In a (blocks t) -> E' a = E2 a) by (intros a Ha; specialize (H1 a Ha); rewrite (HE a Ha) in H1; injection H1 as ->; reflexivity). split.
    + destruct (H3 I1) as [X1 X2]. split; [intros a a' dir p q Ha Ha'; rewrite !EE by assumption; apply X1; assumption|intros a a' dir p qs Ha Ha'; rewrite !EE by assumption; apply X2; assumption].
    + intros a k j i Ha A. rewrite EE by assumption. rewrite H4 by assumption. apply I2; assumption.
  - apply (Ext (fun a => WeightedAve (block_dims B) w (mid s a) (mid i1 a) (mid i2 a) (mid i3 a) (mid i4 a))); [intros a; rewrite Hf, Es; reflexivity|]. split; [apply (C74_average g Vg ml _ B FT); [exact SW|apply IH|apply IH|apply IH|apply IH|apply IH]|].
    intros a k j i Ha A. rewrite (Fv_Proofs.ave_net (block_dims B) (G a) (GG a Ha) w) by assumption. rewrite (proj2 (IH s)), (proj2 (IH i1)), (proj2 (IH i2)), (proj2 (IH i3)), (proj2 (IH i4)) by assumption. ring.
  - apply (Ext (mid i)); [intros a; rewrite Hf, Es; reflexivity|apply IH].
Qed.
Print Assumptions C74_history.
(** C74: uniform Cartesian meshes satisfy what is asked of the geometry. *)
Theorem C74_uniform_geometry : forall g, valid_grid g -> forall t, history g t -> forall ml, declared g ml (blocks t) -> forall B, fitting g B ml ->
  forall dx, (forall d, (d < 3)%nat -> (0 < dx d)%R) -> magnetic_geometry g B (blocks t) (uniform g dx) /\ forall a, Fv_Spec.good_geom (block_dims B) (uniform g dx a).
Proof. intros g Vg t H ml ML B FT dx Hdx. split; [apply (uniform_mg g Vg t (hist_wf g Vg t H) ml ML B FT dx Hdx)|intros a; apply uniform_good, Hdx]. Qed.
Print Assumptions C74_uniform_geometry.

(** ** The hypotheses are met *)
(** On the mesh of 19 blocks, from a uniform field, with EMFs that differ between levels, a face between levels has parts, and both updates and averages can be made. *)
Definition ex_dx (d : nat) : R := match d with 0%nat => 1 | 1%nat => 2 | _ => 3 end.
Definition ex_G : loc -> geom := uniform ex_grid ex_dx.
Definition ex_b (_ : nat) (_ : loc) : vec := Fv_Model.mkV (fun _ _ _ => 1%R) (fun _ _ _ => 2%R) (fun _ _ _ => 3%R).
Lemma ex_dx_pos : forall d, (d < 3)%nat -> (0 < ex_dx d)%R.
Proof. intros [|[|d]] _; cbn [ex_dx]; lra. Qed.
Example ex_mag : magnetic_geometry ex_grid ex_B (blocks ex_tree) ex_G /\ forall a, Fv_Spec.good_geom (block_dims ex_B) (ex_G a).
Proof. destruct ex_grid_ok as (Vg & NP & NS). apply (C74_uniform_geometry ex_grid Vg ex_tree (proj1 ex_history) true ex_declared ex_B (proj1 ex_fitting) ex_dx ex_dx_pos). Qed.
Example ex_face_parts : face_of ex_grid ex_B 0 (0, 2, 2) /\ face_parts ex_grid ex_B (mkLoc 2 1 0 0) (mkLoc 3 1 0 0) 0 (0, 2, 2) [(0, 2, 10); (0, 3, 10)].
Proof.
  split; [intros [|[|[|d]]] Hd; cbn; lia|]. split; [discriminate|]. split; [repeat constructor; cbn; intuition congruence|].
  intros [[k j] i]. split.
  - intros [E|[E|[]]]; injection E as <- <- <-; (split; [intros [|[|[|d]]] Hd; cbn; lia|]); intros [|[|d]] Hd; try (cbn in Hd; lia); exists 0; (split; [left; reflexivity|cbn; lia]).
  - intros [F O]. pose proof (F 0%nat ltac:(lia)) as F0. pose proof (F 1%nat ltac:(lia)) as F1. pose proof (F 2%nat ltac:(lia)) as F2. destruct (O 0%nat ltac:(cbn; lia)) as (s & S1 & S2). destruct (O 1%nat ltac:(cbn; lia)) as (s' & S1' & S2'). cbn in F0, F1, F2. unfold period_shift, domain_cells in S1, S1'. cbn in S1, S1'. destruct S1 as [->|(_ & _ & [->| ->])], S1' as [->|(_ & _ & [->| ->])]; change (1 * 8 + (i - 2) = 2 * (1 * 8 + (2 - 2)) + 0) in S2 || change (1 * 8 + (i - 2) = 2 * (1 * 8 + (2 - 2)) + 64) in S2 || change (1 * 8 + (i - 2) = 2 * (1 * 8 + (2 - 2)) + -64) in S2;
    change (2 * (0 * 8 + (2 - 2)) + 0 <= 0 * 8 + (j - 2) <= 2 * (0 * 8 + (2 - 2)) + 1 + 0) in S2' || change (2 * (0 * 8 + (2 - 2)) + 64 <= 0 * 8 + (j - 2) <= 2 * (0 * 8 + (2 - 2)) + 1 + 64) in S2' || change (2 * (0 * 8 + (2 - 2)) + -64 <= 0 * 8 + (j - 2) <= 2 * (0 * 8 + (2 - 2)) + 1 + -64) in S2'; try lia.
    assert (k = 0) by lia. assert (i = 10) by lia. assert (j = 2 \/ j = 3) by lia. subst k i. cbn [In]. destruct H1 as [-> | ->]; tauto.
Qed.
Lemma ex_start : forall r, fields_agree ex_grid ex_B (blocks ex_tree) ex_G (ex_b r) /\ no_charge ex_B (blocks ex_tree) ex_G (ex_b r).
Proof.
  intros r. destruct ex_grid_ok as (Vg & NP & NS). split; [split|].
  - intros a a' dir [[k j] i] [[k' j'] i'] _ _ _ _ _ _ _. destruct dir as [|[|dir]]; reflexivity.
  - intros a a' dir p qs Ha Ha' Hl Hr Hp Hf. destruct (face_base ex_grid Vg ex_tree (hist_wf ex_grid Vg ex_tree (proj1 ex_history)) true ex_declared ex_B (proj1 ex_fitting) a a' dir p qs Ha Ha' Hl Hr Hp Hf) as (q0 & _ & _ & _ & ND & Hq). pose proof (block_root ex_grid ex_tree (hist_wf ex_grid Vg ex_tree (proj1 ex_history)) a Ha) as Rt.
    change (gdim ex_grid) with 2%nat in *. pose proof (face_list ex_grid Vg dir qs q0 ND Hq 2%nat (1 - dir)%nat ltac:(lia)) as Pm. change (gdim ex_grid) with 2%nat in Pm. cbn [Nat.ltb Nat.leb app] in Pm. specialize (Pm ltac:(lia) Hr ltac:(lia) ltac:(lia) ltac:(lia)).
    rewrite (sum_permutation _ _ (Permutation_map _ Pm)). cbn [map]. rewrite !sum_cons'. change (Fv_Spec.sum []) with 0%R.
    assert (Ar : forall x l, area (ex_G l) dir x = (match dir with 0%nat => 2 / 2 ^ (level l - 1) * 3 | _ => 1 / 2 ^ (level l - 1) * 3 end)%R) by (intros [[k j] i] l; destruct dir as [|[|dir]]; [reflexivity|reflexivity|lia]).
    assert (Nr : forall x l, normal (ex_b r l) dir x = (match dir with 0%nat => 1 | _ => 2 end)%R) by (intros [[k j] i] l; destruct dir as [|[|dir]]; [reflexivity|reflexivity|lia]).
    rewrite !Ar, !Nr, Hl. change (groot ex_grid) with 1%nat in Rt. replace (S (level a) - 1)%nat with (S (level a - 1)) by lia. cbn [pow]. assert (P : (2 ^ (level a - 1) <> 0)%R) by (apply pow_nonzero; lra). destruct dir; field; exact P.
  - intros a k j i _ _. unfold Fv_Spec.net_flux, ex_b, ex_G, uniform. cbn [x1 x2 x3 A1 A2 A3]. ring.
Qed.
Definition ex_fin (E' : loc -> emf) (s : nat) (a : loc) : vec :=
  if Nat.eqb s 0 then WeightedAve (block_dims ex_B) (mkW (1/2) (1/2) 0 0 0) (CT (block_dims ex_B) (ex_G a) (edge_fields (block_dims ex_B) (E' a)) (1/10) (ex_b s a)) (ex_b 1 a) (ex_b 1 a) (ex_b 1 a) (ex_b 1 a) else ex_b s a.
Example ex_run : exists E', field_run ex_grid true ex_tree ex_B ex_G ex_b (ex_fin E') /\ forall r, fields_agree ex_grid ex_B (blocks ex_tree) ex_G (ex_fin E' r) /\ no_charge ex_B (blocks ex_tree) ex_G (ex_fin E' r).
Proof.
  destruct ex_grid_ok as (Vg & NP & NS). destruct ex_mag as [MG GG].
  assert (O : any_order ex_grid true ex_tree (fun a => rev (emf_loop (nbrs ex_grid true ex_tree a)))).
  { intros a Ha. destruct (lists ex_grid Vg NP NS ex_tree (hist_wf ex_grid Vg ex_tree (proj1 ex_history)) (hist_B ex_grid Vg NP ex_tree (proj1 ex_history)) true ex_declared a Ha) as (za & ns & _ & _ & Es & _). exists ns. split; [exact Es|]. unfold nbrs. rewrite Es. apply Permutation_rev. }
  destruct (C74_step ex_grid Vg NP NS ex_tree (proj1 ex_history) true ex_declared ex_B (proj1 ex_fitting) ex_G MG (fun a _ => GG a) ex_E _ _ O O) as (E' & H1 & _). exists E'.
  assert (R : field_run ex_grid true ex_tree ex_B ex_G ex_b (ex_fin E')).
  { apply (Run_step _ _ _ _ _ _ (fun s a => if Nat.eqb s 0 then CT (block_dims ex_B) (ex_G a) (edge_fields (block_dims ex_B) (E' a)) (1/10) (ex_b s a) else ex_b s a)).
    - apply (Run_step _ _ _ _ _ _ ex_b); [apply Run_start|]. apply (Step_advance _ _ _ _ _ _ _ 0%nat ex_E E' _ _ (1/10)%R O O H1). intros s a. reflexivity.
    - apply (Step_average _ _ _ _ _ _ _ 0%nat 1%nat 1%nat 1%nat 1%nat (mkW (1/2) (1/2) 0 0 0)); [right; left; reflexivity|]. intros s a. unfold ex_fin. destruct s; reflexivity. }
  split; [exact R|]. intros r. apply (C74_history ex_grid Vg NP NS ex_tree (proj1 ex_history) true ex_declared ex_B (proj1 ex_fitting) ex_G MG (fun a _ => GG a) ex_b _ ex_start R).
Qed.
