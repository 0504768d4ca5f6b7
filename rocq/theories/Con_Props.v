(** Property theorems about conservation on refined meshes (C72). *)
From Coq Require Import List Arith NArith ZArith Bool Lia Permutation Reals Lra.
From Verif Require Import Fv_Model Fv_Spec Fv_Proofs2 Fv_Proofs3 Loc LB_Spec Tags_Model Tags_Spec Tags_Proofs AMR_Model AMR_Spec AMR_Proofs AMR_Proofs2 Tree_Model Tree_Spec Tree_Proofs1 Tree_Proofs2 Tree_Proofs3 Tree_Proofs4 Tree_Proofs5 Tree_Proofs6 Tree_Proofs7 Tree_Proofs8 Tree_Restart Tree_Proofs9 Tree_Proofs10 Tree_Props Nbr_Model Nbr_Spec Nbr_Proofs Nbr_Proofs2 Nbr_Proofs3 Nbr_Props Buf_Model Gho_Model Gho_Spec Gho_Proofs Gho_Proofs2 Gho_Props Con_Model Con_Spec Con_Proofs Con_Proofs2 Con_Proofs3 Con_Proofs4 Con_Proofs5 Con_Proofs6.
Import ListNotations.
Local Open Scope Z_scope.

(** C72: on every mesh that a history of refinements and derefinements leads to, whatever the order in which each block handles its messages, the flux correction succeeds, and the update with the corrected fluxes changes the
    sum over all cells of all levels by what flows through the walls of the domain, and by nothing else. *)
Theorem C72_conservation : forall g, valid_grid g -> no_pole g -> no_shear g -> forall t, history g t -> forall ml, declared g ml (blocks t) -> forall B, fitting g B ml ->
  forall G F, geometry_ok g B (blocks t) G -> fluxes_agree g B (blocks t) F ->
  forall es, (forall a, In a (blocks t) -> exists ns, SearchAndSetNeighbors g ml t a = Some ns /\ Permutation (face_loop ns) (es a)) ->
  exists F', (forall a, In a (blocks t) -> ReceiveFlux g ml t B G F a (es a) (F a) = Some (F' a)) /\
  forall U w, content B (blocks t) G (fun a => AddFluxDivergence (block_dims B) (G a) (F' a) w (U a)) = (content B (blocks t) G U - w * outflow g B (blocks t) G F)%R.
Proof.
  intros g Vg NP NS t H ml ML B FT G F GO FA es Pes. pose proof (hist_wf g Vg t H) as W. pose proof (hist_B g Vg NP t H) as Bt.
  assert (Pes' : forall a, In a (blocks t) -> Permutation (faces g t ml a) (es a)) by (intros a Ha; destruct (Pes a Ha) as (ns & E & P); unfold faces, nbrs; rewrite E; exact P).
  exists (F' B G F es). split; [intros a Ha; apply (received g Vg NP NS t W Bt ml ML B G F es Pes' a Ha)|]. intros U w. apply (conserved g Vg NP NS t W Bt ml ML B FT G F GO FA es Pes').
Qed.
Print Assumptions C72_conservation.
(** C72: with periodic boundaries the sum does not change at all. *)
Theorem C72_periodic : forall g, valid_grid g -> no_pole g -> no_shear g -> (forall d o, (d < gdim g)%nat -> gbc g d o = BPeriodic) -> forall t, history g t -> forall ml, declared g ml (blocks t) -> forall B, fitting g B ml ->
  forall G F, geometry_ok g B (blocks t) G -> fluxes_agree g B (blocks t) F ->
  forall es, (forall a, In a (blocks t) -> exists ns, SearchAndSetNeighbors g ml t a = Some ns /\ Permutation (face_loop ns) (es a)) ->
  exists F', (forall a, In a (blocks t) -> ReceiveFlux g ml t B G F a (es a) (F a) = Some (F' a)) /\
  forall U w, content B (blocks t) G (fun a => AddFluxDivergence (block_dims B) (G a) (F' a) w (U a)) = content B (blocks t) G U.
Proof.
  intros g Vg NP NS Per t H ml ML B FT G F GO FA es Pes. destruct (C72_conservation g Vg NP NS t H ml ML B FT G F GO FA es Pes) as (F' & HR & HC). exists F'. split; [exact HR|]. intros U w. rewrite HC.
  assert (O : outflow g B (blocks t) G F = 0%R).
  { unfold outflow. rewrite <- (Fv_Proofs2.sum_zero loc (blocks t)). apply Fv_Proofs2.sum_ext. intros a _. assert (N : filter (wall g a) (sides (block_dims B)) = []); [|rewrite N; reflexivity].
    assert (X : forall fid, In fid (sides (block_dims B)) -> wall g a fid = false); [|revert X; generalize (sides (block_dims B)); intros l X; induction l as [|z l IH]; [reflexivity|]; cbn [filter]; rewrite (X z (or_introl eq_refl)); apply IH; intros y Hy; apply X; right; exact Hy].
    intros fid Hf. apply (D_sides g Vg ml B FT) in Hf. unfold wall. rewrite Per by (apply Nat.div_lt_upper_bound; lia). apply andb_false_r. }
  rewrite O. lra.
Qed.
Print Assumptions C72_periodic.
(** C72: the message a block sends is the same whether or not it has already received corrections itself. *)
Theorem C72_send_any_time : forall g, valid_grid g -> no_pole g -> no_shear g -> forall t, history g t -> forall ml, declared g ml (blocks t) -> forall B, fitting g B ml ->
  forall G F a ns, In a (blocks t) -> SearchAndSetNeighbors g ml t a = Some ns -> forall es f, incl es (face_loop ns) -> ReceiveFlux g ml t B G F a es (F a) = Some f ->
  forall e, In e (face_loop ns) -> SendFlux B G (fun l => if loc_eqb l a then f else F l) a e = SendFlux B G F a e.
Proof.
  intros g Vg NP NS t H ml ML B FT G F a ns Ha E es f Hes HR e He. assert (Ef : faces g t ml a = face_loop ns) by (unfold faces, nbrs; rewrite E; reflexivity).
  apply (send_after g Vg NP NS t (hist_wf g Vg t H) (hist_B g Vg NP t H) ml ML B FT G F a es f e Ha); [intros x Hx; rewrite Ef; apply Hes, Hx|exact HR|rewrite Ef; exact He].
Qed.
Print Assumptions C72_send_any_time.
(** C72: uniform Cartesian meshes satisfy what is asked of the geometry. *)
Theorem C72_uniform_geometry : forall g, valid_grid g -> forall t, history g t -> forall ml, declared g ml (blocks t) -> forall B, fitting g B ml ->
  forall dx, (forall d, (d < 3)%nat -> (0 < dx d)%R) -> geometry_ok g B (blocks t) (uniform g dx).
Proof. intros g Vg t H ml ML B FT dx Hdx. apply (uniform_ok g Vg t (hist_wf g Vg t H) ml ML B FT dx Hdx). Qed.
Print Assumptions C72_uniform_geometry.
(** C72: fluxes that each block computes on its own, each from the cells of its ghost-zone-filled variables next to the face, agree between blocks of the same level.  [main'] is what the exchange of ghost zones (C27) leaves;
    prolongation and physical boundary conditions may have changed it elsewhere into [main]. *)
Theorem C72_after_exchange : forall g, valid_grid g -> no_pole g -> no_shear g -> forall t, history g t -> forall ml, declared g ml (blocks t) -> forall B, fitting g B ml ->
  forall (A : Type) (nl nu : Z) (V : loc -> arr4 (A := A)) (R : loc -> arr4 -> arr4) (es : loc -> list nblock) (coarse coarse' main' main : loc -> arr4),
  (forall a, In a (blocks t) -> exists ns, SearchAndSetNeighbors g ml t a = Some ns /\ Permutation ns (es a)) ->
  (forall a, In a (blocks t) -> SetBoundaries g ml t B nl nu V R a (es a) (V a, coarse a) = Some (main' a, coarse' a)) ->
  (forall a n x, In a (blocks t) -> (exists b y, In b (blocks t) /\ level b = level a /\ own B (gdim g) false y /\ same_place g B (level a) a false x b false y) -> value (main a) n x = value (main' a) n x) ->
  forall phi F, stencil_flux g B (blocks t) nl nu main phi F -> fluxes_agree g B (blocks t) F.
Proof.
  intros g Vg NP NS t H ml ML B FT A nl nu V R es coarse coarse' main' main Pes HS Hm phi F SF. pose proof (hist_wf g Vg t H) as W.
  assert (K : forall a n, In a (blocks t) -> nl <= n <= nu -> filled g B (blocks t) V R a n (main' a) (coarse' a) /\ kept g B (blocks t) a n (V a) (main' a) (coarse a) (coarse' a)).
  { intros a n Ha Hn. destruct (Pes a Ha) as (ns & E & P). destruct (C27_exchange g Vg NP NS t H ml ML B FT A nl nu V R a Ha) as (ns' & E' & X). assert (ns' = ns) by congruence. subst ns'. destruct (X (es a) P (V a) (coarse a)) as (m & c & E2 & X2 & _). rewrite (HS a Ha) in E2. injection E2 as <- <-. apply X2, Hn. }
  apply (agree g Vg t W ml B FT nl nu V main) with (phi := phi); [| |exact SF].
  - intros a n x Ha Hn Hx. rewrite (Hm a n x Ha).
    + destruct (K a n Ha Hn) as [_ [K2 _]]. apply K2. left. exact Hx.
    + exists a, x. split; [exact Ha|]. split; [reflexivity|]. split; [exact Hx|]. intros d Hd. exists 0. split; [left; reflexivity|lia].
  - intros a n x b y Ha Hn Nx Ox Hb L Oy SP. rewrite (Hm a n x Ha) by (exists b, y; split; [exact Hb|]; split; [exact L|]; split; [exact Oy|exact SP]). destruct (K a n Ha Hn) as [[K1 _] _]. apply K1; assumption.
Qed.
Print Assumptions C72_after_exchange.

(** ** The hypotheses are met *)
Definition ex_dx (d : nat) : R := match d with 0%nat => 1 | 1%nat => 2 | _ => 3 end.
Example ex_geometry : geometry_ok ex_grid ex_B (blocks ex_tree) (uniform ex_grid ex_dx).
Proof. apply (C72_uniform_geometry ex_grid (proj1 ex_grid_ok) ex_tree (proj1 ex_history) true ex_declared ex_B (proj1 ex_fitting)). intros [|[|[|d]]] Hd; cbn; try lra; lia. Qed.
(** Fluxes that differ between the levels: each from the two cells next to its face, with a factor for the level. *)
Definition ex_phi (a : loc) (dir : nat) (p : fpos) (u : Z -> Z -> R) : R := (INR (level a) * (u 0%Z (-1)%Z + u 0%Z 0%Z))%R.
Definition ex_F (main : loc -> arr4 (A := R)) (a : loc) : vec :=
  let f dir k j i := ex_phi a dir (k, j, i) (fun n m => value (main a) n (line (k, j, i) dir m)) in Fv_Model.mkV (f 0%nat) (f 1%nat) (f 2%nat).
Lemma ex_stencil : forall main, stencil_flux ex_grid ex_B (blocks ex_tree) 0 0 main ex_phi (ex_F main).
Proof.
  intros main. split; [|split].
  - intros a dir p u v H. unfold ex_phi. rewrite (H 0 (-1)), (H 0 0) by (cbn [ng ex_B]; lia). reflexivity.
  - intros a b dir p q u _ _ L _. unfold ex_phi. rewrite L. reflexivity.
  - intros a dir [[k j] i] _ Hd _. destruct dir as [|[|dir]]; [reflexivity|reflexivity|cbn in Hd; lia].
Qed.
(** The whole step on the mesh of 19 blocks of two levels, from any values: exchange of the ghost zones, fluxes, correction of the fluxes, update. *)
Example ex_step : forall V R coarse U w, exists main coarse' F',
  (forall a, In a (blocks ex_tree) -> SetBoundaries ex_grid true ex_tree ex_B 0 0 V R a (nbrs ex_grid true ex_tree a) (V a, coarse a) = Some (main a, coarse' a)) /\
  (forall a, In a (blocks ex_tree) -> ReceiveFlux ex_grid true ex_tree ex_B (uniform ex_grid ex_dx) (ex_F main) a (face_loop (nbrs ex_grid true ex_tree a)) (ex_F main a) = Some (F' a)) /\
  content ex_B (blocks ex_tree) (uniform ex_grid ex_dx) (fun a => AddFluxDivergence (block_dims ex_B) (uniform ex_grid ex_dx a) (F' a) w (U a)) = content ex_B (blocks ex_tree) (uniform ex_grid ex_dx) U.
Proof.
  intros V R coarse U w. destruct ex_grid_ok as (Vg & NP & NS). pose proof (proj1 ex_history) as H. pose proof (proj1 ex_fitting) as FT.
  assert (Hns : forall a, In a (blocks ex_tree) -> SearchAndSetNeighbors ex_grid true ex_tree a = Some (nbrs ex_grid true ex_tree a)) by (intros a Ha; destruct (C27_exchange ex_grid Vg NP NS ex_tree H true ex_declared ex_B FT _ 0 0 V R a Ha) as (ns & E & _); unfold nbrs; rewrite E; reflexivity).
  pose (out a := match SetBoundaries ex_grid true ex_tree ex_B 0 0 V R a (nbrs ex_grid true ex_tree a) (V a, coarse a) with Some r => r | None => (V a, V a) end).
  assert (HS : forall a, In a (blocks ex_tree) -> SetBoundaries ex_grid true ex_tree ex_B 0 0 V R a (nbrs ex_grid true ex_tree a) (V a, coarse a) = Some (fst (out a), snd (out a))).
  { intros a Ha. destruct (C27_exchange ex_grid Vg NP NS ex_tree H true ex_declared ex_B FT _ 0 0 V R a Ha) as (ns & E & X). rewrite (Hns a Ha) in E. injection E as <-. destruct (X _ (Permutation_refl _) (V a) (coarse a)) as (m & c & E2 & _). unfold out. rewrite E2. reflexivity. }
  assert (FA : fluxes_agree ex_grid ex_B (blocks ex_tree) (ex_F (fun a => fst (out a)))).
  { apply (C72_after_exchange ex_grid Vg NP NS ex_tree H true ex_declared ex_B FT _ 0 0 V R (nbrs ex_grid true ex_tree) coarse (fun a => snd (out a)) (fun a => fst (out a)) (fun a => fst (out a))) with (phi := ex_phi); [|exact HS|reflexivity|apply ex_stencil].
    intros a Ha. exists (nbrs ex_grid true ex_tree a). split; [apply Hns, Ha|apply Permutation_refl]. }
  destruct (C72_periodic ex_grid Vg NP NS) with (t := ex_tree) (ml := true) (B := ex_B) (G := uniform ex_grid ex_dx) (F := ex_F (fun a => fst (out a))) (es := fun a => face_loop (nbrs ex_grid true ex_tree a)) as (F' & HR & HC); try assumption; [intros [|[|d]] o Hd; [reflexivity|reflexivity|cbn in Hd; lia]|exact ex_declared|exact ex_geometry| |].
  - intros a Ha. exists (nbrs ex_grid true ex_tree a). split; [apply Hns, Ha|apply Permutation_refl].
  - exists (fun a => fst (out a)), (fun a => snd (out a)), F'. split; [exact HS|]. split; [exact HR|]. apply HC.
Qed.
