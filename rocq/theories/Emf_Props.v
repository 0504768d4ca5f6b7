(** Property theorems about the correction of electromotive forces on refined meshes (C73). *)
From Coq Require Import List Arith NArith ZArith Bool Lia Permutation Reals Lra.
From Verif Require Fv_Spec.
From Verif Require Import Loc LB_Spec Tags_Model Tags_Spec Tags_Proofs AMR_Model AMR_Spec AMR_Proofs AMR_Proofs2 Tree_Model Tree_Spec Tree_Proofs1 Tree_Proofs2 Tree_Proofs3 Tree_Proofs4 Tree_Proofs5 Tree_Proofs6 Tree_Proofs7 Tree_Proofs8 Tree_Restart Tree_Proofs9 Tree_Proofs10 Tree_Props Nbr_Model Nbr_Spec Nbr_Proofs Nbr_Proofs2 Nbr_Proofs3 Nbr_Props Buf_Model Gho_Model Gho_Spec Gho_Proofs Gho_Proofs2 Gho_Props Con_Model Con_Spec Con_Proofs Emf_Model Emf_Spec Emf_Proofs Emf_Proofs2 Emf_Proofs3 Emf_Proofs4 Emf_Proofs5 Emf_Proofs6 Emf_Proofs7.
Import ListNotations.
Local Open Scope Z_scope.

(** C73: on every mesh that a history of refinements and derefinements leads to, whatever the order in which each block handles the messages of its neighbours of the same level and then those of finer ones, every message it waits
    for arrives, the corrected EMF of every edge is the mean of what the blocks touching it have computed, of the finest ones if their levels differ, and all blocks end up with the same EMF on the edges they share. *)
Theorem C73_corrected_emfs : forall g, valid_grid g -> no_pole g -> no_shear g -> forall t, history g t -> forall ml, declared g ml (blocks t) -> forall B, fitting g B ml ->
  forall L E, lengths_ok g B (blocks t) L ->
  forall es es', (forall a, In a (blocks t) -> exists ns, SearchAndSetNeighbors g ml t a = Some ns /\ Permutation (emf_loop ns) (es a) /\ Permutation (emf_loop ns) (es' a)) ->
  exists E', (forall a, In a (blocks t) -> ReceiveEmf g ml t B L E a (es a) (es' a) = Some (E' a)) /\ mean_emf g B (blocks t) L E E' /\ single_valued g B (blocks t) L E'.
Proof.
  intros g Vg NP NS t H ml ML B FT L E LO es es' Pes. pose proof (hist_wf g Vg t H) as W. pose proof (hist_B g Vg NP t H) as Bt.
  assert (R : forall a, In a (blocks t) -> exists f', ReceiveEmf g ml t B L E a (es a) (es' a) = Some f' /\ forall c p, (c < 3)%nat -> edge_of g B c p ->
    (exists l, lists_all l (part g B (blocks t) c a p) /\ l <> [] /\
     (at_edge f' c p * Fv_Spec.sum (map (fun x => at_edge (L (fst x)) c (snd x)) l) = Fv_Spec.sum (map (fun x => at_edge (L (fst x)) c (snd x) * at_edge (E (fst x)) c (snd x)) l))%R) \/
    ((forall x, ~ part g B (blocks t) c a p x) /\ exists l, lists_all l (copy g B (blocks t) c a p) /\ l <> [] /\ (at_edge f' c p * INR (length l) = Fv_Spec.sum (map (fun x => at_edge (E (fst x)) c (snd x)) l))%R)).
  { intros a Ha. destruct (Pes a Ha) as (ns & Es & P1 & P2). apply (receive_mean g Vg NP NS t W Bt ml ML B FT L E LO a (es a) (es' a) Ha); apply Permutation_sym; unfold entries, nbrs; rewrite Es; assumption. }
  exists (fun a => match ReceiveEmf g ml t B L E a (es a) (es' a) with Some f => f | None => E a end).
  assert (M : mean_emf g B (blocks t) L E (fun a => match ReceiveEmf g ml t B L E a (es a) (es' a) with Some f => f | None => E a end)) by (intros a c p Ha Hc Hp; destruct (R a Ha) as (f' & Ef & X); rewrite Ef; apply X; assumption).
  split; [intros a Ha; destruct (R a Ha) as (f' & Ef & _); rewrite Ef; reflexivity|]. split; [exact M|]. apply (mean_single g Vg NP NS t W Bt ml ML B FT L E _ LO M).
Qed.
Print Assumptions C73_corrected_emfs.
(** C73: the order in which messages are handled makes no difference. *)
Theorem C73_any_order : forall g, valid_grid g -> no_pole g -> no_shear g -> forall t, history g t -> forall ml, declared g ml (blocks t) -> forall B, fitting g B ml ->
  forall L E, lengths_ok g B (blocks t) L -> forall a ns, In a (blocks t) -> SearchAndSetNeighbors g ml t a = Some ns ->
  forall es1 es1' es2 es2', Permutation (emf_loop ns) es1 -> Permutation (emf_loop ns) es1' -> Permutation (emf_loop ns) es2 -> Permutation (emf_loop ns) es2' ->
  forall f1 f2, ReceiveEmf g ml t B L E a es1 es1' = Some f1 -> ReceiveEmf g ml t B L E a es2 es2' = Some f2 ->
  forall c p, (c < 3)%nat -> edge_of g B c p -> at_edge f1 c p = at_edge f2 c p.
Proof.
  intros g Vg NP NS t H ml ML B FT L E LO a ns Ha Es es1 es1' es2 es2' P1 P1' P2 P2' f1 f2 R1 R2 c p Hc Hp. pose proof (hist_wf g Vg t H) as W. pose proof (hist_B g Vg NP t H) as Bt.
  assert (X : forall x, Permutation (emf_loop ns) x -> Permutation x (entries g t ml a)) by (intros x Hx; apply Permutation_sym; unfold entries, nbrs; rewrite Es; exact Hx).
  destruct (receive_mean g Vg NP NS t W Bt ml ML B FT L E LO a es1 es1' Ha (X _ P1) (X _ P1')) as (f & Ef & V1). rewrite R1 in Ef. injection Ef as <-. destruct (receive_mean g Vg NP NS t W Bt ml ML B FT L E LO a es2 es2' Ha (X _ P2) (X _ P2')) as (f & Ef & V2). rewrite R2 in Ef. injection Ef as <-.
  destruct (V1 c p Hc Hp) as [(l & L1 & N1 & M1)|(Z1 & l & L1 & N1 & M1)], (V2 c p Hc Hp) as [(l' & L2 & N2 & M2)|(Z2 & l' & L2 & N2 & M2)].
  - pose proof (lists_perm _ _ _ _ _ L2 L1 (fun x => iff_refl _)) as Pm. rewrite (sum_permutation _ _ (Permutation_map _ Pm)) in M2. rewrite (sum_permutation _ _ (Permutation_map (fun x => at_edge (L (fst x)) c (snd x) * at_edge (E (fst x)) c (snd x))%R Pm)) in M2. rewrite <- M1 in M2.
    assert (Sp : (0 < Fv_Spec.sum (map (fun x => at_edge (L (fst x)) c (snd x)) l))%R). { apply sum_pos; [exact N1|]. intros y Hy'. apply (proj2 L1) in Hy' as (Y1 & _ & Y3 & _). apply (proj1 LO); assumption. }
    symmetry. apply (Rmult_eq_reg_r _ _ _ M2). lra.
  - exfalso. destruct l as [|y l]; [contradiction N1; reflexivity|]. apply (Z2 y), (proj2 L1). left. reflexivity.
  - exfalso. destruct l' as [|y l']; [contradiction N2; reflexivity|]. apply (Z1 y), (proj2 L2). left. reflexivity.
  - pose proof (lists_perm _ _ _ _ _ L2 L1 (fun x => iff_refl _)) as Pm. rewrite (sum_permutation _ _ (Permutation_map _ Pm)), (Permutation_length Pm) in M2. rewrite <- M1 in M2. assert (Sp : (0 < INR (length l))%R) by (apply lt_0_INR; destruct l; [contradiction N1; reflexivity|cbn; lia]). symmetry. apply (Rmult_eq_reg_r _ _ _ M2). lra.
Qed.
Print Assumptions C73_any_order.
(** C73: uniform Cartesian meshes satisfy what is asked of the edge lengths. *)
Theorem C73_uniform_lengths : forall g B bs dx, (forall d, (d < 3)%nat -> (0 < dx d)%R) -> lengths_ok g B bs (uniform_lengths g dx).
Proof.
  intros g B bs dx Hdx. split.
  - intros a c [[k j] i] _ Hc _. unfold at_edge, uniform_lengths, cell_length. rewrite Nat2Z.id. specialize (Hdx c Hc). destruct (Nat.ltb c (gdim g)); [|exact Hdx]. apply Rdiv_lt_0_compat; [exact Hdx|]. apply pow_lt. lra.
  - intros a c [[k j] i] [b [[k' j'] i']] _ _ _ (_ & H & _). cbn [fst snd] in *. unfold at_edge, uniform_lengths. rewrite H. reflexivity.
Qed.
Print Assumptions C73_uniform_lengths.

(** ** The hypotheses are met *)
(** On the mesh of 19 blocks of levels 2 and 3: where every block has computed its level as EMF, a coarse edge next to a finer block is corrected to the finer value, on a periodic mesh and with the messages in reverse order. *)
Definition ex_E (a : loc) : emf := fun _ _ _ _ => INR (level a).
Definition ex_L : loc -> emf := uniform_lengths ex_grid (fun d => match d with 0%nat => 1%R | 1%nat => 2%R | _ => 3%R end).
Lemma ex_lengths : lengths_ok ex_grid ex_B (blocks ex_tree) ex_L.
Proof. apply C73_uniform_lengths. intros [|[|d]] _; lra. Qed.
Definition ex_edge : fpos := (0, 5, 2).
Example ex_part : In (mkLoc 2 1 0 0) (blocks ex_tree) /\ edge_of ex_grid ex_B 2 ex_edge /\ part ex_grid ex_B (blocks ex_tree) 2 (mkLoc 2 1 0 0) ex_edge (mkLoc 3 1 0 0, (0, 8, 10)) /\ copy ex_grid ex_B (blocks ex_tree) 2 (mkLoc 2 1 0 0) (0, 5, 10) (mkLoc 2 2 0 0, ex_edge).
Proof.
  assert (I : forall x, existsb (loc_eqb x) (blocks ex_tree) = true -> In x (blocks ex_tree)) by (intros x Hx; apply existsb_exists in Hx as (y & Hy & E); destruct (loc_eqb_spec x y) as [->|N]; [exact Hy|discriminate E]).
  split; [apply I; reflexivity|]. split; [intros [|[|[|d]]] Hd; cbn; lia|]. split.
  - split; [apply I; reflexivity|]. split; [reflexivity|]. split; [intros [|[|[|d]]] Hd; cbn; lia|]. intros [|[|d]] Hd; [| |cbn in Hd; lia]; exists 0; (split; [left; reflexivity|reflexivity]).
  - split; [apply I; reflexivity|]. split; [reflexivity|]. split; [intros [|[|[|d]]] Hd; cbn; lia|]. intros [|[|d]] Hd; [| |cbn in Hd; lia]; exists 0; (split; [left; reflexivity|reflexivity]).
Qed.
Example ex_correction : exists E', (forall a, In a (blocks ex_tree) -> ReceiveEmf ex_grid true ex_tree ex_B ex_L ex_E a (rev (emf_loop (nbrs ex_grid true ex_tree a))) (rev (emf_loop (nbrs ex_grid true ex_tree a))) = Some (E' a)) /\
  single_valued ex_grid ex_B (blocks ex_tree) ex_L E' /\ at_edge (E' (mkLoc 2 1 0 0)) 2 ex_edge = 3%R.
Proof.
  destruct ex_grid_ok as (Vg & NP & NS). destruct (C73_corrected_emfs ex_grid Vg NP NS ex_tree (proj1 ex_history) true ex_declared ex_B (proj1 ex_fitting) ex_L ex_E ex_lengths (fun a => rev (emf_loop (nbrs ex_grid true ex_tree a))) (fun a => rev (emf_loop (nbrs ex_grid true ex_tree a)))) as (E' & H1 & H2 & H3).
  - intros a Ha. destruct (lists ex_grid Vg NP NS ex_tree (hist_wf ex_grid Vg ex_tree (proj1 ex_history)) (hist_B ex_grid Vg NP ex_tree (proj1 ex_history)) true ex_declared a Ha) as (za & ns & _ & _ & Es & _). exists ns. split; [exact Es|]. unfold nbrs. rewrite Es. split; apply Permutation_rev.
  - exists E'. split; [exact H1|]. split; [exact H3|]. destruct ex_part as (Pa & Pe & Pp & _). destruct (H2 (mkLoc 2 1 0 0) 2%nat ex_edge Pa ltac:(lia) Pe) as [(l & L1 & N1 & V1)|(Z1 & _)]; [|contradiction (Z1 _ Pp)].
    assert (S3 : Fv_Spec.sum (map (fun x => at_edge (ex_L (fst x)) 2 (snd x) * at_edge (ex_E (fst x)) 2 (snd x))%R l) = (3 * Fv_Spec.sum (map (fun x => at_edge (ex_L (fst x)) 2 (snd x)) l))%R).
    { destruct L1 as [_ L1]. assert (L2 : forall x, In x l -> level (fst x) = 3%nat) by (intros x Hx; apply L1 in Hx; apply Hx). clear -L2. induction l as [|x l IH]; [cbn; lra|]. cbn [map]. rewrite !sum_cons', IH by (intros y Hy; apply L2; right; exact Hy). specialize (L2 x (or_introl eq_refl)). destruct x as [b [[k j] i]]. cbn [fst snd] in *. unfold at_edge, ex_E. rewrite L2. cbn. lra. }
    assert (Sp : (0 < Fv_Spec.sum (map (fun x => at_edge (ex_L (fst x)) 2 (snd x)) l))%R). { apply sum_pos; [exact N1|]. intros y Hy'. apply (proj2 L1) in Hy' as (Y1 & _ & Y3 & _). apply (proj1 ex_lengths); [exact Y1|lia|exact Y3]. }
    rewrite S3 in V1. apply (Rmult_eq_reg_r _ _ _ V1). lra.
Qed.
