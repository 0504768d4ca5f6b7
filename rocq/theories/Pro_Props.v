(** Property theorems about the ghost zones next to coarser blocks (C71). *)
From Coq Require Import List Arith NArith ZArith Bool Lia Permutation.
From Verif Require Import Loc LB_Spec Tags_Model AMR_Model AMR_Spec AMR_Proofs AMR_Proofs2 Tree_Model Tree_Spec Tree_Proofs1 Tree_Proofs2 Tree_Proofs3 Tree_Proofs4 Tree_Proofs5 Tree_Proofs6 Tree_Proofs7 Tree_Proofs8 Tree_Restart Tree_Proofs9 Tree_Proofs10 Tree_Props Nbr_Model Nbr_Spec Nbr_Proofs Nbr_Proofs2 Nbr_Proofs3 Buf_Model Gho_Model Gho_Spec Gho_Proofs Gho_Proofs2 Gho_Proofs3 Gho_Proofs4 Gho_Proofs5 Gho_Props Pro_Model Pro_Spec Pro_Proofs Pro_Proofs2 Pro_Proofs3 Pro_Proofs4.
Import ListNotations.
Local Open Scope Z_scope.

(** C71: with two ghost cells, whatever the order of the neighbours, every ghost cell that lies in a coarser block is prolongated from coarse values that are, everywhere the slopes need them, the value of the coarser block,
    the restriction of the current values of the block or of a neighbour of its own level, or the result of the boundary function; the conserved variables there follow from the primitive ones; all other cells keep the values
    of the exchange (C27). *)
Theorem C71_prolongation : forall g, valid_grid g -> no_pole g -> no_shear g -> plain g -> forall t, history g t -> forall ml, declared g ml (blocks t) -> forall B, fitting g B ml -> ng B = 2 ->
  forall (A P : Type) (V : loc -> arr4 (A := A)) (R : loc -> arr4 (A := A) -> arr4 (A := A)) (c2p : Z -> Z -> Z -> A -> P) (p2c : Z -> Z -> Z -> P -> A) (Pr : arr4 (A := P) -> arr4 (A := P)) (bc : nat -> bool -> arr4 (A := P) -> arr4 (A := P)),
  (forall b, local_restriction g B (R b)) -> local_boundary g B bc -> forall a, In a (blocks t) -> exists ns, SearchAndSetNeighbors g ml t a = Some ns /\
  forall es, Permutation ns es -> forall st, exists main coarse st',
  SetBoundaries g ml t B 0 0 V R a es (cons st, SendCoarse (R a) B a es (cons st) (ccons st)) = Some (main, coarse) /\ GhostZones c2p p2c Pr bc g ml t B V R a es st = Some st' /\
  (forall x b y, near B (gdim g) false (ng B) x -> in_coarser g B (blocks t) a (coarse_cell g B x) b y -> exists pw, (forall s, stencil g (coarse_cell g B x) s -> proper g B (blocks t) V (R a) c2p bc a main pw s) /\
     value (prim st') 0 x = value (Pr pw) 0 x /\ value (cons st') 0 x = p2c (x 2%nat) (x 1%nat) (x 0%nat) (value (Pr pw) 0 x)) /\
  (forall x, ~ (near B (gdim g) false (ng B) x /\ exists b y, in_coarser g B (blocks t) a (coarse_cell g B x) b y) -> value (cons st') 0 x = value main 0 x).
Proof.
  intros g Vg NP NS PL t H ml ML B FT NG A P V R c2p p2c Pr bc LR LB a Ha. pose proof (hist_wf g Vg t H) as W. pose proof (hist_B g Vg NP t H) as Bt.
  destruct (lists g Vg NP NS t W Bt ml ML a Ha) as (za & ns & _ & _ & Es & Hin & _). exists ns. split; [exact Es|]. intros es Pm st.
  destruct (ghost_zones g Vg NP NS PL t W Bt ml ML B FT NG A P V R c2p p2c Pr bc LR LB a Ha es) with (st := st) as (m & c & st' & E1 & E2 & _ & _ & Q1 & Q2).
  { intros e. rewrite <- Hin. split; intros X; [apply (Permutation_in e (Permutation_sym Pm)), X|apply (Permutation_in e Pm), X]. }
  exists m, c, st'. split; [exact E1|]. split; [exact E2|]. split; [|exact Q2]. intros x b y N Pl. destruct (Q1 x b y N Pl) as (pw & P1 & _ & P2 & P3). exists pw. auto.
Qed.
Print Assumptions C71_prolongation.
(** C71: the proper coarse value is unique where no physical boundary is crossed. *)
Theorem C71_proper_unique : forall g, valid_grid g -> forall t, history g t -> forall B, fitting g B true -> forall (A P : Type) (V : loc -> arr4 (A := A)) R (c2p : Z -> Z -> Z -> A -> P) bc a main pw pw' s, In a (blocks t) ->
  (forall d hi, at_wall g a d hi -> side B (gdim g) true s d <> if hi then 1 else -1) -> proper g B (blocks t) V R c2p bc a main pw s -> proper g B (blocks t) V R c2p bc a main pw' s -> value pw 0 s = value pw' 0 s.
Proof. intros g Vg t H B FT A P V R c2p bc a main pw pw' s. apply (proper_unique g Vg t (hist_wf g Vg t H) true B FT eq_refl). Qed.
Print Assumptions C71_proper_unique.
(** C71: away from physical boundaries the ghost values are determined by the values the blocks own: they do not depend on what the ghost cells, the primitive variables or the coarse buffer held before, nor on the order
    of the neighbours. *)
Theorem C71_no_stale_values : forall g, valid_grid g -> no_pole g -> no_shear g -> plain g -> forall t, history g t -> forall ml, declared g ml (blocks t) -> forall B, fitting g B ml -> ng B = 2 ->
  forall (A P : Type) (V : loc -> arr4 (A := A)) (R : loc -> arr4 (A := A) -> arr4 (A := A)) (c2p : Z -> Z -> Z -> A -> P) (p2c : Z -> Z -> Z -> P -> A) (Pr : arr4 (A := P) -> arr4 (A := P)) (bc : nat -> bool -> arr4 (A := P) -> arr4 (A := P)),
  (forall b, local_restriction g B (R b)) -> local_boundary g B bc -> local_prolongation g B Pr -> forall a ns, In a (blocks t) -> SearchAndSetNeighbors g ml t a = Some ns -> forall es1 es2, Permutation ns es1 -> Permutation ns es2 ->
  forall st1 st2, (forall x, own B (gdim g) false x -> value (cons st1) 0 x = value (cons st2) 0 x) -> forall st1' st2', GhostZones c2p p2c Pr bc g ml t B V R a es1 st1 = Some st1' -> GhostZones c2p p2c Pr bc g ml t B V R a es2 st2 = Some st2' ->
  forall x b y, near B (gdim g) false (ng B) x -> in_coarser g B (blocks t) a (coarse_cell g B x) b y ->
  (forall s d hi, stencil g (coarse_cell g B x) s -> at_wall g a d hi -> side B (gdim g) true s d <> if hi then 1 else -1) -> value (prim st1') 0 x = value (prim st2') 0 x /\ value (cons st1') 0 x = value (cons st2') 0 x.
Proof.
  intros g Vg NP NS PL t H ml ML B FT NG A P V R c2p p2c Pr bc LR LB LP a ns Ha Es es1 es2 P1 P2. pose proof (hist_wf g Vg t H) as W. pose proof (hist_B g Vg NP t H) as Bt.
  destruct (lists g Vg NP NS t W Bt ml ML a Ha) as (za & ns' & _ & _ & Es' & Hin & _). assert (ns' = ns) by congruence. subst ns'.
  apply (fresh g Vg NP NS PL t W Bt ml ML B FT NG A P V R c2p p2c Pr bc LR LB LP a Ha).
  - intros e. rewrite <- Hin. split; intros X; [apply (Permutation_in e (Permutation_sym P1)), X|apply (Permutation_in e P1), X].
  - intros e. rewrite <- Hin. split; intros X; [apply (Permutation_in e (Permutation_sym P2)), X|apply (Permutation_in e P2), X].
Qed.
Print Assumptions C71_no_stale_values.

(** ** The hypotheses are met *)
(** Integers: mean of the four fine cells, minmod slopes (values times 4), outflow boundaries. *)
Definition around_ (v : arr4 (A := Z)) (n k j i dj di : Z) : Z := v n k (j + dj) (i + di).
Definition mean4 (n0 : Z) (v : arr4 (A := Z)) : arr4 (A := Z) := fun n k j i =>
  let f := around_ v n k (2 * (j - n0) + n0) (2 * (i - n0) + n0) in (f 0 0 + f 0 1 + f 1 0 + f 1 1) / 4.
Definition minmodz (p q : Z) : Z := if Z.ltb 0 p && Z.ltb 0 q then Z.min p q else if Z.ltb p 0 && Z.ltb q 0 then Z.max p q else 0.
Definition slopes4 (n0 : Z) (v : arr4 (A := Z)) : arr4 (A := Z) := fun n k j i =>
  let f := around_ v n k (n0 + (j - n0) / 2) (n0 + (i - n0) / 2) in
  4 * f 0 0 + (2 * ((i - n0) mod 2) - 1) * minmodz (f 0 0 - f 0 (-1)) (f 0 1 - f 0 0) + (2 * ((j - n0) mod 2) - 1) * minmodz (f 0 0 - f (-1) 0) (f 1 0 - f 0 0).
Definition outflow (n0 : Z) (d : nat) (hi : bool) (v : arr4 (A := Z)) : arr4 (A := Z) := fun n k j i => let e := if hi then n0 + 3 else n0 in match d with 0%nat => v n k j e | 1%nat => v n k e i | _ => 0 end.
Lemma ex_local : forall g n0, gdim g = 2%nat -> local_restriction g (mkB n0 8 8 1) (mean4 n0) /\ local_prolongation g (mkB n0 8 8 1) (slopes4 n0) /\ local_boundary g (mkB n0 8 8 1) (outflow n0).
Proof.
  intros g n0 Hd. split; [|split].
  - intros v v' s H. unfold value, mean4. cbv zeta.
    assert (X : forall q p, (p = 0 \/ p = 1) -> (q = 0 \/ q = 1) -> around_ v 0 (s 2%nat) (2 * (s 1%nat - n0) + n0) (2 * (s 0%nat - n0) + n0) q p = around_ v' 0 (s 2%nat) (2 * (s 1%nat - n0) + n0) (2 * (s 0%nat - n0) + n0) q p).
    { intros q p Hp Hq. unfold around_. apply (H (fun d => match d with 0%nat => 2 * (s 0%nat - n0) + n0 + p | 1%nat => 2 * (s 1%nat - n0) + n0 + q | _ => s 2%nat end)). intros [|[|[|d]]] Hdd; unfold coarse_cell; rewrite Hd; cbn [Nat.ltb Nat.leb ng]; [| |reflexivity|lia].
      - replace (2 * (s 0%nat - n0) + n0 + p - n0) with (p + (s 0%nat - n0) * 2) by ring. rewrite Z.div_add, Z.div_small by lia. lia.
      - replace (2 * (s 1%nat - n0) + n0 + q - n0) with (q + (s 1%nat - n0) * 2) by ring. rewrite Z.div_add, Z.div_small by lia. lia. }
    rewrite !X by tauto. reflexivity.
  - intros v v' x H. unfold value, slopes4. cbv zeta.
    assert (X : forall j i, (j = 0 /\ (i = 0 \/ i = -1 \/ i = 1)) \/ (i = 0 /\ (j = -1 \/ j = 1)) -> around_ v 0 (x 2%nat) (n0 + (x 1%nat - n0) / 2) (n0 + (x 0%nat - n0) / 2) j i = around_ v' 0 (x 2%nat) (n0 + (x 1%nat - n0) / 2) (n0 + (x 0%nat - n0) / 2) j i).
    { intros j i Hij. unfold around_. apply (H (fun d => match d with 0%nat => n0 + (x 0%nat - n0) / 2 + i | 1%nat => n0 + (x 1%nat - n0) / 2 + j | _ => x 2%nat end)). destruct Hij as [[-> Hi]|[-> Hj]].
      - exists 0%nat. rewrite Hd. split; [lia|]. unfold coarse_cell. rewrite Hd. cbn [Nat.ltb Nat.leb ng]. split; [lia|]. intros [|[|[|d]]] H1 H2; cbn [Nat.ltb Nat.leb ng]; lia.
      - exists 1%nat. rewrite Hd. split; [lia|]. unfold coarse_cell. rewrite Hd. cbn [Nat.ltb Nat.leb ng]. split; [lia|]. intros [|[|[|d]]] H1 H2; cbn [Nat.ltb Nat.leb ng]; lia. }
    rewrite !X by tauto. reflexivity.
  - intros d hi v v' s H. unfold value, outflow. cbv zeta. destruct d as [|[|d]]; [| |reflexivity].
    + apply (H (fun d => match d with 0%nat => if hi then n0 + 3 else n0 | d => s d end)). split; [unfold first, size; rewrite Hd; cbn [Nat.ltb Nat.leb ng cells_in bn1]; change (8 / 2) with 4; destruct hi; lia|]. intros [|d'] H1 H2; [contradiction H2; reflexivity|reflexivity].
    + apply (H (fun d => match d with 1%nat => if hi then n0 + 3 else n0 | d => s d end)). split; [unfold first, size; rewrite Hd; cbn [Nat.ltb Nat.leb ng cells_in bn2]; change (8 / 2) with 4; destruct hi; lia|]. intros [|[|d']] H1 H2; [reflexivity|contradiction H2; reflexivity|reflexivity].
Qed.
(** The primitive value the code leaves at ghost cell x of block [a], for the neighbours in the order of the list. *)
Definition same_value (k j i : Z) (v : Z) : Z := v.
Definition prolonged (g : grid) (t : tree) (B : bsz) (V : loc -> arr4 (A := Z)) (a : loc) (st : state (A := Z) (P := Z)) (x : cell) : option Z :=
  match SearchAndSetNeighbors g true t a with Some ns => match GhostZones same_value same_value (slopes4 (ng B)) (outflow (ng B)) g true t B V (fun _ => mean4 (ng B)) a ns st with Some st' => Some (value (prim st') 0 x) | None => None end | None => None end.
(** The mesh of C27, and one with physical boundaries all around: block (3; 1, 0) at the lower wall has a coarser block on its right, and a neighbour of its level above. *)
Definition wall_grid : grid := mkG 2 1 (fun d => match d with 0%nat | 1%nat => 2 | _ => 1 end) (fun _ _ => BOther).
Definition wall_tree : tree := match AddMeshBlock wall_grid (CreateRootGrid wall_grid, 0%nat) ex_req with Some (t, _) => renumbered t | None => Null end.
Definition wall_block := mkLoc 3 1 0 0.
Example ex_wall_grid : valid_grid wall_grid /\ no_pole wall_grid /\ no_shear wall_grid /\ plain wall_grid /\ plain ex_grid /\ fitting wall_grid ex_B true /\ history wall_grid wall_tree /\ In wall_block (blocks wall_tree).
Proof.
  split; [split; [cbn; lia|]; split; [intros [|[|[|d]]] Hd; cbn; lia|]; split; [intros [|[|[|d]]] Hd; cbn in *; try lia; reflexivity|]; intros [|[|[|d]]] Hd; cbn; split; discriminate|]. split; [split; discriminate|]. split; [split; discriminate|]. split; [intros d hi _; right; reflexivity|]. split; [intros [|[|d]] hi Hd; [left; reflexivity|left; reflexivity|cbn in Hd; lia]|].
  split; [exact (proj1 ex_fitting)|]. split; [|vm_compute; tauto]. unfold wall_tree. destruct (AddMeshBlock wall_grid (CreateRootGrid wall_grid, 0%nat) ex_req) as [[t n]|] eqn:E; [|vm_compute in E; discriminate E].
  apply h_number. apply (h_add wall_grid (CreateRootGrid wall_grid) ex_req 0 t n); [apply h_root| |exact E]. intros [|[|[|d]]] Hd; cbn; repeat split; lia.
Qed.
(** Its ghost cell (11, 2) lies in the coarser block, at coarse cell (6, 2) of the buffer and cell (2, 2) of that block; the slopes there need coarse cell (6, 1), beyond the wall. *)
Example ex_wall_cell : near ex_B 2 false 2 (c2 11 2) /\ in_coarser wall_grid ex_B (blocks wall_tree) wall_block (coarse_cell wall_grid ex_B (c2 11 2)) (mkLoc 2 1 0 0) (c2 2 2) /\
  stencil wall_grid (coarse_cell wall_grid ex_B (c2 11 2)) (c2 6 1) /\ at_wall wall_grid wall_block 1 false /\ side ex_B 2 true (c2 6 1) 1 = -1.
Proof.
  split; [intros [|[|[|d]]] Hd; cbn; lia|]. split; [split; [vm_compute; tauto|]; split; [reflexivity|]; split; [intros [|[|[|d]]] Hd; cbn; lia|]; intros [|[|[|d]]] Hd; [exists 0|exists 0|exists 0|lia]; (split; [left; reflexivity|reflexivity])|].
  split; [|split; [split; [cbn; lia|split; reflexivity]|reflexivity]]. exists 1%nat. split; [cbn; lia|]. split; [right; left; reflexivity|]. intros [|[|[|d]]] H1 H2; try lia; reflexivity.
Qed.
(** Blocks with values that grow to the right and upwards, in units of the cells of level 3; block and buffer start with rubbish outside. *)
Definition ramp (b : loc) : arr4 (A := Z) := fun n k j i => let u := 2 ^ (3 - Z.of_nat (level b)) in 100 * u * ((lx1 b * 8) + i - 2) + 50 * u + 10 * (u * ((lx2 b * 8) + j - 2)) + 5 * u.
Definition ramp_block (rubbish : Z) (a : loc) : state (A := Z) (P := Z) :=
  mkSt (fun n k j i => if Z.leb 2 i && Z.leb i 9 && (Z.leb 2 j && Z.leb j 9) then ramp a n k j i else rubbish) (fun _ _ _ _ => rubbish) (fun _ _ _ _ => rubbish) (fun _ _ _ _ => rubbish).
(** The ramp is continued: ghost cell (11, 4) of block (3; 1, 0) gets four times its value there; at the wall the slope across vanishes. *)
Example ex_prolonged : prolonged wall_grid wall_tree ex_B ramp wall_block (ramp_block (-777) wall_block) (c2 11 4) = Some (4 * ramp wall_block 0 0 4 11) /\
  prolonged wall_grid wall_tree ex_B ramp wall_block (ramp_block (-777) wall_block) (c2 11 2) = Some (4 * (ramp wall_block 0 0 2 11 + 5)).
Proof. split; vm_compute; reflexivity. Qed.

(** C71 does not hold with four ghost cells, the number that refined meshes need for piecewise parabolic reconstruction: the ghost zone is then two coarse cells deep, but only the first coarse layer of neighbours of the
    same level is restricted (RestrictGhostCellsOnSameLevel).  Block (3; 1, 0) of the periodic mesh: the slopes at coarse cell (8, 9), in the coarser block on the right, need coarse cell (7, 9) in the block above, and find
    whatever the coarse buffer held before. *)
Definition wide_B := mkB 4 8 8 1.
Definition wide_state (rubbish : Z) : state (A := Z) (P := Z) := mkSt (fun _ _ _ _ => 1) (fun _ _ _ _ => 1) (fun _ _ _ _ => rubbish) (fun _ _ _ _ => 1).
Definition rows_up (b : loc) : arr4 (A := Z) := fun n k j i => 10 * i.
Theorem C71_four_ghost_cells_refuted : exists g t a B, valid_grid g /\ no_pole g /\ no_shear g /\ plain g /\ history g t /\ declared g true (blocks t) /\ In a (blocks t) /\ fitting g B true /\ ng B = 4 /\ block_size_ok (gdim g) true 3 B = true /\
  exists (V : loc -> arr4 (A := Z)) (R : arr4 -> arr4) (Pr bc : _), local_restriction g B R /\ local_prolongation g B Pr /\ local_boundary g B bc /\
  exists ns st1 st2 st1' st2' x b y, SearchAndSetNeighbors g true t a = Some ns /\ cons st1 = cons st2 /\ prim st1 = prim st2 /\ cprim st1 = cprim st2 /\
  GhostZones same_value same_value Pr bc g true t B V (fun _ => R) a ns st1 = Some st1' /\ GhostZones same_value same_value Pr bc g true t B V (fun _ => R) a ns st2 = Some st2' /\
  near B (gdim g) false (ng B) x /\ in_coarser g B (blocks t) a (coarse_cell g B x) b y /\ (forall d hi, ~ at_wall g a d hi) /\ value (prim st1') 0 x <> value (prim st2') 0 x.
Proof.
  exists ex_grid, ex_tree, wall_block, wide_B. destruct ex_grid_ok as (V & NP & NS). split; [exact V|]. split; [exact NP|]. split; [exact NS|]. split; [intros [|[|d]] hi Hd; [left; reflexivity|left; reflexivity|cbn in Hd; lia]|]. split; [exact (proj1 ex_history)|]. split; [intros X; discriminate X|]. split; [vm_compute; tauto|].
  split. { split; [cbn; lia|]. split; [|intros _; split; [reflexivity|]; intros [|[|d]] Hd; [split; [reflexivity|cbn; lia]|split; [reflexivity|cbn; lia]|cbn in Hd; lia]]. intros [|[|[|d]]] Hd; cbn; lia. }
  split; [reflexivity|]. split; [reflexivity|]. exists rows_up, (mean4 4), (slopes4 4), (outflow 4). destruct (ex_local ex_grid 4 eq_refl) as (L1 & L2 & L3). split; [exact L1|]. split; [exact L2|]. split; [exact L3|].
  assert (X1 : exists ns st', SearchAndSetNeighbors ex_grid true ex_tree wall_block = Some ns /\ GhostZones same_value same_value (slopes4 4) (outflow 4) ex_grid true ex_tree wide_B rows_up (fun _ => mean4 4) wall_block ns (wide_state 0) = Some st' /\ value (prim st') 0 (c2 13 14) = 170).
  { assert (X : prolonged ex_grid ex_tree wide_B rows_up wall_block (wide_state 0) (c2 13 14) = Some 170) by (vm_compute; reflexivity). unfold prolonged in X. destruct (SearchAndSetNeighbors ex_grid true ex_tree wall_block) as [ns|]; [|discriminate X]. change (ng wide_B) with 4 in X.
    destruct (GhostZones same_value same_value (slopes4 4) (outflow 4) ex_grid true ex_tree wide_B rows_up (fun _ => mean4 4) wall_block ns (wide_state 0)) as [st'|] eqn:E; [|discriminate X]. exists ns, st'. split; [reflexivity|]. split; [exact E|]. injection X as X. exact X. }
  assert (X2 : exists ns st', SearchAndSetNeighbors ex_grid true ex_tree wall_block = Some ns /\ GhostZones same_value same_value (slopes4 4) (outflow 4) ex_grid true ex_tree wide_B rows_up (fun _ => mean4 4) wall_block ns (wide_state 1000) = Some st' /\ value (prim st') 0 (c2 13 14) = 160).
  { assert (X : prolonged ex_grid ex_tree wide_B rows_up wall_block (wide_state 1000) (c2 13 14) = Some 160) by (vm_compute; reflexivity). unfold prolonged in X. destruct (SearchAndSetNeighbors ex_grid true ex_tree wall_block) as [ns|]; [|discriminate X]. change (ng wide_B) with 4 in X.
    destruct (GhostZones same_value same_value (slopes4 4) (outflow 4) ex_grid true ex_tree wide_B rows_up (fun _ => mean4 4) wall_block ns (wide_state 1000)) as [st'|] eqn:E; [|discriminate X]. exists ns, st'. split; [reflexivity|]. split; [exact E|]. injection X as X. exact X. }
  destruct X1 as (ns & s1 & N1 & G1 & V1). destruct X2 as (ns' & s2 & N2 & G2 & V2). assert (ns' = ns) by congruence. subst ns'. exists ns, (wide_state 0), (wide_state 1000), s1, s2, (c2 13 14), (mkLoc 2 1 0 0), (c2 4 9).
  split; [exact N1|]. split; [reflexivity|]. split; [reflexivity|]. split; [reflexivity|]. split; [exact G1|]. split; [exact G2|]. split; [intros [|[|[|d]]] Hd; cbn; lia|].
  split; [split; [vm_compute; tauto|]; split; [reflexivity|]; split; [intros [|[|[|d]]] Hd; cbn; lia|]; intros [|[|[|d]]] Hd; [exists 0|exists 0|exists 0|lia]; (split; [left; reflexivity|reflexivity])|].
  split; [|rewrite V1, V2; discriminate]. intros d hi (Hd & Hb & _). destruct d as [|[|d]]; [discriminate Hb|discriminate Hb|cbn in Hd; lia].
Qed.
Print Assumptions C71_four_ghost_cells_refuted.
