(** Runs on an adaptive mesh: what the time integrators and the adaptive steps do, over any number of steps, with one conserved variable [m]. *)
From Coq Require Import List Arith ZArith Bool Permutation Reals.
From Verif Require Import Loc LB_Spec AMR_Model AMR_Spec Tree_Model Tree_Spec Nbr_Model Buf_Model Fv_Model Gho_Model Gho_Spec Con_Model Con_Spec Reg_Model.
From Verif Require Ref_Model.
Import ListNotations.
Local Open Scope Z_scope.

(** A mesh, the registers (u, u1, ..) of its blocks, and which registers hold something: after an adaptive step only the first does. *)
Record run_state := mkRun { mesh : tree; regs : nat -> loc -> arr4 (A := R); live : nat -> bool }.
Definition flux_order (g : grid) (t : tree) (es : loc -> list nblock) : Prop := forall a, In a (blocks t) -> exists ns, SearchAndSetNeighbors g true t a = Some ns /\ Permutation (face_loop ns) (es a).
Definition weights_sum (w : weights) : R := (w0 w + w1 w + w2 w + w3 w + w4 w)%R.
Section Run.
Variables (g : grid) (B : bsz) (nl nu m : Z) (G : loc -> geom) (xc xf : loc -> Ref_Model.pos).
Inductive adaptive_step : run_state -> run_state -> Prop :=
(** Finite-volume update of register r with any fluxes that blocks of one level agree on, corrected by messages in any order. *)
| Run_update : forall t U U' L r F F' es w, L r = true -> fluxes_agree g B (blocks t) F -> flux_order g t es ->
    (forall a, In a (blocks t) -> ReceiveFlux g true t B G F a (es a) (F a) = Some (F' a)) ->
    (forall s a, In a (blocks t) -> U' s a m = if Nat.eqb s r then AddFluxDivergence (block_dims B) (G a) (F' a) w (U s a m) else U s a m) ->
    adaptive_step (mkRun t U L) (mkRun t U' L)
(** Averages of registers that hold something; copies. *)
| Run_average : forall t U U' L r i1 i2 i3 i4 w, weights_sum w = 1%R -> L r = true -> L i1 = true -> L i2 = true -> L i3 = true -> L i4 = true ->
    (forall s a, In a (blocks t) -> U' s a m = if Nat.eqb s r then WeightedAve_cc (block_dims B) w (U s a m) (U i1 a m) (U i2 a m) (U i3 a m) (U i4 a m) else U s a m) ->
    adaptive_step (mkRun t U L) (mkRun t U' L)
| Run_copy : forall t U U' L r i, L i = true -> (forall s a, In a (blocks t) -> U' s a m = if Nat.eqb s r then U i a m else U s a m) ->
    adaptive_step (mkRun t U L) (mkRun t U' (fun s => if Nat.eqb s r then true else L s))
(** Anything that touches ghost cells only: exchange, prolongation, physical boundary conditions. *)
| Run_ghosts : forall t U U' L, (forall s a x, In a (blocks t) -> own B (gdim g) false x -> value (U' s a) m x = value (U s a) m x) ->
    adaptive_step (mkRun t U L) (mkRun t U' L)
(** An adaptive step: any blocks ask for refinement or derefinement; any distribution of the old and the new blocks over any number of ranks. *)
| Run_regrid : forall t0 U U' L fref fderef t' nnew ndel nr a C fresh freshc, (forall l, fderef l = true -> groot g < level l)%nat -> L 0%nat = true ->
    let t := renumbered t0 in may_update g t (flagged fref t) (flagged fderef t) (Some (t', nnew, ndel)) ->
    a_dim a = gdim g -> oldloc a = blocks t -> newloc a = blocks t' -> map Z.of_nat (newtoold a) = old_ids t' ->
    good_partition nr (length (oldloc a)) (ranklist a) (oldtbl a) -> good_partition nr (length (newloc a)) (newrank a) (newtbl a) ->
    (forall n b, nth_error (blocks t') n = Some b -> U' 0%nat b = NewBlock B nl nu (fun l => V (G l)) xc xf a (fun o => U 0%nat (locs_at (blocks t) o)) C fresh freshc n) ->
    adaptive_step (mkRun t0 U L) (mkRun t' U' (fun s => Nat.eqb s 0)).
Inductive adaptive_run (st : run_state) : run_state -> Prop :=
| Run_start : adaptive_run st st
| Run_step : forall mid fin, adaptive_run st mid -> adaptive_step mid fin -> adaptive_run st fin.
End Run.
