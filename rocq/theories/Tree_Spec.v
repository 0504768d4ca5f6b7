(** What the mesh hierarchy has to satisfy, in terms of the list of blocks (logical locations). *)
From Coq Require Import List Arith ZArith Bool Permutation.
From Verif Require Import Loc AMR_Spec Tree_Model.
Import ListNotations.
Local Open Scope nat_scope.

Definition coord (d : nat) (l : loc) : Z := match d with 0 => lx1 l | 1 => lx2 l | _ => lx3 l end.

(** The mesh: 1, 2 or 3 dimensions, at least one root block in each direction, the root level deep enough
    (mesh.cpp 306), exactly one block in the missing directions, periodic faces in pairs (mesh.cpp 202-222). *)
Definition valid_grid (g : grid) : Prop :=
  1 <= gdim g <= 3 /\ (forall d, d < 3 -> (1 <= gnrb g d <= 2 ^ Z.of_nat (groot g))%Z) /\ (forall d, gdim g <= d -> gnrb g d = 1%Z) /\
  (forall d, d < gdim g -> (gbc g d false = BPeriodic <-> gbc g d true = BPeriodic)).
(** No polar face. *)
Definition no_pole (g : grid) : Prop := gbc g 1 false <> BPolar /\ gbc g 1 true <> BPolar.
(** No shearing boundary. *)
Definition no_shear (g : grid) : Prop := gbc g 0 false <> BShear /\ gbc g 0 true <> BShear.

(** A position of level [level x] inside the domain: the root grid has gnrb blocks of level groot in each direction. *)
Definition in_domain (g : grid) (x : loc) : Prop :=
  forall d, d < 3 -> (0 <= coord d x)%Z /\ (d < gdim g -> (coord d x * 2 ^ Z.of_nat (groot g) < gnrb g d * 2 ^ Z.of_nat (level x))%Z) /\
    (gdim g <= d -> coord d x = 0%Z).

(** The blocks, and the ids stored with them before they are renumbered. *)
Definition blocks (t : tree) : list loc := map fst (fst (GetMeshBlockList t)).
Definition old_ids (t : tree) : list Z := map snd (fst (GetMeshBlockList t)).
Definition renumbered (t : tree) : tree := snd (GetMeshBlockList t).

(** The blocks tile the domain. *)
Definition tiling (g : grid) (bs : list loc) : Prop :=
  NoDup bs /\
  (forall a, In a bs -> in_domain g a /\ groot g <= level a) /\
  (forall a b, In a bs -> In b bs -> overlap a b -> a = b) /\
  (forall x, in_domain g x -> (forall a, In a bs -> level a <= level x) -> exists a, In a bs /\ contains a x).

(** Two blocks touch (in a face, an edge or a corner, or overlap): their closed boxes meet, possibly after moving one by a
    period.  Lengths are measured in units of 2^-(level a + level b) of the size of the root of the tree. *)
Definition period_shift (g : grid) (d : nat) (w : Z) : Z -> Prop := fun s =>
  s = 0%Z \/ (gbc g d false = BPeriodic /\ gbc g d true = BPeriodic /\ (s = w \/ s = - w)%Z).
Definition touch (g : grid) (a b : loc) : Prop := forall d, d < gdim g -> exists s,
  period_shift g d (gnrb g d * 2 ^ Z.of_nat (level a + level b - groot g)) s /\
  (coord d a * 2 ^ Z.of_nat (level b) <= (coord d b + 1) * 2 ^ Z.of_nat (level a) + s)%Z /\
  (coord d b * 2 ^ Z.of_nat (level a) + s <= (coord d a + 1) * 2 ^ Z.of_nat (level b))%Z.
Definition balanced (g : grid) (bs : list loc) : Prop :=
  forall a b, In a bs -> In b bs -> touch g a b -> level a <= level b + 1 /\ level b <= level a + 1.

(** The position of the same size next to [l] in direction [o], after crossing periodic boundaries. *)
Definition neighbour_position (g : grid) (l : loc) (o : nat -> Z) (m : loc) : Prop :=
  level m = level l /\ in_domain g m /\
  forall d, d < gdim g -> exists s, period_shift g d (gnrb g d * 2 ^ Z.of_nat (level l - groot g)) s /\ coord d m = (coord d l + o d + s)%Z.

(** ** Histories.  The mesh constructor creates the root grid, requests blocks (static refinement), numbers the blocks; each
    adaptive step updates the tree for refinement flags on existing blocks and numbers the blocks again; a restart rebuilds the
    tree from the list of blocks.
    [fref] and [fderef] say which blocks asked to be refined or derefined; only blocks above the root level ask for the latter. *)
Definition flagged (f : loc -> bool) (t : tree) : list loc := filter f (blocks t).
(** The update of the tree, for whatever order the (unstable) sort leaves the derefinement groups in. *)
Definition may_update (g : grid) (t : tree) (lref lderef : list loc) (r : option (tree * nat * nat)) : Prop :=
  if Nat.eqb (length lref) 0 && Nat.ltb (length lderef) (nleaf (gdim g)) then r = Some (t, 0, 0)
  else exists cld, Permutation cld (if Nat.leb (nleaf (gdim g)) (length lderef) then groups g lderef else []) /\
    r = update_with g t lref cld.
Inductive history (g : grid) : tree -> Prop :=
| h_root : history g (CreateRootGrid g)
| h_add : forall t l n t' n', history g t -> in_domain g l -> AddMeshBlock g (t, n) l = Some (t', n') -> history g t'
| h_number : forall t, history g t -> history g (renumbered t)
| h_restart : forall t, history g t -> history g (restart_tree g (blocks t))
| h_update : forall t fref fderef t' nnew ndel, history g t ->
    (forall l, fderef l = true -> groot g < level l) ->
    may_update g t (flagged fref t) (flagged fderef t) (Some (t', nnew, ndel)) -> history g t'.
