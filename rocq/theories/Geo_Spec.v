(** Vocabulary for the statements about positions. *)
From Coq Require Import Reals ZArith List Bool.
From Verif Require Import Geo_Model.
Local Open Scope R_scope.

(** The rounding leaves integers up to [B] alone (2^53 for double, 2^24 for float). *)
Definition exact_integers (rnd : R -> R) (B : Z) : Prop := forall z, (Z.abs z <= B)%Z -> rnd (IZR z) = IZR z.
(** A mesh direction divided into root blocks of [bnx] cells. *)
Definition divided (a : axis) (bnx : Z) : Prop := (1 <= anrb a)%Z /\ (1 <= bnx)%Z /\ anx a = (anrb a * bnx)%Z.
(** Number of blocks and of cells across the domain at a level. *)
Definition blocks_across (a : axis) (root_level ll : Z) : Z := (anrb a * 2 ^ (ll - root_level))%Z.
Definition cells_across (a : axis) (root_level ll : Z) : Z := (anx a * 2 ^ (ll - root_level))%Z.
Definition is_block (a : axis) (root_level ll lx : Z) : Prop := (root_level <= ll)%Z /\ (0 <= lx < blocks_across a root_level ll)%Z.
(** Exact arithmetic. *)
Definition exact (x : R) : R := x.
(** The generator maps the logical interval onto the domain: [0,1], or [-1/2,1/2] for the uniform one, increasing. *)
Definition lo (a : axis) : R := if uniform a then -1/2 else 0.
Definition hi (a : axis) : R := if uniform a then 1/2 else 1.
Definition onto (a : axis) : Prop := gen a (lo a) = amin a /\ gen a (hi a) = amax a.
Definition increasing (a : axis) : Prop := forall x y, lo a <= x -> x < y -> y <= hi a -> gen a x < gen a y.
(** Global number of the face [i] of a block, counted in cells of the block's level from the inner edge of the domain; a face of the coarse buffer is every second one. *)
Definition global (coarse : bool) (lx bnx il i : Z) : Z := (lx * bnx + (if coarse then 2 else 1) * (i - il))%Z.
(** Last cell of a block of bnx cells (bnx/2 in the coarse buffer) starting at il. *)
Definition last (coarse : bool) (bnx il : Z) : Z := (il + (if coarse then bnx / 2 else bnx) - 1)%Z.
(** A face of the block proper, or a ghost face strictly inside the domain. *)
Definition interior_face (a : axis) (root_level ll lx bnx : Z) (coarse : bool) (il i : Z) : Prop :=
  (il <= i <= last coarse bnx il + 1)%Z \/ (0 < global coarse lx bnx il i < cells_across a root_level ll)%Z.
(** What the set-up of the mesh guarantees: the uniform flag goes with the uniform generator. *)
Definition consistent (a : axis) : Prop := uniform a = true -> gen a = UniformMeshGenerator (amin a) (amax a).
