(** Small specification for C51, C68, C69, C70: the discrete Poisson problem on a grid with one layer of ghost cells. *)
From Coq Require Import Reals ZArith List Bool Permutation.
From Verif Require Import Fv_Model Fv_Spec Mg_Model.
Import ListNotations.
Local Open Scope R_scope.

(** The cells of a grid (1..n in each direction) and those of the array with its ghost layer. *)
Definition cell (g : grid) (k j i : Z) : Prop := (1 <= k <= gz g /\ 1 <= j <= gy g /\ 1 <= i <= gx g)%Z.
Definition in_array (g : grid) (k j i : Z) : Prop := (0 <= k <= gz g + 1 /\ 0 <= j <= gy g + 1 /\ 0 <= i <= gx g + 1)%Z.
Definition good_grid (g : grid) : Prop := (1 <= gx g /\ 1 <= gy g /\ 1 <= gz g)%Z /\ 0 < dx g.
(** [f] has twice as many cells as [c] in each direction, of half the size. *)
Definition doubled (c f : grid) : Prop := (gx f = 2 * gx c /\ gy f = 2 * gy c /\ gz f = 2 * gz c)%Z /\ dx c = 2 * dx f.
(** The seven-point Laplacian. *)
Definition laplacian (g : grid) (u : arr) (k j i : Z) : R :=
  (u k j (i + 1)%Z - 2 * u k j i + u k j (i - 1)%Z) / (dx g)² + (u k (j + 1)%Z i - 2 * u k j i + u k (j - 1)%Z i) / (dx g)² + (u (k + 1)%Z j i - 2 * u k j i + u (k - 1)%Z j i) / (dx g)².
(** The boundary conditions relate each ghost cell behind a face to active cells. *)
Definition wall (b : mgbc) (ghost_ near far : R) (a c : Z) : Prop :=
  match b with
  | Periodic => ghost_ = far
  | ZeroFixed => (ghost_ + near) / 2 = 0
  | ZeroGrad => ghost_ - near = 0
  | Fixed phi => (ghost_ + near) / 2 = phi a c
  end.
Definition meets (g : grid) (b : bcset) (u : arr) : Prop :=
  (forall k j, (1 <= k <= gz g)%Z -> (1 <= j <= gy g)%Z ->
     wall (ix1 b) (u k j 0%Z) (u k j 1%Z) (u k j (gx g)) k j /\ wall (ox1 b) (u k j (gx g + 1)%Z) (u k j (gx g)) (u k j 1%Z) k j) /\
  (forall k i, (1 <= k <= gz g)%Z -> (1 <= i <= gx g)%Z ->
     wall (ix2 b) (u k 0%Z i) (u k 1%Z i) (u k (gy g) i) k i /\ wall (ox2 b) (u k (gy g + 1)%Z i) (u k (gy g) i) (u k 1%Z i) k i) /\
  (forall j i, (1 <= j <= gy g)%Z -> (1 <= i <= gx g)%Z ->
     wall (ix3 b) (u 0%Z j i) (u 1%Z j i) (u (gz g) j i) j i /\ wall (ox3 b) (u (gz g + 1)%Z j i) (u (gz g) j i) (u 1%Z j i) j i).
(** [u] solves the discrete problem with source [src]: with suitable ghost values it satisfies the boundary conditions and the equation in every cell. *)
Definition poisson (g : grid) (src u : arr) : Prop := forall k j i, cell g k j i -> laplacian g u k j i = src k j i.
Definition solution (g : grid) (b : bcset) (src u : arr) : Prop :=
  exists v, (forall k j i, cell g k j i -> v k j i = u k j i) /\ meets g b v /\ poisson g src v.
(** All boundaries periodic or with zero gradient; periodic ones in pairs. *)
Definition all_neutral (b : bcset) : Prop := forall x, In x [ix1 b; ox1 b; ix2 b; ox2 b; ix3 b; ox3 b] -> x = Periodic \/ x = ZeroGrad.
Definition paired (b : bcset) : Prop := (ix1 b = Periodic <-> ox1 b = Periodic) /\ (ix2 b = Periodic <-> ox2 b = Periodic) /\ (ix3 b = Periodic <-> ox3 b = Periodic).
(** Homogeneous: no prescribed potential. *)
Definition homogeneous (b : bcset) : Prop := forall x, In x [ix1 b; ox1 b; ix2 b; ox2 b; ix3 b; ox3 b] -> x = Periodic \/ x = ZeroGrad \/ x = ZeroFixed.
(** Sum over the cells. *)
Definition gsum (g : grid) (f : arr) : R := sum (map (fun k => sum (map (fun j => sum (map (fun i => f k j i) (upto 1 (gx g)))) (upto 1 (gy g)))) (upto 1 (gz g))).
Definition integral_ (g : grid) (f : arr) : R := gsum g f * (dx g) ^ 3.
(** Position of the centre of cell [i] of a row that starts at [x0]. *)
Definition centre (x0 h : R) (i : Z) : R := x0 + (IZR i - / 2) * h.
(** Polynomials of degree at most one (two) in each variable. *)
Definition affine_each (p : R -> R -> R -> R) : Prop :=
  (forall y z, exists a b, forall x, p x y z = a + b * x) /\ (forall x z, exists a b, forall y, p x y z = a + b * y) /\ (forall x y, exists a b, forall z, p x y z = a + b * z).
Definition quadratic_each (p : R -> R -> R -> R) : Prop :=
  (forall y z, exists a b c, forall x, p x y z = a + b * x + c * x²) /\ (forall x z, exists a b c, forall y, p x y z = a + b * y + c * y²) /\ (forall x y, exists a b c, forall z, p x y z = a + b * z + c * z²).
(** A driver whose levels are nested: the finest grid can be halved that often; all levels have the same kind of boundaries. *)
Definition good_driver (d : driver) : Prop :=
  (1 <= nroot d <= ntotal d)%nat /\ (fmg d < ntotal d)%nat /\ good_grid (top d) /\
  (2 ^ Z.of_nat (ntotal d - 1) | gx (top d))%Z /\ (2 ^ Z.of_nat (ntotal d - 1) | gy (top d))%Z /\ (2 ^ Z.of_nat (ntotal d - 1) | gz (top d))%Z.
