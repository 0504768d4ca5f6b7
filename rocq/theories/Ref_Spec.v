(** Small specification for C37, C38, C39. *)
From Coq Require Import Reals ZArith List Bool.
From Verif Require Import Fv_Model Fv_Spec Ref_Model.
Import ListNotations.
Local Open Scope R_scope.

Definition pt := (Z * Z * Z)%type.
(** The fine indices on coarse index [x] in a direction of [n] cells with first active indices s (fine) and cs (coarse): two, or the only one when the direction is missing. *)
Definition two (s cs x : Z) : list Z := [(s + 2 * (x - cs))%Z; (s + 2 * (x - cs) + 1)%Z].
Definition duo (n s cs x : Z) : list Z := if Z.ltb 1 n then two s cs x else [s].
Definition combine3 (K J I : list Z) : list pt := flat_map (fun k => flat_map (fun j => map (fun i => (k, j, i)) I) J) K.
(** The fine cells in a coarse cell, the fine faces on a coarse face. *)
Definition cells (d : dims) (c : coff) (q : pt) : list pt := let '(k, j, i) := q in combine3 (duo (nx3 d) (ks d) (cks c) k) (duo (nx2 d) (js d) (cjs c) j) (two (is_ d) (cis c) i).
Definition faces1 (d : dims) (c : coff) (q : pt) : list pt := let '(k, j, i) := q in combine3 (duo (nx3 d) (ks d) (cks c) k) (duo (nx2 d) (js d) (cjs c) j) [(is_ d + 2 * (i - cis c))%Z].
Definition faces2 (d : dims) (c : coff) (q : pt) : list pt := let '(k, j, i) := q in combine3 (duo (nx3 d) (ks d) (cks c) k) [(js d + 2 * (j - cjs c))%Z] (two (is_ d) (cis c) i).
Definition faces3 (d : dims) (c : coff) (q : pt) : list pt := let '(k, j, i) := q in combine3 [(ks d + 2 * (k - cks c))%Z] (duo (nx2 d) (js d) (cjs c) j) (two (is_ d) (cis c) i).
(** Index conventions: a missing direction has index 0; no third direction without a second. *)
Definition layout (d : dims) (c : coff) : Prop := (js d <= je d)%Z /\ (ks d <= ke d)%Z /\ (nx2 d = 1%Z -> nx3 d = 1%Z /\ js d = 0%Z /\ cjs c = 0%Z) /\ (nx3 d = 1%Z -> ks d = 0%Z /\ cks c = 0%Z).
(** The coarse range an operation is asked to work on; a missing direction has the single index of the coarse buffer. *)
Definition in_box (d : dims) (c : coff) (b : box) (q : pt) : Prop :=
  let '(k, j, i) := q in (si b <= i <= ei b)%Z /\ (if Z.ltb 1 (nx2 d) then sj b <= j <= ej b else j = cjs c)%Z /\ (if Z.ltb 1 (nx3 d) then sk b <= k <= ek b else k = cks c)%Z.
Definition box_ok (d : dims) (c : coff) (b : box) : Prop := (nx2 d = 1%Z -> sj b = cjs c) /\ (nx3 d = 1%Z -> sk b = cks c).

(** ** Restriction: x is the average of u over l with weights w: same total, and within the range of the values. *)
Definition average_of (w u : arr) (l : list pt) (x : R) : Prop :=
  x * sum (map (at_ w) l) = sum (map (fun p => at_ w p * at_ u p) l) /\ forall lo hi, (forall p, In p l -> lo <= at_ u p <= hi) -> lo <= x <= hi.
Definition positive (w : arr) (l : list pt) : Prop := forall p, In p l -> 0 < at_ w p.

(** ** Prolongation *)
Definition spaced (xc : pos) (q : pt) : Prop := let '(k, j, i) := q in
  (p1 xc (i - 1)%Z < p1 xc i < p1 xc (i + 1)%Z) /\ (p2 xc (j - 1)%Z < p2 xc j < p2 xc (j + 1)%Z) /\ (p3 xc (k - 1)%Z < p3 xc k < p3 xc (k + 1)%Z).
(** Each fine centre lies on its own side of the coarse centre and at most a third of the way to the next coarse centre. *)
Definition third (x f : Z -> R) (s cs a : Z) : Prop := let m := (s + 2 * (a - cs))%Z in
  (0 <= x a - f m /\ 3 * (x a - f m) <= x a - x (a - 1)%Z) /\ (0 <= f (m + 1)%Z - x a /\ 3 * (f (m + 1)%Z - x a) <= x (a + 1)%Z - x a).
Definition nested (d : dims) (c : coff) (xc xf : pos) (q : pt) : Prop := let '(k, j, i) := q in
  third (p1 xc) (p1 xf) (is_ d) (cis c) i /\ third (p2 xc) (p2 xf) (js d) (cjs c) j /\ third (p3 xc) (p3 xf) (ks d) (cks c) k.
(** The coarse centre is the mean of the two fine centres with the weights of the fine cells. *)
Definition centroid (w x f : Z -> R) (s cs a : Z) : Prop := let m := (s + 2 * (a - cs))%Z in (w m + w (m + 1)%Z) * x a = w m * f m + w (m + 1)%Z * f (m + 1)%Z.
(** Volumes and areas that are products of a factor for each direction (as they are in Cartesian, cylindrical and spherical polar coordinates). *)
Definition sep (v : arr) (w1 w2 w3 : Z -> R) : Prop := forall k j i, v k j i = w3 k * w2 j * w1 i.
(** Evenly spaced coarse centres with fine centres halfway between them and the cell faces. *)
Definition even_grid (x f : Z -> R) (s cs : Z) : Prop := exists x0 h, 0 < h /\ (forall a, x a = x0 + IZR a * h) /\ (forall a, f (s + 2 * (a - cs))%Z = x a - h / 4 /\ f (s + 2 * (a - cs) + 1)%Z = x a + h / 4).
Definition uniform_grid (d : dims) (c : coff) (xc xf : pos) : Prop := even_grid (p1 xc) (p1 xf) (is_ d) (cis c) /\ even_grid (p2 xc) (p2 xf) (js d) (cjs c) /\ even_grid (p3 xc) (p3 xf) (ks d) (cks c).
(** The coarse cell and, in the directions the block has, its neighbours on the side of fine cell p. *)
Definition towards (p c s cs : Z) : Z := if Z.eqb p (s + 2 * (c - cs)) then (c - 1)%Z else (c + 1)%Z.
Definition nearby (d : dims) (c : coff) (q p : pt) : list pt :=
  let '(k, j, i) := q in let '(fk, fj, fi) := p in
  [(k, j, i); (k, j, towards fi i (is_ d) (cis c))] ++ (if Z.ltb 1 (nx2 d) then [(k, towards fj j (js d) (cjs c), i)] else []) ++ (if Z.ltb 1 (nx3 d) then [(towards fk k (ks d) (cks c), j, i)] else []).

(** ** Face fields *)
Definition through (a b : arr) (l : list pt) : R := sum (map (fun p => at_ a p * at_ b p) l).
(** Flux out of a coarse cell through the fine faces on its sides. *)
Definition out_of (d : dims) (c : coff) (g : geom) (b : vec) (q : pt) : R := let '(k, j, i) := q in
  (through (A1 g) (x1 b) (faces1 d c (k, j, (i + 1)%Z)) - through (A1 g) (x1 b) (faces1 d c q))
  + (if Z.ltb 1 (nx2 d) then through (A2 g) (x2 b) (faces2 d c (k, (j + 1)%Z, i)) - through (A2 g) (x2 b) (faces2 d c q) else 0)
  + (if Z.ltb 1 (nx3 d) then through (A3 g) (x3 b) (faces3 d c ((k + 1)%Z, j, i)) - through (A3 g) (x3 b) (faces3 d c q) else 0).
(** Flux out of a coarse cell from the coarse field. *)
Definition coarse_out (d : dims) (g : geom) (b : vec) (q : pt) : R := let '(k, j, i) := q in
  (A1 g k j (i + 1)%Z * x1 b k j (i + 1)%Z - A1 g k j i * x1 b k j i)
  + (if Z.ltb 1 (nx2 d) then A2 g k (j + 1)%Z i * x2 b k (j + 1)%Z i - A2 g k j i * x2 b k j i else 0)
  + (if Z.ltb 1 (nx3 d) then A3 g (k + 1)%Z j i * x3 b (k + 1)%Z j i - A3 g k j i * x3 b k j i else 0).
(** The two faces across a missing direction carry the same flux. *)
Definition flat (d : dims) (g : geom) (b : vec) (p : pt) : Prop := let '(k, j, i) := p in
  (nx2 d = 1%Z -> A2 g k (j + 1)%Z i * x2 b k (j + 1)%Z i = A2 g k j i * x2 b k j i) /\ (nx3 d = 1%Z -> A3 g (k + 1)%Z j i * x3 b (k + 1)%Z j i = A3 g k j i * x3 b k j i).
(** All faces inside the coarse cell have an area (the faces next to the middle). *)
Definition inner_areas (d : dims) (c : coff) (g : geom) (q : pt) : Prop := forall k j i, In (k, j, i) (cells d c q) ->
  A1 g k j (is_ d + 2 * (snd q - cis c) + 1)%Z <> 0 /\ ((1 < nx2 d)%Z -> A2 g k (js d + 2 * (snd (fst q) - cjs c) + 1)%Z i <> 0) /\ ((1 < nx3 d)%Z -> A3 g (ks d + 2 * (fst (fst q) - cks c) + 1)%Z j i <> 0).
Definition widths (S1 S2 S3 : arr) : Prop := forall k j i, 0 < S1 k j i /\ 0 < S2 k j i /\ 0 < S3 k j i.
(** A coarse face has the area of the fine faces on it. *)
Definition same_area (a ac : arr) (l : list pt) (q : pt) : Prop := sum (map (at_ a) l) = at_ ac q.
(** When the prolongation of shared faces conserves their flux: with the area-weighted form, a coarse face with an area; with the other form, areas that are products, and coarse face centres that are the means of the fine ones. *)
Definition area_weighted (fluxinterp : bool) (d : dims) : bool := fluxinterp && Z.ltb 1 (nx3 d).
Definition ok1 (fl : bool) (d : dims) (c : coff) (xc xf : pos) (af ac : arr) (q : pt) : Prop :=
  if area_weighted fl d then at_ ac q <> 0 else exists w1 w2 w3, sep af w1 w2 w3 /\ ((1 < nx2 d)%Z -> centroid w2 (p2 xc) (p2 xf) (js d) (cjs c) (snd (fst q))) /\ ((1 < nx3 d)%Z -> centroid w3 (p3 xc) (p3 xf) (ks d) (cks c) (fst (fst q))).
Definition ok2 (tiny : R) (fl : bool) (d : dims) (c : coff) (xc xf : pos) (af ac : arr) (q : pt) : Prop :=
  if area_weighted fl d then at_ ac q + tiny <> 0 else exists w1 w2 w3, sep af w1 w2 w3 /\ centroid w1 (p1 xc) (p1 xf) (is_ d) (cis c) (snd q) /\ ((1 < nx3 d)%Z -> centroid w3 (p3 xc) (p3 xf) (ks d) (cks c) (fst (fst q))).
Definition ok3 (fl : bool) (d : dims) (c : coff) (xc xf : pos) (af ac : arr) (q : pt) : Prop :=
  if area_weighted fl d then at_ ac q <> 0 else exists w1 w2 w3, sep af w1 w2 w3 /\ centroid w1 (p1 xc) (p1 xf) (is_ d) (cis c) (snd q) /\ ((1 < nx2 d)%Z -> centroid w2 (p2 xc) (p2 xf) (js d) (cjs c) (snd (fst q))).
(** Each coarse face f is either prolonged, under the conditions above, or its fine faces already carry its flux. *)
Definition carried1 (fl : bool) (d : dims) (c : coff) (g gc : geom) (xc xf : pos) (il iu : Z) (u v : vec) (f : pt) : Prop :=
  ((il <= snd f <= iu)%Z /\ ok1 fl d c xc xf (A1 g) (A1 gc) f /\ same_area (A1 g) (A1 gc) (faces1 d c f) f) \/ (~ (il <= snd f <= iu)%Z /\ through (A1 g) (x1 v) (faces1 d c f) = at_ (A1 gc) f * at_ (x1 u) f).
Definition carried2 (tiny : R) (fl : bool) (d : dims) (c : coff) (g gc : geom) (xc xf : pos) (jl ju : Z) (u v : vec) (f : pt) : Prop :=
  ((jl <= snd (fst f) <= ju)%Z /\ ok2 tiny fl d c xc xf (A2 g) (A2 gc) f /\ same_area (A2 g) (A2 gc) (faces2 d c f) f) \/ (~ (jl <= snd (fst f) <= ju)%Z /\ through (A2 g) (x2 v) (faces2 d c f) = at_ (A2 gc) f * at_ (x2 u) f).
Definition carried3 (fl : bool) (d : dims) (c : coff) (g gc : geom) (xc xf : pos) (kl ku : Z) (u v : vec) (f : pt) : Prop :=
  ((kl <= fst (fst f) <= ku)%Z /\ ok3 fl d c xc xf (A3 g) (A3 gc) f /\ same_area (A3 g) (A3 gc) (faces3 d c f) f) \/ (~ (kl <= fst (fst f) <= ku)%Z /\ through (A3 g) (x3 v) (faces3 d c f) = at_ (A3 gc) f * at_ (x3 u) f).
(** Faces across a missing direction have the same area. *)
Definition flat_areas (d : dims) (g : geom) : Prop := (nx2 d = 1%Z -> forall k i, A2 g k (js d + 1)%Z i = A2 g k (js d) i) /\ (nx3 d = 1%Z -> forall j i, A3 g (ks d + 1)%Z j i = A3 g (ks d) j i).
(** Cartesian cells of size h1, h2, h3 and coarse cells twice as wide in the directions the block has. *)
Definition cartesian (d : dims) (g gc : geom) : Prop := exists h1 h2 h3, 0 < h1 /\ 0 < h2 /\ 0 < h3 /\
  let H1 := 2 * h1 in let H2 := if Z.ltb 1 (nx2 d) then 2 * h2 else h2 in let H3 := if Z.ltb 1 (nx3 d) then 2 * h3 else h3 in
  forall k j i, A1 g k j i = h2 * h3 /\ A2 g k j i = h1 * h3 /\ A3 g k j i = h1 * h2 /\ V g k j i = h1 * h2 * h3 /\ A1 gc k j i = H2 * H3 /\ A2 gc k j i = H1 * H3 /\ A3 gc k j i = H1 * H2 /\ V gc k j i = H1 * H2 * H3.
