(** Restriction and prolongation, src/mesh/mesh_refinement.cpp, exact arithmetic; one variable.  The loops write every entry at most once, so the result is given entry by entry.
    The overloads for radiation variables (184-260, 612-770) do the same with the variable index last. *)
From Coq Require Import Reals ZArith List Bool.
From Verif Require Import Fv_Model.
Import ListNotations.
Local Open Scope R_scope.

(** First active index of the coarse buffers (mesh.hpp 88). *)
Record coff := mkO { cis : Z; cjs : Z; cks : Z }.
Record box := mkBox { si : Z; ei : Z; sj : Z; ej : Z; sk : Z; ek : Z }.
Definition fI (d : dims) (c : coff) (ci : Z) : Z := ((ci - cis c) * 2 + is_ d)%Z.
Definition fJ (d : dims) (c : coff) (cj : Z) : Z := ((cj - cjs c) * 2 + js d)%Z.
Definition fK (d : dims) (c : coff) (ck : Z) : Z := ((ck - cks c) * 2 + ks d)%Z.

(** RestrictCellCenteredValues, 114-181; [v] the fine cell volumes. *)
Definition RestrictCC (d : dims) (c : coff) (v fine : arr) (b : box) (coarse : arr) : arr := fun ck cj ci =>
  let i := fI d c ci in
  if Z.ltb 1 (nx3 d) then
    if within (sk b) (ek b) ck && within (sj b) (ej b) cj && within (si b) (ei b) ci then
      let k := fK d c ck in let j := fJ d c cj in
      let tvol := ((v k j i + v k (j + 1)%Z i) + (v k j (i + 1)%Z + v k (j + 1)%Z (i + 1)%Z)) + ((v (k + 1)%Z j i + v (k + 1)%Z (j + 1)%Z i) + (v (k + 1)%Z j (i + 1)%Z + v (k + 1)%Z (j + 1)%Z (i + 1)%Z)) in
      (((fine k j i * v k j i + fine k (j + 1)%Z i * v k (j + 1)%Z i) + (fine k j (i + 1)%Z * v k j (i + 1)%Z + fine k (j + 1)%Z (i + 1)%Z * v k (j + 1)%Z (i + 1)%Z))
       + ((fine (k + 1)%Z j i * v (k + 1)%Z j i + fine (k + 1)%Z (j + 1)%Z i * v (k + 1)%Z (j + 1)%Z i) + (fine (k + 1)%Z j (i + 1)%Z * v (k + 1)%Z j (i + 1)%Z + fine (k + 1)%Z (j + 1)%Z (i + 1)%Z * v (k + 1)%Z (j + 1)%Z (i + 1)%Z))) / tvol
    else coarse ck cj ci
  else if Z.ltb 1 (nx2 d) then
    if Z.eqb ck 0 && within (sj b) (ej b) cj && within (si b) (ei b) ci then
      let j := fJ d c cj in
      let tvol := (v 0%Z j i + v 0%Z (j + 1)%Z i) + (v 0%Z j (i + 1)%Z + v 0%Z (j + 1)%Z (i + 1)%Z) in
      ((fine 0%Z j i * v 0%Z j i + fine 0%Z (j + 1)%Z i * v 0%Z (j + 1)%Z i) + (fine 0%Z j (i + 1)%Z * v 0%Z j (i + 1)%Z + fine 0%Z (j + 1)%Z (i + 1)%Z * v 0%Z (j + 1)%Z (i + 1)%Z)) / tvol
    else coarse ck cj ci
  else
    if Z.eqb ck (cks c) && Z.eqb cj (cjs c) && within (si b) (ei b) ci then
      (fine (ks d) (js d) i * v (ks d) (js d) i + fine (ks d) (js d) (i + 1)%Z * v (ks d) (js d) (i + 1)%Z) / (v (ks d) (js d) i + v (ks d) (js d) (i + 1)%Z)
    else coarse ck cj ci.

(** RestrictFieldX1, 267-318; [a] the areas of the fine x1 faces. *)
Definition RestrictX1 (d : dims) (c : coff) (a fine : arr) (b : box) (coarse : arr) : arr := fun ck cj ci =>
  let i := fI d c ci in
  if Z.ltb 1 (nx3 d) then
    if within (sk b) (ek b) ck && within (sj b) (ej b) cj && within (si b) (ei b) ci then
      let k := fK d c ck in let j := fJ d c cj in
      (fine k j i * a k j i + fine k (j + 1)%Z i * a k (j + 1)%Z i + fine (k + 1)%Z j i * a (k + 1)%Z j i + fine (k + 1)%Z (j + 1)%Z i * a (k + 1)%Z (j + 1)%Z i)
      / (a k j i + a k (j + 1)%Z i + a (k + 1)%Z j i + a (k + 1)%Z (j + 1)%Z i)
    else coarse ck cj ci
  else if Z.ltb 1 (nx2 d) then
    if Z.eqb ck (sk b) && within (sj b) (ej b) cj && within (si b) (ei b) ci then
      let k := ks d in let j := fJ d c cj in (fine k j i * a k j i + fine k (j + 1)%Z i * a k (j + 1)%Z i) / (a k j i + a k (j + 1)%Z i)
    else coarse ck cj ci
  else
    if Z.eqb ck (sk b) && Z.eqb cj (sj b) && within (si b) (ei b) ci then fine (ks d) (js d) i else coarse ck cj ci.

(** Coordinates::IsPole, coordinates.cpp 886-898. *)
Definition IsPole (d : dims) (j : Z) : bool := (pole_in d && Z.eqb j (js d)) || (pole_out d && Z.eqb j (je d + 1)).
(** RestrictFieldX2, 327-396.  At a pole the loop sets the weight of only the first of each pair of faces; [old0], [old1] are what the work arrays held before (1 for the row k+1). *)
Definition RestrictX2 (d : dims) (c : coff) (a fine : arr) (dx1f old0 old1 : Z -> R) (b : box) (coarse : arr) : arr := fun ck cj ci =>
  let i := fI d c ci in
  if Z.ltb 1 (nx3 d) then
    if within (sk b) (ek b) ck && within (sj b) (ej b) cj && within (si b) (ei b) ci then
      let k := fK d c ck in let j := fJ d c cj in
      let '(s0, s0p, s1, s1p) := if IsPole d j then (dx1f i, old0 (i + 1)%Z, dx1f i, old1 (i + 1)%Z) else (a k j i, a k j (i + 1)%Z, a (k + 1)%Z j i, a (k + 1)%Z j (i + 1)%Z) in
      (fine k j i * s0 + fine k j (i + 1)%Z * s0p + fine (k + 1)%Z j i * s1 + fine (k + 1)%Z j (i + 1)%Z * s1p) / (s0 + s0p + s1 + s1p)
    else coarse ck cj ci
  else if Z.ltb 1 (nx2 d) then
    if Z.eqb ck (cks c) && within (sj b) (ej b) cj && within (si b) (ei b) ci then
      let k := ks d in let j := fJ d c cj in
      let '(s0, s0p) := if IsPole d j then (dx1f i, old0 (i + 1)%Z) else (a k j i, a k j (i + 1)%Z) in
      (fine k j i * s0 + fine k j (i + 1)%Z * s0p) / (s0 + s0p)
    else coarse ck cj ci
  else
    if Z.eqb ck (cks c) && Z.eqb cj (cjs c) && within (si b) (ei b) ci then
      let k := ks d in let j := js d in (fine k j i * a k j i + fine k j (i + 1)%Z * a k j (i + 1)%Z) / (a k j i + a k j (i + 1)%Z)
    else coarse ck cj ci.
(** RestrictFieldX3, 404-459. *)
Definition RestrictX3 (d : dims) (c : coff) (a fine : arr) (b : box) (coarse : arr) : arr := fun ck cj ci =>
  let i := fI d c ci in
  if Z.ltb 1 (nx3 d) then
    if within (sk b) (ek b) ck && within (sj b) (ej b) cj && within (si b) (ei b) ci then
      let k := fK d c ck in let j := fJ d c cj in
      (fine k j i * a k j i + fine k j (i + 1)%Z * a k j (i + 1)%Z + fine k (j + 1)%Z i * a k (j + 1)%Z i + fine k (j + 1)%Z (i + 1)%Z * a k (j + 1)%Z (i + 1)%Z)
      / (a k j i + a k j (i + 1)%Z + a k (j + 1)%Z i + a k (j + 1)%Z (i + 1)%Z)
    else coarse ck cj ci
  else if Z.ltb 1 (nx2 d) then
    if Z.eqb ck (cks c) && within (sj b) (ej b) cj && within (si b) (ei b) ci then
      let k := ks d in let j := fJ d c cj in
      (fine k j i * a k j i + fine k j (i + 1)%Z * a k j (i + 1)%Z + fine k (j + 1)%Z i * a k (j + 1)%Z i + fine k (j + 1)%Z (i + 1)%Z * a k (j + 1)%Z (i + 1)%Z)
      / (a k j i + a k j (i + 1)%Z + a k (j + 1)%Z i + a k (j + 1)%Z (i + 1)%Z)
    else coarse ck cj ci
  else
    if Z.eqb ck (cks c) && Z.eqb cj (cjs c) && within (si b) (ei b) ci then
      let k := ks d in let j := js d in (fine k j i * a k j i + fine k j (i + 1)%Z * a k j (i + 1)%Z) / (a k j i + a k j (i + 1)%Z)
    else coarse ck cj ci.

(** The minmod limiter of the prolongations; SIGN from athena.hpp. *)
Definition sign_ (x : R) : R := if Rlt_dec x 0 then -1 else 1.
Definition limited (gm gp : R) : R := 1 / 2 * (sign_ gm + sign_ gp) * Rmin (Rabs gm) (Rabs gp).
(** The limited slope from the values and positions at m, c, p. *)
Definition slope (um uc up xm xc xp : R) : R := limited ((uc - um) / (xc - xm)) ((up - uc) / (xp - xc)).
(** What a direction adds in the lower (false) and upper (true) fine cell: -g*(xc - fxm) or g*(fxp - xc). *)
Definition shift (upper : bool) (g xc fxm fxp : R) : R := if upper then g * (fxp - xc) else - (g * (xc - fxm)).
(** Cell or face positions of a block in the three directions. *)
Record pos := mkP { p1 : Z -> R; p2 : Z -> R; p3 : Z -> R }.
(** For a fine index: its coarse index and whether it is the upper one of the pair. *)
Definition up (s x : Z) : Z := ((x - s) / 2)%Z.
Definition isup (s x : Z) : bool := Z.eqb ((x - s) mod 2) 1.
Definition d1 (xc xf : pos) (coarse : arr) (k j i fi : Z) (a : bool) : R := shift a (slope (coarse k j (i - 1)%Z) (coarse k j i) (coarse k j (i + 1)%Z) (p1 xc (i - 1)%Z) (p1 xc i) (p1 xc (i + 1)%Z)) (p1 xc i) (p1 xf fi) (p1 xf (fi + 1)%Z).
Definition d2 (xc xf : pos) (coarse : arr) (k j i fj : Z) (a : bool) : R := shift a (slope (coarse k (j - 1)%Z i) (coarse k j i) (coarse k (j + 1)%Z i) (p2 xc (j - 1)%Z) (p2 xc j) (p2 xc (j + 1)%Z)) (p2 xc j) (p2 xf fj) (p2 xf (fj + 1)%Z).
Definition d3 (xc xf : pos) (coarse : arr) (k j i fk : Z) (a : bool) : R := shift a (slope (coarse (k - 1)%Z j i) (coarse k j i) (coarse (k + 1)%Z j i) (p3 xc (k - 1)%Z) (p3 xc k) (p3 xc (k + 1)%Z)) (p3 xc k) (p3 xf fk) (p3 xf (fk + 1)%Z).
(** ProlongateCellCenteredValues, 467-607; the sums of the code are re-associated. *)
Definition ProlongateCC (d : dims) (c : coff) (xc xf : pos) (b : box) (coarse fine : arr) : arr := fun k j i =>
  let ci := (cis c + up (is_ d) i)%Z in let cj := (cjs c + up (js d) j)%Z in let ck := (cks c + up (ks d) k)%Z in
  if Z.ltb 1 (nx3 d) then
    if within (sk b) (ek b) ck && within (sj b) (ej b) cj && within (si b) (ei b) ci then
      coarse ck cj ci + (d1 xc xf coarse ck cj ci (fI d c ci) (isup (is_ d) i) + d2 xc xf coarse ck cj ci (fJ d c cj) (isup (js d) j) + d3 xc xf coarse ck cj ci (fK d c ck) (isup (ks d) k))
    else fine k j i
  else if Z.ltb 1 (nx2 d) then
    if Z.eqb k (ks d) && within (sj b) (ej b) cj && within (si b) (ei b) ci then
      coarse (cks c) cj ci + (d1 xc xf coarse (cks c) cj ci (fI d c ci) (isup (is_ d) i) + d2 xc xf coarse (cks c) cj ci (fJ d c cj) (isup (js d) j))
    else fine k j i
  else
    if Z.eqb k (ks d) && Z.eqb j (js d) && within (si b) (ei b) ci then
      coarse (cks c) (cjs c) ci + d1 xc xf coarse (cks c) (cjs c) ci (fI d c ci) (isup (is_ d) i)
    else fine k j i.

(** The flux-conserving form of the shared-face prolongation in 3D (fluxinterp_, set for curvilinear coordinates 55-60): areas f00, f01, f10, f11 of the four fine faces, first digit the
    second of the two tangential directions; ga, gb the slopes, da, db the distances of the fine centres. *)
Definition interp4 (ub ua : bool) (uc ga gb da db csarea f00 f01 f10 f11 : R) : R :=
  uc + (if ua then ga * da * (f00 + f10) / csarea else - (ga * da * (f01 + f11) / csarea)) + (if ub then gb * db * (f00 + f01) / csarea else - (gb * db * (f10 + f11) / csarea)).
(** ProlongateSharedFieldX1, 776-905: x1 faces, fine index i even; [xc],[xf] are the positions x2s1, x3s1; [af] the fine areas, [ac] the coarse ones. *)
Definition SharedX1 (fluxinterp : bool) (d : dims) (c : coff) (xc xf : pos) (af ac : arr) (b : box) (coarse fine : arr) : arr := fun k j i =>
  let ci := (cis c + up (is_ d) i)%Z in let cj := (cjs c + up (js d) j)%Z in let ck := (cks c + up (ks d) k)%Z in
  if isup (is_ d) i then fine k j i else
  if Z.ltb 1 (nx3 d) then
    if within (sk b) (ek b) ck && within (sj b) (ej b) cj && within (si b) (ei b) ci then
      let fj := fJ d c cj in let fk := fK d c ck in
      if fluxinterp then
        interp4 (isup (ks d) k) (isup (js d) j) (coarse ck cj ci)
          (slope (coarse ck (cj - 1)%Z ci) (coarse ck cj ci) (coarse ck (cj + 1)%Z ci) (p2 xc (cj - 1)%Z) (p2 xc cj) (p2 xc (cj + 1)%Z))
          (slope (coarse (ck - 1)%Z cj ci) (coarse ck cj ci) (coarse (ck + 1)%Z cj ci) (p3 xc (ck - 1)%Z) (p3 xc ck) (p3 xc (ck + 1)%Z))
          (p2 xf (fj + 1)%Z - p2 xf fj) (p3 xf (fk + 1)%Z - p3 xf fk) (ac ck cj ci) (af fk fj i) (af fk (fj + 1)%Z i) (af (fk + 1)%Z fj i) (af (fk + 1)%Z (fj + 1)%Z i)
      else coarse ck cj ci + d2 xc xf coarse ck cj ci fj (isup (js d) j) + d3 xc xf coarse ck cj ci fk (isup (ks d) k)
    else fine k j i
  else if Z.ltb 1 (nx2 d) then
    if Z.eqb k (ks d) && within (sj b) (ej b) cj && within (si b) (ei b) ci then coarse (cks c) cj ci + d2 xc xf coarse (cks c) cj ci (fJ d c cj) (isup (js d) j) else fine k j i
  else
    if Z.eqb k 0 && Z.eqb j 0 && within (si b) (ei b) ci then coarse 0%Z 0%Z ci else fine k j i.
(** ProlongateSharedFieldX2, 914-1051; the code adds TINY_NUMBER to the coarse area in the flux-conserving form ([tiny]). *)
Definition SharedX2 (tiny : R) (fluxinterp : bool) (d : dims) (c : coff) (xc xf : pos) (af ac : arr) (b : box) (coarse fine : arr) : arr := fun k j i =>
  let ci := (cis c + up (is_ d) i)%Z in let cj := (cjs c + up (js d) j)%Z in let ck := (cks c + up (ks d) k)%Z in
  if Z.ltb 1 (nx3 d) then
    if isup (js d) j then fine k j i else
    if within (sk b) (ek b) ck && within (sj b) (ej b) cj && within (si b) (ei b) ci then
      let fi := fI d c ci in let fk := fK d c ck in
      if fluxinterp then
        interp4 (isup (ks d) k) (isup (is_ d) i) (coarse ck cj ci)
          (slope (coarse ck cj (ci - 1)%Z) (coarse ck cj ci) (coarse ck cj (ci + 1)%Z) (p1 xc (ci - 1)%Z) (p1 xc ci) (p1 xc (ci + 1)%Z))
          (slope (coarse (ck - 1)%Z cj ci) (coarse ck cj ci) (coarse (ck + 1)%Z cj ci) (p3 xc (ck - 1)%Z) (p3 xc ck) (p3 xc (ck + 1)%Z))
          (p1 xf (fi + 1)%Z - p1 xf fi) (p3 xf (fk + 1)%Z - p3 xf fk) (ac ck cj ci + tiny) (af fk j fi) (af fk j (fi + 1)%Z) (af (fk + 1)%Z j fi) (af (fk + 1)%Z j (fi + 1)%Z)
      else coarse ck cj ci + d1 xc xf coarse ck cj ci fi (isup (is_ d) i) + d3 xc xf coarse ck cj ci fk (isup (ks d) k)
    else fine k j i
  else if Z.ltb 1 (nx2 d) then
    if isup (js d) j then fine k j i else
    if Z.eqb k (ks d) && within (sj b) (ej b) cj && within (si b) (ei b) ci then coarse (cks c) cj ci + d1 xc xf coarse (cks c) cj ci (fI d c ci) (isup (is_ d) i) else fine k j i
  else
    if Z.eqb k 0 && within 0 1 j && within (si b) (ei b) ci then coarse 0%Z 0%Z ci + d1 xc xf coarse 0%Z 0%Z ci (fI d c ci) (isup (is_ d) i) else fine k j i.
(** ProlongateSharedFieldX3, 1058-1216. *)
Definition SharedX3 (fluxinterp : bool) (d : dims) (c : coff) (xc xf : pos) (af ac : arr) (b : box) (coarse fine : arr) : arr := fun k j i =>
  let ci := (cis c + up (is_ d) i)%Z in let cj := (cjs c + up (js d) j)%Z in let ck := (cks c + up (ks d) k)%Z in
  if Z.ltb 1 (nx3 d) then
    if isup (ks d) k then fine k j i else
    if within (sk b) (ek b) ck && within (sj b) (ej b) cj && within (si b) (ei b) ci then
      let fi := fI d c ci in let fj := fJ d c cj in
      if fluxinterp then
        interp4 (isup (js d) j) (isup (is_ d) i) (coarse ck cj ci)
          (slope (coarse ck cj (ci - 1)%Z) (coarse ck cj ci) (coarse ck cj (ci + 1)%Z) (p1 xc (ci - 1)%Z) (p1 xc ci) (p1 xc (ci + 1)%Z))
          (slope (coarse ck (cj - 1)%Z ci) (coarse ck cj ci) (coarse ck (cj + 1)%Z ci) (p2 xc (cj - 1)%Z) (p2 xc cj) (p2 xc (cj + 1)%Z))
          (p1 xf (fi + 1)%Z - p1 xf fi) (p2 xf (fj + 1)%Z - p2 xf fj) (ac ck cj ci) (af k fj fi) (af k fj (fi + 1)%Z) (af k (fj + 1)%Z fi) (af k (fj + 1)%Z (fi + 1)%Z)
      else coarse ck cj ci + d1 xc xf coarse ck cj ci fi (isup (is_ d) i) + d2 xc xf coarse ck cj ci fj (isup (js d) j)
    else fine k j i
  else if Z.ltb 1 (nx2 d) then
    if within (ks d) (ks d + 1) k && within (sj b) (ej b) cj && within (si b) (ei b) ci then
      coarse (cks c) cj ci + d1 xc xf coarse (cks c) cj ci (fI d c ci) (isup (is_ d) i) + d2 xc xf coarse (cks c) cj ci (fJ d c cj) (isup (js d) j) else fine k j i
  else
    if within 0 1 k && Z.eqb j 0 && within (si b) (ei b) ci then coarse 0%Z 0%Z ci + d1 xc xf coarse 0%Z 0%Z ci (fI d c ci) (isup (is_ d) i) else fine k j i.

(** ProlongateInternalField, 1223-1387: the faces inside each coarse cell of the box from the faces around it.  [Sdx1], [Sdx2], [Sdx3] are the squares computed from the edge lengths (arbitrary here),
    functions of the first fine indices of the coarse cell.  The signs of the four formulas for each component are written with [sg]. *)
Definition sg (upper : bool) : R := if upper then 1 else -1.
Definition flux1 (g : geom) (b : vec) (k j i : Z) : R := x1 b k j i * A1 g k j i.
Definition flux2 (g : geom) (b : vec) (k j i : Z) : R := x2 b k j i * A2 g k j i.
Definition flux3 (g : geom) (b : vec) (k j i : Z) : R := x3 b k j i * A3 g k j i.
(** The sum of the loops over jj and ii (1254-1283). *)
Definition sum4 (f : bool -> bool -> R) : R := f false false + f false true + f true false + f true true.
Section Internal.
Variables (g : geom) (b : vec) (fk fj fi : Z).
Let o (x : bool) : Z := if x then 1%Z else 0%Z.
Definition Uxx : R := 1 / 8 * sum4 (fun jj ii => let fjj := (fj + o jj)%Z in let fjp := (fj + 2 * o jj)%Z in let fii := (fi + o ii)%Z in
  sg ii * (sg jj * (flux2 g b fk fjp fii + flux2 g b (fk + 1)%Z fjp fii) + (flux3 g b (fk + 2)%Z fjj fii - flux3 g b fk fjj fii))).
Definition Vyy : R := 1 / 8 * sum4 (fun jj ii => let fjj := (fj + o jj)%Z in let fii := (fi + o ii)%Z in let fip := (fi + 2 * o ii)%Z in
  sg jj * ((flux3 g b (fk + 2)%Z fjj fii - flux3 g b fk fjj fii) + sg ii * (flux1 g b fk fjj fip + flux1 g b (fk + 1)%Z fjj fip))).
Definition Wzz : R := 1 / 8 * sum4 (fun jj ii => let fjj := (fj + o jj)%Z in let fjp := (fj + 2 * o jj)%Z in let fii := (fi + o ii)%Z in let fip := (fi + 2 * o ii)%Z in
  sg ii * (flux1 g b (fk + 1)%Z fjj fip - flux1 g b fk fjj fip) + sg jj * (flux2 g b (fk + 1)%Z fjp fii - flux2 g b fk fjp fii)).
Definition Uxyz0 : R := sum4 (fun jj ii => sg ii * sg jj * (flux1 g b (fk + 1)%Z (fj + o jj)%Z (fi + 2 * o ii)%Z - flux1 g b fk (fj + o jj)%Z (fi + 2 * o ii)%Z)).
Definition Vxyz0 : R := sum4 (fun jj ii => sg ii * sg jj * (flux2 g b (fk + 1)%Z (fj + 2 * o jj)%Z (fi + o ii)%Z - flux2 g b fk (fj + 2 * o jj)%Z (fi + o ii)%Z)).
Definition Wxyz0 : R := sum4 (fun jj ii => sg ii * sg jj * (flux3 g b (fk + 2)%Z (fj + o jj)%Z (fi + o ii)%Z - flux3 g b fk (fj + o jj)%Z (fi + o ii)%Z)).
Variables (Sdx1 Sdx2 Sdx3 : R).
Definition Uxyz : R := Uxyz0 * (1 / 8 / (Sdx2 + Sdx3)).
Definition Vxyz : R := Vxyz0 * (1 / 8 / (Sdx1 + Sdx3)).
Definition Wxyz : R := Wxyz0 * (1 / 8 / (Sdx1 + Sdx2)).
Definition inner1 (ck cj : bool) : R := let k := (fk + o ck)%Z in let j := (fj + o cj)%Z in
  (1 / 2 * (flux1 g b k j fi + flux1 g b k j (fi + 2)%Z) + Uxx + sg ck * (Sdx3 * Vxyz) + sg cj * (Sdx2 * Wxyz)) / A1 g k j (fi + 1)%Z.
Definition inner2 (ck ci : bool) : R := let k := (fk + o ck)%Z in let i := (fi + o ci)%Z in
  (1 / 2 * (flux2 g b k fj i + flux2 g b k (fj + 2)%Z i) + Vyy + sg ck * (Sdx3 * Uxyz) + sg ci * (Sdx1 * Wxyz)) / A2 g k (fj + 1)%Z i.
Definition inner3 (cj ci : bool) : R := let j := (fj + o cj)%Z in let i := (fi + o ci)%Z in
  (1 / 2 * (flux3 g b (fk + 2)%Z j i + flux3 g b fk j i) + Wzz + sg cj * (Sdx2 * Uxyz) + sg ci * (Sdx1 * Vxyz)) / A3 g (fk + 1)%Z j i.
(** 2D, 1340-1376. *)
Definition tmp1 : R := 1 / 4 * (flux2 g b fk (fj + 2)%Z (fi + 1)%Z - flux2 g b fk fj (fi + 1)%Z - flux2 g b fk (fj + 2)%Z fi + flux2 g b fk fj fi).
Definition tmp2 : R := 1 / 4 * (flux1 g b fk fj fi - flux1 g b fk fj (fi + 2)%Z - flux1 g b fk (fj + 1)%Z fi + flux1 g b fk (fj + 1)%Z (fi + 2)%Z).
Definition plane1 (cj : bool) : R := let j := (fj + o cj)%Z in (1 / 2 * (flux1 g b fk j fi + flux1 g b fk j (fi + 2)%Z) + tmp1) / A1 g fk j (fi + 1)%Z.
Definition plane2 (ci : bool) : R := let i := (fi + o ci)%Z in (1 / 2 * (flux2 g b fk fj i + flux2 g b fk (fj + 2)%Z i) + tmp2) / A2 g fk (fj + 1)%Z i.
End Internal.
Definition ProlongateInternal (d : dims) (c : coff) (g : geom) (S1 S2 S3 : arr) (bx : box) (b : vec) : vec :=
  let ci i := (cis c + up (is_ d) i)%Z in let cj j := (cjs c + up (js d) j)%Z in let ck k := (cks c + up (ks d) k)%Z in
  let inside k j i := within (sk bx) (ek bx) (ck k) && within (sj bx) (ej bx) (cj j) && within (si bx) (ei bx) (ci i) in
  let inside2 k j i := Z.eqb k (ks d) && within (sj bx) (ej bx) (cj j) && within (si bx) (ei bx) (ci i) in
  let inside1 k j i := Z.eqb k 0 && Z.eqb j 0 && within (si bx) (ei bx) (ci i) in
  let fi i := fI d c (ci i) in let fj j := fJ d c (cj j) in let fk k := fK d c (ck k) in
  mkV
  (fun k j i => if isup (is_ d) i then
      if Z.ltb 1 (nx3 d) then if inside k j i then inner1 g b (fk k) (fj j) (fi i) (S1 (fk k) (fj j) (fi i)) (S2 (fk k) (fj j) (fi i)) (S3 (fk k) (fj j) (fi i)) (isup (ks d) k) (isup (js d) j) else x1 b k j i
      else if Z.ltb 1 (nx2 d) then if inside2 k j i then plane1 g b (ks d) (fj j) (fi i) (isup (js d) j) else x1 b k j i
      else if inside1 k j i then A1 g 0%Z 0%Z (fi i) * x1 b 0%Z 0%Z (fi i) / A1 g 0%Z 0%Z (fi i + 1)%Z else x1 b k j i
    else x1 b k j i)
  (fun k j i => if isup (js d) j then
      if Z.ltb 1 (nx3 d) then if inside k j i then inner2 g b (fk k) (fj j) (fi i) (S1 (fk k) (fj j) (fi i)) (S2 (fk k) (fj j) (fi i)) (S3 (fk k) (fj j) (fi i)) (isup (ks d) k) (isup (is_ d) i) else x2 b k j i
      else if Z.ltb 1 (nx2 d) then if inside2 k j i then plane2 g b (ks d) (fj j) (fi i) (isup (is_ d) i) else x2 b k j i
      else x2 b k j i
    else x2 b k j i)
  (fun k j i => if isup (ks d) k then
      if Z.ltb 1 (nx3 d) then if inside k j i then inner3 g b (fk k) (fj j) (fi i) (S1 (fk k) (fj j) (fi i)) (S2 (fk k) (fj j) (fi i)) (S3 (fk k) (fj j) (fi i)) (isup (js d) j) (isup (is_ d) i) else x3 b k j i
      else x3 b k j i
    else x3 b k j i).

(** The four steps together: bvals_refine.cpp 583-627 (ghost zones next to a coarser neighbour) and amr_loadbalance.cpp 1160-1217 (a block refined by AMR).  The ranges of shared faces leave out those
    already known on this level.  [P1],[P2],[P3] are the positions on x1, x2, x3 faces of the coarse grid (x2s1 ..., coordinates.hpp), [F1],[F2],[F3] those of the fine grid. *)
Definition ProlongateField (tiny : R) (fl : bool) (d : dims) (c : coff) (g gc : geom) (P1 F1 P2 F2 P3 F3 : pos) (S1 S2 S3 : arr) (bx : box) (il iu jl ju kl ku : Z) (u v : vec) : vec :=
  ProlongateInternal d c g S1 S2 S3 bx
    (mkV (SharedX1 fl d c P1 F1 (A1 g) (A1 gc) (mkBox il iu (sj bx) (ej bx) (sk bx) (ek bx)) (x1 u) (x1 v))
         (SharedX2 tiny fl d c P2 F2 (A2 g) (A2 gc) (mkBox (si bx) (ei bx) jl ju (sk bx) (ek bx)) (x2 u) (x2 v))
         (SharedX3 fl d c P3 F3 (A3 g) (A3 gc) (mkBox (si bx) (ei bx) (sj bx) (ej bx) kl ku) (x3 u) (x3 v))).
