(** Resistivity, exact arithmetic: src/field/field_diffusion/diffusivity.cpp and field_diffusion.cpp.  The Hall effect has no electric field in the code and is left out. *)
From Coq Require Import Reals ZArith List Bool.
From Verif Require Import Fv_Model Pos_Model Dif_Model.
Import ListNotations.
Local Open Scope R_scope.

(** VolCenter1Length ... and VolCenterFace1Area ... of coordinates.hpp: lengths between cell centres and areas of the faces they span. *)
Record dual := mkDu { len1 : arr; len2 : arr; len3 : arr; ar1 : arr; ar2 : arr; ar3 : arr }.
(** coordinates.cpp 388-412, 503-531 on a uniform grid. *)
Definition flat_dual (dx dy dz : R) : dual := mkDu (fun _ _ _ => dx) (fun _ _ _ => dy) (fun _ _ _ => dz) (fun _ _ _ => dy * dz) (fun _ _ _ => dx * dz) (fun _ _ _ => dx * dy).

(** FieldDiffusion::CalcCurrent, diffusivity.cpp 70-159.  The loops visit every edge of the block and some of the ghost cells; their ranges are left out.  J1 is not set in one dimension (0 here). *)
Definition CalcCurrent (d : dims) (m : dual) (b : vec) : vec :=
  let ext2 := if f2 d then 1%Z else 0%Z in
  let ext3 := if f3 d then 1%Z else 0%Z in
  mkV
  (fun k j i => if f2 d then
      let v := (len3 m (k - ext3)%Z j i * x3 b k j i - len3 m (k - ext3)%Z (j - 1)%Z i * x3 b k (j - 1)%Z i) / ar1 m (k - ext3)%Z (j - 1)%Z i in
      if f3 d then v - (len2 m k (j - 1)%Z i * x2 b k j i - len2 m (k - 1)%Z (j - 1)%Z i * x2 b (k - 1)%Z j i) / ar1 m (k - 1)%Z (j - 1)%Z i else v
    else 0)
  (fun k j i =>
      let v := - (len3 m (k - ext3)%Z j i * x3 b k j i - len3 m (k - ext3)%Z j (i - 1)%Z * x3 b k j (i - 1)%Z) / ar2 m (k - ext3)%Z j (i - 1)%Z in
      if f3 d then v + (len1 m k j (i - 1)%Z * x1 b k j i - len1 m (k - 1)%Z j (i - 1)%Z * x1 b (k - 1)%Z j i) / ar2 m (k - 1)%Z j (i - 1)%Z else v)
  (fun k j i =>
      let v := (len2 m k (j - ext2)%Z i * x2 b k j i - len2 m k (j - ext2)%Z (i - 1)%Z * x2 b k j (i - 1)%Z) / ar3 m k (j - ext2)%Z (i - 1)%Z in
      if f2 d then v - (len1 m k j (i - 1)%Z * x1 b k j i - len1 m k (j - 1)%Z (i - 1)%Z * x1 b k (j - 1)%Z i) / ar3 m k (j - 1)%Z (i - 1)%Z else v).

(** FieldDiffusion::OhmicEMF, 166-229. *)
Definition OhmicEMF (d : dims) (eta : arr) (J : vec) (e : vec) : vec :=
  if Z.eqb (nx2 d) 1 then
    mkV (x1 e)
    (fun k j i => if (Z.eqb k (ks d) || Z.eqb k (ke d + 1)) && Z.eqb j (js d) && within (is_ d) (ie d + 1) i then
        x2 e (ks d) (js d) i + / 2 * (eta (ks d) (js d) (i - 1)%Z + eta (ks d) (js d) i) * x2 J (ks d) (js d) i else x2 e k j i)
    (fun k j i => if Z.eqb k (ks d) && (Z.eqb j (js d) || Z.eqb j (je d + 1)) && within (is_ d) (ie d + 1) i then
        x3 e (ks d) (js d) i + / 2 * (eta (ks d) (js d) (i - 1)%Z + eta (ks d) (js d) i) * x3 J (ks d) (js d) i else x3 e k j i)
  else if Z.eqb (nx3 d) 1 then
    mkV
    (fun k j i => if (Z.eqb k (ks d) || Z.eqb k (ke d + 1)) && within (js d) (je d + 1) j && within (is_ d) (ie d + 1) i then
        x1 e (ks d) j i + / 2 * (eta (ks d) j i + eta (ks d) (j - 1)%Z i) * x1 J (ks d) j i else x1 e k j i)
    (fun k j i => if (Z.eqb k (ks d) || Z.eqb k (ke d + 1)) && within (js d) (je d + 1) j && within (is_ d) (ie d + 1) i then
        x2 e (ks d) j i + / 2 * (eta (ks d) j i + eta (ks d) j (i - 1)%Z) * x2 J (ks d) j i else x2 e k j i)
    (fun k j i => if Z.eqb k (ks d) && within (js d) (je d + 1) j && within (is_ d) (ie d + 1) i then
        x3 e (ks d) j i + / 4 * (eta (ks d) j i + eta (ks d) j (i - 1)%Z + eta (ks d) (j - 1)%Z i + eta (ks d) (j - 1)%Z (i - 1)%Z) * x3 J (ks d) j i else x3 e k j i)
  else
    let r := fun k j i => within (ks d) (ke d + 1) k && within (js d) (je d + 1) j && within (is_ d) (ie d + 1) i in
    mkV
    (fun k j i => if r k j i then x1 e k j i + / 4 * (eta k j i + eta k (j - 1)%Z i + eta (k - 1)%Z j i + eta (k - 1)%Z (j - 1)%Z i) * x1 J k j i else x1 e k j i)
    (fun k j i => if r k j i then x2 e k j i + / 4 * (eta k j i + eta k j (i - 1)%Z + eta (k - 1)%Z j i + eta (k - 1)%Z j (i - 1)%Z) * x2 J k j i else x2 e k j i)
    (fun k j i => if r k j i then x3 e k j i + / 4 * (eta k j i + eta k j (i - 1)%Z + eta k (j - 1)%Z i + eta k (j - 1)%Z (i - 1)%Z) * x3 J k j i else x3 e k j i).

(** The part of AmbipolarEMF that is common to all directions, e.g. 254-258: component Jc of the current without its part along the magnetic field. *)
Definition across (eta Jc Bc Jx Jy Jz Bx By Bz : R) : R :=
  let Bsq := Bx * Bx + By * By + Bz * Bz + TINY_NUMBER in
  let JdotB := Jx * Bx + Jy * By + Jz * Bz in
  eta * (Jc - JdotB * Bc / Bsq).
(** FieldDiffusion::AmbipolarEMF, 235-396: one dimension 244-263 (no Jx), two dimensions 265-326.  Three dimensions are left out (the field is returned unchanged; no theorem speaks of it). *)
Definition AmbipolarEMF (d : dims) (eta : arr) (b bc : vec) (J : vec) (e : vec) : vec :=
  if Z.eqb (nx2 d) 1 then
    let k0 := ks d in let j0 := js d in
    let Bx := fun i => x1 b k0 j0 i in
    let By := fun i => / 2 * (x2 b k0 j0 i + x2 b k0 j0 (i - 1)%Z) in
    let Bz := fun i => / 2 * (x3 b k0 j0 i + x3 b k0 j0 (i - 1)%Z) in
    let eta_A := fun i => / 2 * (eta k0 j0 (i - 1)%Z + eta k0 j0 i) in
    mkV (x1 e)
    (fun k j i => if (Z.eqb k (ks d) || Z.eqb k (ke d + 1)) && Z.eqb j (js d) && within (is_ d) (ie d + 1) i then
        x2 e k0 j0 i + across (eta_A i) (x2 J k0 j0 i) (By i) 0 (x2 J k0 j0 i) (x3 J k0 j0 i) (Bx i) (By i) (Bz i) else x2 e k j i)
    (fun k j i => if Z.eqb k (ks d) && (Z.eqb j (js d) || Z.eqb j (je d + 1)) && within (is_ d) (ie d + 1) i then
        x3 e k0 j0 i + across (eta_A i) (x3 J k0 j0 i) (Bz i) 0 (x2 J k0 j0 i) (x3 J k0 j0 i) (Bx i) (By i) (Bz i) else x3 e k j i)
  else if Z.eqb (nx3 d) 1 then
    let k0 := ks d in
    mkV
    (fun k j i => if (Z.eqb k (ks d) || Z.eqb k (ke d + 1)) && within (js d) (je d + 1) j && within (is_ d) (ie d + 1) i then
        let Bx := / 2 * (x1 bc k0 j i + x1 bc k0 (j - 1)%Z i) in
        x1 e k0 j i + across (/ 2 * (eta k0 j i + eta k0 (j - 1)%Z i)) (x1 J k0 j i) Bx
          (x1 J k0 j i) (/ 4 * (x2 J k0 j i + x2 J k0 j (i + 1)%Z + x2 J k0 (j - 1)%Z i + x2 J k0 (j - 1)%Z (i + 1)%Z)) (/ 2 * (x3 J k0 j i + x3 J k0 j (i + 1)%Z))
          Bx (x2 b k0 j i) (/ 2 * (x3 b k0 j i + x3 b k0 (j - 1)%Z i)) else x1 e k j i)
    (fun k j i => if (Z.eqb k (ks d) || Z.eqb k (ke d + 1)) && within (js d) (je d + 1) j && within (is_ d) (ie d + 1) i then
        let By := / 2 * (x2 bc k0 j i + x2 bc k0 j (i - 1)%Z) in
        x2 e k0 j i + across (/ 2 * (eta k0 j i + eta k0 j (i - 1)%Z)) (x2 J k0 j i) By
          (/ 4 * (x1 J k0 j i + x1 J k0 (j + 1)%Z i + x1 J k0 j (i - 1)%Z + x1 J k0 (j + 1)%Z (i - 1)%Z)) (x2 J k0 j i) (/ 2 * (x3 J k0 j i + x3 J k0 (j + 1)%Z i))
          (x1 b k0 j i) By (/ 2 * (x3 b k0 j i + x3 b k0 j (i - 1)%Z)) else x2 e k j i)
    (fun k j i => if Z.eqb k (ks d) && within (js d) (je d + 1) j && within (is_ d) (ie d + 1) i then
        let Bz := / 4 * (x3 b k0 j i + x3 b k0 j (i - 1)%Z + x3 b k0 (j - 1)%Z i + x3 b k0 (j - 1)%Z (i - 1)%Z) in
        x3 e k0 j i + across (/ 4 * (eta k0 j i + eta k0 j (i - 1)%Z + eta k0 (j - 1)%Z i + eta k0 (j - 1)%Z (i - 1)%Z)) (x3 J k0 j i) Bz
          (/ 2 * (x1 J k0 j i + x1 J k0 j (i - 1)%Z)) (/ 2 * (x2 J k0 j i + x2 J k0 (j - 1)%Z i)) (x3 J k0 j i)
          (/ 2 * (x1 b k0 j i + x1 b k0 (j - 1)%Z i)) (/ 2 * (x2 b k0 j i + x2 b k0 j (i - 1)%Z)) Bz else x3 e k j i)
  else e.

Definition no_field : vec := mkV (fun _ _ _ => 0) (fun _ _ _ => 0) (fun _ _ _ => 0).
Definition isz (x : R) : bool := if Req_EM_T x 0 then true else false.
Definition posR (x : R) : bool := if Rlt_dec 0 x then true else false.
(** FieldDiffusion::CalcDiffusionEMF, field_diffusion.cpp 96-113, without SetDiffusivity: the arrays ohm and ad are etaB, set by ConstDiffusivity (diffusivity.cpp 27-63) or a function of the user. *)
Definition CalcDiffusionEMF (d : dims) (m : dual) (eta_ohm eta_ad : R) (ohm ad : arr) (b bc : vec) : vec :=
  let J := CalcCurrent d m b in
  let e := if isz eta_ohm then no_field else OhmicEMF d ohm J no_field in
  if isz eta_ad then e else AmbipolarEMF d ad b bc J e.
(** FieldDiffusion::PoyntingFlux, diffusivity.cpp 402-418: one dimension. *)
Definition PoyntingFlux_1d (d : dims) (e bc : vec) (i : Z) : R :=
  - / 2 * (x2 bc (ks d) (js d) i + x2 bc (ks d) (js d) (i - 1)%Z) * x3 e (ks d) (js d) i + / 2 * (x3 bc (ks d) (js d) i + x3 bc (ks d) (js d) (i - 1)%Z) * x2 e (ks d) (js d) i.
(** FieldDiffusion::NewDiffusionDt, field_diffusion.cpp 236-306: the limit dt_oa. *)
Definition eta_total (eta_ohm eta_ad : R) (ohm ad : arr) (k j i : Z) : R :=
  let t := 0 in
  let t := if posR eta_ohm then t + ohm k j i else t in
  if posR eta_ad then t + ad k j i else t.
Definition dt_oa (d : dims) (real_max : R) (w1 w2 w3 : arr) (eta_ohm eta_ad : R) (ohm ad : arr) : R :=
  fold_left (fun dt k => fold_left (fun dt j => fold_left (fun dt i =>
    if posR eta_ohm || posR eta_ad then Rmin dt (fac d * (len d w1 w2 w3 k j i * len d w1 w2 w3 k j i) / (eta_total eta_ohm eta_ad ohm ad k j i + TINY_NUMBER)) else dt)
    (upto (is_ d) (ie d)) dt) (upto (js d) (je d)) dt) (upto (ks d) (ke d)) real_max.
(** One explicit stage of weight dt on a uniform Cartesian block without other electric fields: e = 0 + e_oa (AddEMF 119-137), then CT. *)
Definition field_stage (d : dims) (dx dy dz eta_ohm eta_ad dt : R) (ohm ad : arr) (b bc : vec) : vec :=
  CT d (cart dx dy dz) (CalcDiffusionEMF d (flat_dual dx dy dz) eta_ohm eta_ad ohm ad b bc) dt b.
