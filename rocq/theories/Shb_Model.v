(** Shearing-box boundaries, src/bvals/bvals.cpp and src/bvals/cc/bvals_shear_cc.cpp, bvals_shear_flux.cpp, hydro/bvals_shear_hydro.cpp: exact arithmetic, cell-centred variables.
    A line is one variable for fixed (k,i) along x2; the messages carry the lines of all variables in the same order on both sides, one line is modelled. *)
From Coq Require Import Reals ZArith List Bool.
From Verif Require Import Time_Model Fv_Model Rec_Model Orb_Model.
Import ListNotations.
Local Open Scope R_scope.

(** Data of the mesh used here; xgh is 1 up to second order and 2 above, bvals.cpp 139-141 (Orb_Model.xgh). *)
Record box := { ppm : bool; NGHOST : Z; nx2 : Z; js : Z; nblx2 : Z; x2size : R }.
Definition je (m : box) : Z := (js m + nx2 m - 1)%Z.
(** bvals.cpp 827. *)
Definition dx (m : box) : R := x2size m / IZR (nblx2 m * nx2 m).
(** ComputeShear, bvals.cpp 832-837 and 931-936: (joverlap, Ngrids, eps). *)
Definition amount (m : box) (yshear : R) : Z * Z * R :=
  let deltay := fmod yshear (x2size m) in
  let joffset := trunc (deltay / dx m) in
  let Ngrids := Z.quot joffset (nx2 m) in
  ((joffset - Ngrids * nx2 m)%Z, Ngrids, fmod deltay (dx m) / dx m).

Local Open Scope Z_scope.
Definition num (upper : bool) : Z := if upper then 1 else 0.
(** bvals.cpp 849 and 948: jo; 850 and 949: Ng. *)
Definition jo_of (upper : bool) (joverlap : Z) : Z := (1 - 2 * num upper) * ((1 - num upper) + joverlap).
Definition Ng_of (upper : bool) (Ngrids : Z) : Z := (1 - 2 * num upper) * Ngrids.
(** bvals.cpp 873-892 (fluxes) and 967-990 (variables); None is the fatal error. *)
Definition bshift (flux : bool) (xg ng nx jo : Z) : option Z :=
  if flux then
    if jo <=? xg - nx then Some (-2) else if jo <=? xg then Some (-1) else if jo <=? xg + nx then Some 0 else None
  else
    if jo <=? xg + ng - 2 * nx then Some (-3) else if jo <=? xg + ng - nx then Some (-2) else if jo <=? xg + ng then Some (-1) else if jo <=? xg + ng + nx then Some 0 else None.
(** bvals.cpp 893-898, 911-916 (fluxes: slots 0 to 2, no ghost zones) and 991-998, 1011-1018 (variables: slots 0 to 3): ranges sent and received in slot n; last is the last slot. *)
Definition jmin_send (js je ng xg nx jo bs last n : Z) : Z :=
  if n =? 0 then js + jo else if n =? last then js - ng - xg + (bs + n) * nx else Z.max (js + jo) (js - ng - xg + (bs + n) * nx).
Definition jmax_send (js je ng xg nx jo bs last n : Z) : Z :=
  if n =? 0 then je + ng + 1 + xg + bs * nx else if n =? last then je + jo else Z.min (je + jo) (je + ng + xg + 1 + (bs + n) * nx).
Definition jmin_recv (js je ng xg nx jo bs last n : Z) : Z :=
  if n =? 0 then js + jo - bs * nx else if n =? last then js - ng - xg else Z.max (js - ng - xg) (js + jo - (bs + n) * nx).
Definition jmax_recv (js je ng xg nx jo bs last n : Z) : Z :=
  if n =? 0 then je + ng + 1 + xg else if n =? last then je + jo - (bs + n) * nx else Z.min (je + ng + 1 + xg) (je + jo - (bs + n) * nx).
(** bvals.cpp 902-903, 920-921, 1002-1003, 1022-1023: position of the partner in the list of the blocks along x2; % is the remainder of C. *)
Definition partner (nbl jblock d : Z) : Z := let jtmp := Z.rem (jblock + d) nbl in if jtmp <? 0 then jtmp + nbl else jtmp.
(** LoadShearingBoxBoundarySameLevel, bvals_shear_cc.cpp 60-85, LoadFluxShearingBoxBoundarySameLevel, bvals_shear_flux.cpp 59-75. *)
Definition Load (upper : bool) (joverlap : Z) (src : line) (jmin jmax : Z) : list R :=
  if upper then map src (upto (jmin + joverlap) (jmax + joverlap)) else map src (upto (jmin - joverlap - 1) (jmax - joverlap - 1)).
(** SetShearingBoxBoundarySameLevel, bvals_shear_cc.cpp 139-162, SetFluxShearingBoxBoundarySameLevel, bvals_shear_flux.cpp 127-152. *)
Definition Set_ (xg : Z) (arr : line) (jmin jmax : Z) (buf : list R) : line :=
  fun x => if (jmin + xg <=? x) && (x <=? jmax + xg) then nth (Z.to_nat (x - (jmin + xg))) buf 0%R else arr x.

(** One slot of the exchange for block b.  The message is found by its partner, slot and size; None: the partner sends nothing to this block in this slot or another number of cells. *)
Definition slot (m : box) (flux upper : bool) (joverlap Ng bs : Z) (src : Z -> line) (b : Z) (acc : option line) (n : Z) : option line :=
  let ng := if flux then 0 else NGHOST m in let last := if flux then 2 else 3 in
  let jo := jo_of upper joverlap in let xg := xgh (ppm m) in
  let rmin := jmin_recv (js m) (je m) ng xg (nx2 m) jo bs last n in let rmax := jmax_recv (js m) (je m) ng xg (nx2 m) jo bs last n in
  let smin := jmin_send (js m) (je m) ng xg (nx2 m) jo bs last n in let smax := jmax_send (js m) (je m) ng xg (nx2 m) jo bs last n in
  match acc with
  | None => None
  | Some arr =>
    if rmax - rmin + 1 <=? 0 then (if smax - smin + 1 <=? 0 then Some arr else None)
    else
      let s := partner (nblx2 m) b (- (Ng + bs + n)) in
      if (partner (nblx2 m) s (Ng + bs + n) =? b) && (smax - smin + 1 =? rmax - rmin + 1)
      then Some (Set_ xg arr rmin rmax (Load upper joverlap (src s) smin smax)) else None
  end.
(** The array shear_cc_ (shear_map_flx_) of block b after the exchange; old is its content before. *)
Definition exchange (m : box) (flux upper : bool) (yshear : R) (src : Z -> line) (old : line) (b : Z) : option line :=
  let '(joverlap, Ngrids, _) := amount m yshear in
  match bshift flux (xgh (ppm m)) (NGHOST m) (nx2 m) (jo_of upper joverlap) with
  | None => None
  | Some bs => fold_left (slot m flux upper joverlap (Ng_of upper Ngrids) bs src b) (if flux then [0; 1; 2] else [0; 1; 2; 3]) (Some old)
  end.

Local Open Scope R_scope.
(** SetShearingBoxBoundaryBuffers, bvals_shear_cc.cpp 236-250, and bvals_shear_flux.cpp 216-229: the remapped value in cell j. *)
Definition remapped (m : box) (upper : bool) (eps : R) (pbuf : line) (j : Z) : R :=
  let e := (1 - 2 * IZR (num upper)) * eps in
  let pflux j := RemapFlux (ppm m) pbuf e (1 - IZR (num upper)) (j + xgh (ppm m)) in
  pbuf (j + (xgh (ppm m) + 1 - num upper))%Z - (pflux (j + 1)%Z - pflux j).
(** The ghost value in cell j of block b at the inner or outer boundary; src are the periodic ghost values. *)
Definition ShearedGhost (m : box) (upper : bool) (yshear : R) (src : Z -> line) (old : line) (b j : Z) : option R :=
  match exchange m false upper yshear src old b with
  | None => None
  | Some pbuf => Some (remapped m upper (snd (amount m yshear)) pbuf j)
  end.
(** The flux at face j of block b; other are the fluxes of the opposite boundary, own those of this one: bvals_shear_flux.cpp 226-229. *)
Definition ShearedFlux (m : box) (upper : bool) (yshear : R) (own other : Z -> line) (old : line) (b j : Z) : option R :=
  match exchange m true upper yshear other old b with
  | None => None
  | Some pbuf => Some (1 / 2 * (own b j + remapped m upper (snd (amount m yshear)) pbuf j))
  end.
(** ShearQuantities, bvals_shear_hydro.cpp 91-112 (AddHydroShearForInit 43-76): density, second momentum and energy of a ghost cell. *)
Definition ShearQuantities (upper : bool) (qomL d m2 e : R) : R * R :=
  let m2' := m2 + (if upper then -1 else 1) * qomL * d in
  (m2', e + 1 / 2 / d * (m2' * m2' - m2 * m2)).
