(** Magnetic fields at shearing-box boundaries, src/bvals/fc/bvals_shear_fc.cpp and bvals_shear_emf.cpp: exact arithmetic.  The third field component and the second EMF are lines of cells along x2
    and take the same path as cell-centred variables (Shb_Model.ShearedGhost and ShearedFlux; bvals_shear_fc.cpp 90-96, 180-188, 278-293; bvals_shear_emf.cpp 76-82, 179-185, 254-266);
    the second field component and the third EMF are lines of faces, with one value more per message. *)
From Coq Require Import Reals ZArith List Bool.
From Verif Require Import Time_Model Fv_Model Rec_Model Orb_Model Shb_Model.
Import ListNotations.
Local Open Scope R_scope.

(** One slot, bvals_shear_fc.cpp 83-89 (send) and 170-178 (receive), bvals_shear_emf.cpp 83-89 and 186-192; sizes: bvals_fc.cpp 1448-1490 (one value more than counts on either side). *)
Definition slot_face (m : box) (flux upper : bool) (joverlap Ng bs : Z) (src : Z -> line) (b : Z) (acc : option line) (n : Z) : option line :=
  let ng := (if flux then 0 else NGHOST m)%Z in let last := (if flux then 2 else 3)%Z in
  let jo := jo_of upper joverlap in let xg := xgh (ppm m) in
  let rmin := jmin_recv (js m) (je m) ng xg (nx2 m) jo bs last n in let rmax := jmax_recv (js m) (je m) ng xg (nx2 m) jo bs last n in
  let smin := jmin_send (js m) (je m) ng xg (nx2 m) jo bs last n in let smax := jmax_send (js m) (je m) ng xg (nx2 m) jo bs last n in
  match acc with
  | None => None
  | Some arr =>
    if (rmax - rmin + 1 <=? 0)%Z then (if (smax - smin + 1 <=? 0)%Z then Some arr else None)
    else
      let s := partner (nblx2 m) b (- (Ng + bs + n)) in
      if (partner (nblx2 m) s (Ng + bs + n) =? b)%Z && (smax - smin + 1 =? rmax - rmin + 1)%Z
      then Some (Set_ xg arr rmin (rmax + 1) (Load upper joverlap (src s) smin (smax + 1))) else None
  end.
Definition exchange_face (m : box) (flux upper : bool) (yshear : R) (src : Z -> line) (old : line) (b : Z) : option line :=
  let '(joverlap, Ngrids, _) := amount m yshear in
  match bshift flux (xgh (ppm m)) (NGHOST m) (nx2 m) (jo_of upper joverlap) with
  | None => None
  | Some bs => fold_left (slot_face m flux upper joverlap (Ng_of upper Ngrids) bs src b) (if flux then [0; 1; 2] else [0; 1; 2; 3])%Z (Some old)
  end.
(** SetShearingBoxBoundaryBuffers, bvals_shear_fc.cpp 262-277: the second component at face j of a ghost line. *)
Definition ShearedFace (m : box) (upper : bool) (yshear : R) (src : Z -> line) (old : line) (b j : Z) : option R :=
  match exchange_face m false upper yshear src old b with
  | None => None
  | Some pbuf => Some (remapped m upper (snd (amount m yshear)) pbuf j)
  end.
(** SetEMFShearingBoxBoundaryCorrection, bvals_shear_emf.cpp 267-279: the third EMF at face j of the boundary. *)
Definition ShearedEmf (m : box) (upper : bool) (yshear : R) (own other : Z -> line) (old : line) (b j : Z) : option R :=
  match exchange_face m true upper yshear other old b with
  | None => None
  | Some pbuf => Some (1 / 2 * (own b j + remapped m upper (snd (amount m yshear)) pbuf j))
  end.
(** bvals_shear_fc.cpp 294-327: the first component in the ghost zones, for one (k,j) of block b, from its value b1 at the boundary face; n counts faces from the boundary outwards, cell i lies between faces i and i + 1.
    src2 i, src3 i, src3k i: the lines of x2-faces, of the x3-faces below and of those above for cell i. *)
Fixpoint GhostB1 (m : box) (upper : bool) (yshear : R) (src2 src3 src3k : nat -> Z -> line) (old : line) (b j : Z) (b1 : R) (dx1 : nat -> R) (dx2 dx3 : R) (n : nat) : option R :=
  match n with
  | O => Some b1
  | S i =>
    match GhostB1 m upper yshear src2 src3 src3k old b j b1 dx1 dx2 dx3 i, ShearedFace m upper yshear (src2 i) old b (j + 1), ShearedFace m upper yshear (src2 i) old b j,
          ShearedGhost m upper yshear (src3k i) old b j, ShearedGhost m upper yshear (src3 i) old b j with
    | Some f, Some r, Some l, Some t, Some u =>
      Some (if upper then f - dx1 i / dx2 * (r - l) - dx1 i / dx3 * (t - u) else f + dx1 i / dx2 * (r - l) + dx1 i / dx3 * (t - u))
    | _, _, _, _, _ => None
    end
  end.
