(** What a boundary condition promises, independently of the loops that fill the ghost zones.

    Along one axis the active cells are [lo..hi].  A ghost position [i] outside that range
    shows the value of an [image] position: its mirror image in the wall for a reflecting
    or polar-wedge boundary, the edge cell for an outflow boundary, itself when the
    ghost zone is filled by communication.  Face positions along their own axis are
    [lo..hi+1], the wall being a face. *)
From Coq Require Import List ZArith Reals Bool.
From Verif Require Import Bnd_Model.
Import ListNotations.
Local Open Scope Z_scope.

(** position whose value cell position [i] shows *)
Definition image (inner outer : flag) (lo hi i : Z) : Z :=
  if i <? lo then
    match inner with
    | Comm => i
    | Outflow => lo
    | Reflect | PolarWedge => 2 * lo - 1 - i
    end
  else if hi <? i then
    match outer with
    | Comm => i
    | Outflow => hi
    | Reflect | PolarWedge => 2 * hi + 1 - i
    end
  else i.

(** the same for faces normal to the axis: mirrored in the wall faces [lo] and [hi+1] *)
Definition face_image (inner outer : flag) (lo hi i : Z) : Z :=
  if i <? lo then
    match inner with
    | Comm => i
    | Outflow => lo
    | Reflect | PolarWedge => 2 * lo - i
    end
  else if hi + 1 <? i then
    match outer with
    | Comm => i
    | Outflow => hi + 1
    | Reflect | PolarWedge => 2 * (hi + 1) - i
    end
  else i.

(** the boundary condition met by position [i] of a range [lo..hi]: [Comm] inside *)
Definition met (inner outer : flag) (lo hi i : Z) : flag :=
  if i <? lo then inner else if hi <? i then outer else Comm.

(** sign of a vector component in the mirror of a wall normal to [axis] (1, 2, 3): only
    the normal component changes sign at a reflecting wall; the components along x2 and x3
    change sign across a pole *)
Definition mirror_sign (axis : Z) (comp : Z) (f : flag) : R :=
  match f with
  | Reflect => if comp =? axis then (-1)%R else 1%R
  | PolarWedge => if (comp =? 2) || (comp =? 3) then (-1)%R else 1%R
  | _ => 1%R
  end.

(** which axis a component points along: velocities are components 1, 2, 3 of the
    hydrodynamic variables, 0 stands for scalars *)
Definition hydro_axis (n : Z) : Z := if inb 1 3 n then n else 0.
(** magnetic components 0, 1, 2 point along axes 1, 2, 3 *)
Definition field_axis (n : Z) : Z := n + 1.

(** ** Geometry of the allocated arrays *)
Definition wf (g : block) : Prop :=
  1 <= NGHOST g /\ 0 <= NSCALARS g /\
  NGHOST g <= b_ie g - b_is g + 1 /\
  (if f2 g then NGHOST g <= b_je g - b_js g + 1 else b_js g = b_je g) /\
  (if f3 g then f2 g = true /\ NGHOST g <= b_ke g - b_ks g + 1 else b_ks g = b_ke g).

(** cells of the block including ghost cells *)
Definition in_array (g : block) (k j i : Z) : Prop :=
  b_is g - NGHOST g <= i <= b_ie g + NGHOST g /\
  (if f2 g then b_js g - NGHOST g <= j <= b_je g + NGHOST g else j = b_js g) /\
  (if f3 g then b_ks g - NGHOST g <= k <= b_ke g + NGHOST g else k = b_ks g).

(** faces of component [n]: one more along the axis of the component *)
Definition in_face_array (g : block) (n k j i : Z) : Prop :=
  0 <= n <= 2 /\
  b_is g - NGHOST g <= i <= b_ie g + NGHOST g + (if n =? 0 then 1 else 0) /\
  (if f2 g then b_js g - NGHOST g <= j <= b_je g + NGHOST g + (if n =? 1 then 1 else 0)
   else b_js g <= j <= b_js g + (if n =? 1 then 1 else 0)) /\
  (if f3 g then b_ks g - NGHOST g <= k <= b_ke g + NGHOST g + (if n =? 2 then 1 else 0)
   else b_ks g <= k <= b_ks g + (if n =? 2 then 1 else 0)).

Definition active (g : block) (k j i : Z) : Prop :=
  b_is g <= i <= b_ie g /\ b_js g <= j <= b_je g /\ b_ks g <= k <= b_ke g.

(** faces of active cells *)
Definition active_face (g : block) (n k j i : Z) : Prop :=
  b_is g <= i <= b_ie g + (if n =? 0 then 1 else 0) /\
  b_js g <= j <= b_je g + (if n =? 1 then 1 else 0) /\
  b_ks g <= k <= b_ke g + (if n =? 2 then 1 else 0).

(** flags of the boundaries along axes that exist; a one-cell axis has no ghost cells *)
Definition x2_flags (g : block) : flag * flag :=
  if f2 g then (bcs g inner_x2, bcs g outer_x2) else (Comm, Comm).
Definition x3_flags (g : block) : flag * flag :=
  if f3 g then (bcs g inner_x3, bcs g outer_x3) else (Comm, Comm).

(** polar wedges are allowed at x2 boundaries only *)
Definition legal (g : block) : Prop :=
  bcs g inner_x1 <> PolarWedge /\ bcs g outer_x1 <> PolarWedge /\
  (f3 g = true -> bcs g inner_x3 <> PolarWedge /\ bcs g outer_x3 <> PolarWedge).

(** value promised at cell (k,j,i) for component [n] pointing along axis [ax] (0: scalar) *)
Definition promised (g : block) (a : cells) (ax n k j i : Z) : R :=
  let '(i2, o2) := x2_flags g in
  let '(i3, o3) := x3_flags g in
  let i1 := bcs g inner_x1 in let o1 := bcs g outer_x1 in
  (mirror_sign 1 ax (met i1 o1 (b_is g) (b_ie g) i) *
   mirror_sign 2 ax (met i2 o2 (b_js g) (b_je g) j) *
   mirror_sign 3 ax (met i3 o3 (b_ks g) (b_ke g) k) *
   a (n, image i3 o3 (b_ks g) (b_ke g) k,
         image i2 o2 (b_js g) (b_je g) j,
         image i1 o1 (b_is g) (b_ie g) i))%R.

(** value promised at a face: as for cells, positions along the component's own axis
    being faces; the field through a polar-wedge axis is zero *)
Definition pole_face (g : block) (n j : Z) : bool :=
  let '(i2, o2) := x2_flags g in
  (n =? 1) &&
  (match i2 with PolarWedge => j =? b_js g | _ => false end
   || match o2 with PolarWedge => j =? b_je g + 1 | _ => false end).

Definition promised_face (g : block) (a : cells) (n k j i : Z) : R :=
  let '(i2, o2) := x2_flags g in
  let '(i3, o3) := x3_flags g in
  let i1 := bcs g inner_x1 in let o1 := bcs g outer_x1 in
  let ax := field_axis n in
  let along m := if n =? m then 1 else 0 in
  let img m := if n =? m then face_image else image in
  if pole_face g n j then 0%R else
  (mirror_sign 1 ax (met i1 o1 (b_is g) (b_ie g + along 0)%Z i) *
   mirror_sign 2 ax (met i2 o2 (b_js g) (b_je g + along 1)%Z j) *
   mirror_sign 3 ax (met i3 o3 (b_ks g) (b_ke g + along 2)%Z k) *
   a (n, img 2%Z i3 o3 (b_ks g) (b_ke g) k,
         img 1%Z i2 o2 (b_js g) (b_je g) j,
         img 0%Z i1 o1 (b_is g) (b_ie g) i))%R.

(** cells whose ghost values a boundary function has set *)
Definition filled (g : block) (k j i : Z) : bool :=
  let '(i2, o2) := x2_flags g in
  let '(i3, o3) := x3_flags g in
  applied (met (bcs g inner_x1) (bcs g outer_x1) (b_is g) (b_ie g) i)
  || applied (met i2 o2 (b_js g) (b_je g) j)
  || applied (met i3 o3 (b_ks g) (b_ke g) k).

(** the derived quantities of a cell agree with its primary variables: the cell-centred
    field is the weighted mean of the two faces, the conserved variables are the image of
    the primitive ones, the conserved scalars are concentration times density *)
Definition consistent (p : physics) (ns : Z) (s : state) (k j i : Z) : Prop :=
  s_bcc s (0, k, j, i) =
    (lw p 0%Z k j i * s_b s (0%Z, k, j, i) + rw p 0%Z k j i * s_b s (0%Z, k, j, (i + 1)%Z))%R /\
  s_bcc s (1, k, j, i) =
    (lw p 1%Z k j i * s_b s (1%Z, k, j, i) + rw p 1%Z k j i * s_b s (1%Z, k, (j + 1)%Z, i))%R /\
  s_bcc s (2, k, j, i) =
    (lw p 2%Z k j i * s_b s (2%Z, k, j, i) + rw p 2%Z k j i * s_b s (2%Z, (k + 1)%Z, j, i))%R /\
  (forall n, 0 <= n <= 4 ->
     s_u s (n, k, j, i) =
     p2c p [s_w s (0, k, j, i); s_w s (1, k, j, i); s_w s (2, k, j, i); s_w s (3, k, j, i);
            s_w s (4, k, j, i)]
           [s_bcc s (0, k, j, i); s_bcc s (1, k, j, i); s_bcc s (2, k, j, i)] n) /\
  (forall n, 0 <= n < ns -> s_s s (n, k, j, i) = (s_r s (n, k, j, i) * s_u s (0%Z, k, j, i))%R).

(** net field flux out of a cell, [ar n k j i] being the area of face (n,k,j,i): zero for a
    divergence-free field *)
Definition out_flux (ar : Z -> Z -> Z -> Z -> R) (b : cells) (k j i : Z) : R :=
  (ar 0%Z k j (i + 1)%Z * b (0%Z, k, j, (i + 1)%Z) - ar 0%Z k j i * b (0%Z, k, j, i) +
   (ar 1%Z k (j + 1)%Z i * b (1%Z, k, (j + 1)%Z, i) - ar 1%Z k j i * b (1%Z, k, j, i)) +
   (ar 2%Z (k + 1)%Z j i * b (2%Z, (k + 1)%Z, j, i) - ar 2%Z k j i * b (2%Z, k, j, i)))%R.

(** a boundary that either mirrors or is filled by communication *)
Definition mirrors (f : flag) : Prop := f = Reflect \/ f = Comm.

(** the image cell *)
Definition image_cell (g : block) (k j i : Z) : Z * Z * Z :=
  let '(i2, o2) := x2_flags g in
  let '(i3, o3) := x3_flags g in
  (image i3 o3 (b_ks g) (b_ke g) k, image i2 o2 (b_js g) (b_je g) j,
   image (bcs g inner_x1) (bcs g outer_x1) (b_is g) (b_ie g) i).

(** face areas that have the mirror symmetry of the boundaries: the area of every face of the
    array is the area of its image *)
Definition symmetric_areas (g : block) (ar : Z -> Z -> Z -> Z -> R) : Prop :=
  let '(i2, o2) := x2_flags g in
  let '(i3, o3) := x3_flags g in
  let i1 := bcs g inner_x1 in let o1 := bcs g outer_x1 in
  let img (n m : Z) := if n =? m then face_image else image in
  forall n k j i, in_face_array g n k j i ->
    ar n k j i = ar n (img n 2 i3 o3 (b_ks g) (b_ke g) k) (img n 1 i2 o2 (b_js g) (b_je g) j)
                      (img n 0 i1 o1 (b_is g) (b_ie g) i).

(** no field crosses a reflecting wall *)
Definition walls_closed (g : block) (b : cells) : Prop :=
  (bcs g inner_x1 = Reflect -> forall k j, b (0, k, j, b_is g) = 0%R) /\
  (bcs g outer_x1 = Reflect -> forall k j, b (0, k, j, b_ie g + 1) = 0%R) /\
  (bcs g inner_x2 = Reflect -> forall k i, b (1, k, b_js g, i) = 0%R) /\
  (bcs g outer_x2 = Reflect -> forall k i, b (1, k, b_je g + 1, i) = 0%R) /\
  (bcs g inner_x3 = Reflect -> forall j i, b (2, b_ks g, j, i) = 0%R) /\
  (bcs g outer_x3 = Reflect -> forall j i, b (2, b_ke g + 1, j, i) = 0%R).
