(** Small specification for C40, C41, C42. *)
From Coq Require Import Reals ZArith List Bool Permutation.
From Verif Require Import Fv_Model.
Import ListNotations.
Local Open Scope R_scope.

Definition is_active (d : dims) (k j i : Z) : Prop := (ks d <= k <= ke d /\ js d <= j <= je d /\ is_ d <= i <= ie d)%Z.
Definition nonempty (d : dims) : Prop := (is_ d <= ie d /\ js d <= je d /\ ks d <= ke d)%Z /\ (nx2 d = 1 -> nx3 d = 1)%Z.
(** Magnetic flux out of a cell. *)
Definition net_flux (g : geom) (b : vec) (k j i : Z) : R :=
  (A1 g k j (i + 1)%Z * x1 b k j (i + 1)%Z - A1 g k j i * x1 b k j i) + (A2 g k (j + 1)%Z i * x2 b k (j + 1)%Z i - A2 g k j i * x2 b k j i) + (A3 g (k + 1)%Z j i * x3 b (k + 1)%Z j i - A3 g k j i * x3 b k j i).
(** Geometry: no face of the block has zero area except those on a pole, whose edges around the axis have no length; without a second (third) dimension nothing depends on that index. *)
Record good_geom (d : dims) (g : geom) : Prop := mkGG {
  gg1 : forall k j i, (ks d <= k <= ke d /\ js d <= j <= je d /\ is_ d <= i <= ie d + 1)%Z -> A1 g k j i <> 0;
  gg2 : forall k j i, (ks d <= k <= ke d /\ js d <= j <= je d + 1 /\ is_ d <= i <= ie d)%Z -> (pole_in d = true /\ j = js d) \/ (pole_out d = true /\ j = je d + 1)%Z \/ A2 g k j i <> 0;
  gg3 : forall k j i, (ks d <= k <= ke d + 1 /\ js d <= j <= je d /\ is_ d <= i <= ie d)%Z -> A3 g k j i <> 0;
  gg_in : pole_in d = true -> forall k i, A2 g k (js d) i = 0 /\ L3 g k (js d) i = 0;
  gg_out : pole_out d = true -> forall k i, A2 g k (je d + 1)%Z i = 0 /\ L3 g k (je d + 1)%Z i = 0;
  gg_1d : nx2 d = 1%Z -> forall k i, L3 g k (js d + 1)%Z i = L3 g k (js d) i;
  gg_2d : nx3 d = 1%Z -> forall j i, L1 g (ks d + 1)%Z j i = L1 g (ks d) j i /\ L2 g (ks d + 1)%Z j i = L2 g (ks d) j i }.
(** Electric fields: the same on both sides of a missing dimension; along a pole the electromotive force does not depend on the azimuth. *)
Record good_emf (d : dims) (g : geom) (e : vec) : Prop := mkGE {
  ge_1d : nx2 d = 1%Z -> forall i, (is_ d <= i <= ie d + 1)%Z -> x3 e (ks d) (js d + 1)%Z i = x3 e (ks d) (js d) i;
  ge_2d : nx3 d = 1%Z -> forall j i, (js d <= j <= je d)%Z -> (is_ d <= i <= ie d + 1)%Z -> x2 e (ks d + 1)%Z j i = x2 e (ks d) j i;
  ge_2d' : nx3 d = 1%Z -> (1 < nx2 d)%Z -> forall j i, (js d <= j <= je d + 1)%Z -> (is_ d <= i <= ie d)%Z -> x1 e (ks d + 1)%Z j i = x1 e (ks d) j i;
  ge_in : pole_in d = true -> (1 < nx3 d)%Z -> forall k i, (ks d <= k <= ke d)%Z -> (is_ d <= i <= ie d)%Z -> L1 g (k + 1)%Z (js d) i * x1 e (k + 1)%Z (js d) i = L1 g k (js d) i * x1 e k (js d) i;
  ge_out : pole_out d = true -> (1 < nx3 d)%Z -> forall k i, (ks d <= k <= ke d)%Z -> (is_ d <= i <= ie d)%Z -> L1 g (k + 1)%Z (je d + 1)%Z i * x1 e (k + 1)%Z (je d + 1)%Z i = L1 g k (je d + 1)%Z i * x1 e k (je d + 1)%Z i }.

(** What the time integrators and super time stepping do with their field registers. *)
Inductive op := Advance (r : nat) (e : vec) (wght : R) | Record_ (r : nat) (e : vec) (half_dt : R) | Average (r a b c e : nat) (w : weights) | Copy (r a : nat).
Definition get (regs : nat -> vec) (r : nat) : vec := regs r.
Definition put (regs : nat -> vec) (r : nat) (b : vec) : nat -> vec := fun s => if Nat.eqb s r then b else regs s.
Definition perform (d : dims) (g : geom) (o : op) (regs : nat -> vec) : nat -> vec :=
  match o with
  | Advance r e w => put regs r (CT d g e w (get regs r))
  | Record_ r e h => put regs r (CT_register d g e h (get regs r))
  | Average r a b c e w => put regs r (WeightedAve d w (get regs r) (get regs a) (get regs b) (get regs c) (get regs e))
  | Copy r a => put regs r (get regs a)
  end.
(** The weights outside the one case with a misprint. *)
Definition sound_weights (w : weights) : Prop := w0 w <> 1 \/ w4 w = 0 \/ w3 w = 0.
Definition allowed (d : dims) (g : geom) (o : op) : Prop :=
  match o with Advance _ e _ => good_emf d g e | Record_ _ e _ => good_emf d g e | Average _ _ _ _ _ w => sound_weights w | Copy _ _ => True end.

(** ** Conservation *)
Definition sum (l : list R) : R := fold_right Rplus 0 l.
Definition sum3 (d : dims) (f : arr) : R := sum (map (fun k => sum (map (fun j => sum (map (fun i => f k j i) (upto (is_ d) (ie d)))) (upto (js d) (je d)))) (upto (ks d) (ke d))).
Definition total (d : dims) (g : geom) (u : arr) : R := sum3 d (fun k j i => V g k j i * u k j i).
(** Flow out of the block through a list of faces (given by the index of the face) of side [fid] = 0..5. *)
Definition out_sign (fid : nat) : R := if Nat.eqb (Nat.modulo fid 2) 1 then 1 else -1.
Definition comp (fid : nat) (v : vec) : arr := if Nat.ltb fid 2 then x1 v else if Nat.ltb fid 4 then x2 v else x3 v.
Definition areas (fid : nat) (g : geom) : arr := if Nat.ltb fid 2 then A1 g else if Nat.ltb fid 4 then A2 g else A3 g.
Definition flow (g : geom) (f : vec) (fid : nat) (ps : list (Z * Z * Z)) : R := out_sign fid * sum (map (fun p => let '(k, j, i) := p in areas fid g k j i * comp fid f k j i) ps).
(** All faces of a side. *)
Definition side (d : dims) (fid : nat) : list (Z * Z * Z) :=
  if Nat.ltb fid 2 then flat_map (fun k => map (fun j => (k, j, if Nat.eqb fid 0 then is_ d else (ie d + 1)%Z)) (upto (js d) (je d))) (upto (ks d) (ke d))
  else if Nat.ltb fid 4 then flat_map (fun k => map (fun i => (k, (if Nat.eqb fid 2 then js d else (je d + 1)%Z), i)) (upto (is_ d) (ie d))) (upto (ks d) (ke d))
  else flat_map (fun j => map (fun i => ((if Nat.eqb fid 4 then ks d else (ke d + 1)%Z), j, i)) (upto (is_ d) (ie d))) (upto (js d) (je d)).
(** The sides a block has in its number of dimensions. *)
Definition sides (d : dims) : list nat := [0%nat; 1%nat] ++ (if Z.ltb 1 (nx2 d) then [2%nat; 3%nat] else []) ++ (if Z.ltb 1 (nx3 d) then [4%nat; 5%nat] else []).
(** A patch of a block: a whole side, or the quarter (half in 2D) towards one finer neighbour. *)
Inductive patch := Whole (fid : nat) | Part (fid fi1 fi2 : nat).
Definition patch_flow (d : dims) (g : geom) (f : vec) (p : patch) : R :=
  match p with Whole fid => flow g f fid (side d fid) | Part fid fi1 fi2 => flow g f fid (slots d fid fi1 fi2) end.
(** The two ways a side is divided. *)
Definition parts (d : dims) (fid : nat) : list patch :=
  match Z.ltb 1 (nx2 d), Z.ltb 1 (nx3 d) with
  | _, true => [Part fid 0 0; Part fid 1 0; Part fid 0 1; Part fid 1 1]
  | true, false => [Part fid 0 0; Part fid 1 0]
  | false, false => [Part fid 0 0]
  end.
Record block := mkB { bd : dims; bg : geom; bf : vec; bu : arr; refined : nat -> bool }.
Definition patches (b : block) : list patch := flat_map (fun fid => if refined b fid then parts (bd b) fid else [Whole fid]) (sides (bd b)).
Definition mesh_total (m : list block) : R := sum (map (fun b => total (bd b) (bg b) (bu b)) m).
Definition advanced (wght : R) (b : block) : block := mkB (bd b) (bg b) (bf b) (AddFluxDivergence (bd b) (bg b) (bf b) wght (bu b)) (refined b).
(** All patches of the mesh with the flows through them; closed: they pair off with opposite flows (what leaves one block through a patch enters another one). *)
Definition flows (m : list block) : list R := flat_map (fun b => map (patch_flow (bd b) (bg b) (bf b)) (patches b)) m.
Definition closed (l : list R) : Prop := exists pairs, Permutation l (flat_map (fun x => [x; - x]) pairs).
Definition good_block (b : block) : Prop := nonempty (bd b) /\ (forall k j i, V (bg b) k j i <> 0) /\
  (forall fid, refined b fid = true -> Z.even (nx1 (bd b)) = true /\ (Z.even (nx2 (bd b)) = true \/ nx2 (bd b) = 1%Z) /\ (Z.even (nx3 (bd b)) = true \/ nx3 (bd b) = 1%Z)).

(** A fine block and its coarser neighbour: same numbers of cells; each coarse face of the part has the area of the fine faces on it.  [fid]: the coarse side. *)
Definition opposite (fid : nat) : nat := if Nat.eqb (Nat.modulo fid 2) 0 then S fid else pred fid.
(** The fine faces on coarse face [p] of the part. *)
Definition fine_faces (dc df : dims) (fid fi1 fi2 : nat) (p : Z * Z * Z) : list (Z * Z * Z) :=
  let '(k, j, i) := p in
  let both (o n : Z) (a b x : Z) (fi : nat) : list Z := if Z.ltb 1 n then let q := (o + 2 * (x - fst (half a b n fi)))%Z in [q; (q + 1)%Z] else [o] in
  let I := if Nat.eqb (Nat.modulo (opposite fid) 2) 0 then is_ df else (ie df + 1)%Z in
  let J := if Nat.eqb (Nat.modulo (opposite fid) 2) 0 then js df else (je df + 1)%Z in
  let K := if Nat.eqb (Nat.modulo (opposite fid) 2) 0 then ks df else (ke df + 1)%Z in
  if Nat.ltb fid 2 then flat_map (fun k' => map (fun j' => (k', j', I)) (both (js df) (nx2 dc) (js dc) (je dc) j fi1)) (both (ks df) (nx3 dc) (ks dc) (ke dc) k fi2)
  else if Nat.ltb fid 4 then flat_map (fun k' => map (fun i' => (k', J, i')) (both (is_ df) (nx1 dc) (is_ dc) (ie dc) i fi1)) (both (ks df) (nx3 dc) (ks dc) (ke dc) k fi2)
  else flat_map (fun j' => map (fun i' => (K, j', i')) (both (is_ df) (nx1 dc) (is_ dc) (ie dc) i fi1)) (both (js df) (nx2 dc) (js dc) (je dc) j fi2).
Definition area_of (g : geom) (fid : nat) (ps : list (Z * Z * Z)) : R := sum (map (fun p => let '(k, j, i) := p in areas fid g k j i) ps).
Definition dir_ok (n : Z) : Prop := Z.even n = true \/ n = 1%Z.
Definition same_size (d e : dims) : Prop := nx1 d = nx1 e /\ nx2 d = nx2 e /\ nx3 d = nx3 e.
Definition at_ (a : arr) (p : Z * Z * Z) : R := let '(k, j, i) := p in a k j i.
(** A correction received: from which fine block, and where. *)
Record correction := mkC { c_fid : nat; c_fi1 : nat; c_fi2 : nat; c_d : dims; c_g : geom; c_f : vec }.
Definition key (c : correction) : nat * nat * nat := (c_fid c, c_fi1 c, c_fi2 c).
Definition correct (dc : dims) (f : vec) (c : correction) : vec := SetFlux dc f (c_fid c) (c_fi1 c) (c_fi2 c) (LoadFlux (c_d c) (c_g c) (c_f c) (opposite (c_fid c))).
