(** What packing and block redistribution have to satisfy. *)
From Coq Require Import List Arith ZArith Bool.
From Verif Require Import Loc Arr_Model Arr_Spec Buf_Model.
Import ListNotations.
Local Open Scope Z_scope.

(** Index tuples within ranges, slowest index first; number of tuples. *)
Definition within (rs : list (Z * Z)) (x : list Z) : Prop := Forall2 (fun r i => fst r <= i <= snd r) rs x.
Definition volume (rs : list (Z * Z)) : Z := fold_right (fun r n => Z.max 0 (snd r - fst r + 1) * n) 1 rs.
(** The element of an array's storage at an index tuple. *)
Definition addr (D : dims) (x : list Z) : Z :=
  match x with [k; j; i] => at3 D k j i | [n; k; j; i] => at4 D n k j i | [m; n; k; j; i] => at5 D m n k j i | _ => -1 end.
(** The ranges lie inside the array. *)
Definition pad (x : list Z) : list Z := repeat 0 (6 - length x) ++ x.
Definition fits (D : dims) (rs : list (Z * Z)) : Prop := forall x, within rs x -> inrange D (pad x).
Definition plus (x d : list Z) : list Z := map (fun p => fst p + snd p) (combine x d).
Definition moved_by (rs : list (Z * Z)) (d : list Z) : list (Z * Z) := map (fun p => (fst (fst p) + snd p, snd (fst p) + snd p)) (combine rs d).
(** [dst'] is [dst] with the elements of [src] in the ranges [rs] written at the indices displaced by [d]. *)
Definition transferred {A} (D D' : dims) (rs : list (Z * Z)) (d : list Z) (src dst dst' : mem A) : Prop :=
  (forall x, within rs x -> dst' (addr D' (plus x d)) = src (addr D x)) /\
  (forall q, (forall x, within rs x -> q <> addr D' (plus x d)) -> dst' q = dst q).

(** ** Moving blocks.  A block: refined meshes need even sizes and an even number of ghost cells. *)
Definition good_block (B : bsz) : Prop := 1 <= ng B /\ 1 <= bn1 B /\ 1 <= bn2 B /\ 1 <= bn3 B.
Definition refinable (B : bsz) : Prop := good_block B /\ Z.even (bn1 B) = true /\ (1 < bn2 B -> Z.even (bn2 B) = true) /\ (1 < bn3 B -> Z.even (bn3 B) = true).
(** Numbers of components are not negative. *)
Definition goodv (V : vars) : Prop := Forall (fun n => 0 <= n) (ncc V) /\ (forall n, nrad V = Some n -> 0 <= n).
(** A location of a block of this size: no displacement in missing directions. *)
Definition loc_of (B : bsz) (l : loc) : Prop := (bn2 B = 1 -> lx2 l = 0) /\ (bn3 B = 1 -> lx3 l = 0).
(** Elements of the variables in a range of cells: cell-centred values, intensities, and the faces of these cells. *)
Definition in_cells (B : bsz) (V : vars) (il iu jl ju kl ku : Z) (a : arr) (x : list Z) : Prop :=
  match a, x with
  | Cc m, [n; k; j; i] => exists nv, nth_error (ncc V) m = Some nv /\ 0 <= n < nv /\ kl <= k <= ku /\ jl <= j <= ju /\ il <= i <= iu
  | Rad, [k; j; i; n] => exists nv, nrad V = Some nv /\ 0 <= n < nv /\ kl <= k <= ku /\ jl <= j <= ju /\ il <= i <= iu
  | X1f m, [k; j; i] => (m < nfc V)%nat /\ kl <= k <= ku /\ jl <= j <= ju /\ il <= i <= iu + 1
  | X2f m, [k; j; i] => (m < nfc V)%nat /\ kl <= k <= ku /\ jl <= j <= ju + f2 B /\ il <= i <= iu
  | X3f m, [k; j; i] => (m < nfc V)%nat /\ kl <= k <= ku + f3 B /\ jl <= j <= ju /\ il <= i <= iu
  | _, _ => False
  end.
(** The block's own cells, and those of its coarse buffer widened by [w] ghost cells. *)
Definition own_cells (B : bsz) (V : vars) : arr -> list Z -> Prop :=
  in_cells B V (ng B) (ng B + bn1 B - 1) (js_ B) (js_ B + bn2 B - 1) (ks_ B) (ks_ B + bn3 B - 1).
Definition coarse_cells (B : bsz) (V : vars) (w : Z) : arr -> list Z -> Prop :=
  in_cells B V (ng B - w) (ng B + bn1 B / 2 - 1 + w) (js_ B - w * f2 B) (js_ B + (bn2 B + 1) / 2 - 1 + w * f2 B) (ks_ B - w * f3 B) (ks_ B + (bn3 B + 1) / 2 - 1 + w * f3 B).
(** Element [y] of a block at location [c] and element [x] of the coarse buffer of a block at [l], one level finer, are at the same place: block
    [c] starts at cell c * nx of its level, the coarse buffer of [l] at cell l * nx / 2. *)
Definition same_place (B : bsz) (l c : loc) (a : arr) (x y : list Z) : Prop :=
  let at_same k j i k' j' i' :=
    lx1 l * (bn1 B / 2) + (i - ng B) = lx1 c * bn1 B + (i' - ng B) /\ lx2 l * (bn2 B / 2) + (j - js_ B) = lx2 c * bn2 B + (j' - js_ B) /\
    lx3 l * (bn3 B / 2) + (k - ks_ B) = lx3 c * bn3 B + (k' - ks_ B) in
  match a, x, y with
  | Cc _, [n; k; j; i], [n'; k'; j'; i'] => n' = n /\ at_same k j i k' j' i'
  | Rad, [k; j; i; n], [k'; j'; i'; n'] => n' = n /\ at_same k j i k' j' i'
  | _, [k; j; i], [k'; j'; i'] => at_same k j i k' j' i'
  | _, _, _ => False
  end.
Definition parent_loc (l c : loc) : Prop := lx1 c = lx1 l / 2 /\ lx2 c = lx2 l / 2 /\ lx3 c = lx3 l / 2.
(** [S'] is [S] with every element of [T] that satisfies [P] written to the elements related to it by [R]. *)
Definition written {A} (dmd dms : arr -> dims) (P : arr -> list Z -> Prop) (R : arr -> list Z -> list Z -> Prop) (T S S' : store A) : Prop :=
  (forall a x y, P a x -> R a x y -> S' a (addr (dmd a) y) = T a (addr (dms a) x)) /\
  (forall a q, (forall x y, P a x -> R a x y -> q <> addr (dmd a) y) -> S' a q = S a q).
(** All elements accessed are inside their arrays. *)
Definition all_inside (dm : arr -> dims) (ps : list piece) : Prop := forall a rs, In (a, rs) ps -> fits (dm a) rs.
