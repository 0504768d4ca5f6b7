(** MeshBlockTree, src/mesh/meshblock_tree.cpp, and Mesh::UpdateMeshBlockTree, src/mesh/amr_loadbalance.cpp 178-313.
    The pointer tree is a value; a member function called on a node of the tree becomes a function of the whole
    tree and the node's location.  A null pointer dereference or a fatal error is [None].
    64-bit locations and the 32-bit products nrbx << (level - root_level) are unbounded integers here. *)
From Coq Require Import List Arith ZArith Bool.
From Verif Require Import Loc.
Import ListNotations.
Local Open Scope nat_scope.

(** MeshBlockTree: loc_ is implied by the position; pleaf_ == nullptr is [Leaf]; [Null] is a null pointer in pleaf_. *)
Inductive tree := Null | Leaf (gid : Z) | Node (gid : Z) (pleaf : list tree).
(** BoundaryFlag: the values the tree looks at. *)
Inductive bflag := BPeriodic | BShear | BPolar | BOther.
(** The members of Mesh used by the tree: number of dimensions (f2, f3), root_level, nrbx1..3 and mesh_bcs
    (direction 0, 1, 2; outer face or not). *)
Record grid := mkG { gdim : nat; groot : nat; gnrb : nat -> Z; gbc : nat -> bool -> bflag }.
Definition is_per (b : bflag) : bool := match b with BPeriodic => true | _ => false end.
Definition is_polar (b : bflag) : bool := match b with BPolar => true | _ => false end.
Definition is_per_or_shear (b : bflag) : bool := match b with BPeriodic | BShear => true | _ => false end.

(** Leaf index at depth k on the way to [l], lines 123-128, 149-154, 436-440, 474-478: sh = level - k - 1. *)
Definition idx (l : loc) (k : nat) : nat :=
  let b x := if Z.testbit x (Z.of_nat (level l - k - 1)) then 1 else 0 in
  b (lx1 l) + 2 * b (lx2 l) + 4 * b (lx3 l).
Definition path (l : loc) : list nat := map (idx l) (seq 0 (level l)).
Fixpoint sub (t : tree) (p : list nat) : tree :=
  match p with [] => t | n :: p => match t with Node _ ch => sub (nth n ch Null) p | _ => Null end end.
Fixpoint upd_nth (n : nat) (ch : list tree) (f : tree -> tree) {struct ch} : list tree :=
  match ch, n with [], _ => [] | c :: ch, 0 => f c :: ch | c :: ch, S n => c :: upd_nth n ch f end.
Fixpoint upd (t : tree) (p : list nat) (f : tree -> tree) : tree :=
  match p with
  | [] => f t
  | n :: p => match t with Node g ch => Node g (upd_nth n ch (fun c => upd c p f)) | _ => t end
  end.
(** FindMeshBlock, 470-482: the node at a location ([Null] if it does not exist). *)
Definition FindMeshBlock (t : tree) (l : loc) : tree := sub t (path l).

(** CreateRootGrid, 87-110; [k] = root_level - level.  The root is created with gid -1. *)
Fixpoint create (g : grid) (k : nat) (l : loc) : tree :=
  match k with
  | O => Leaf (-1)
  | S k => Node (-1) (map (fun n =>
      let c := child l n in
      let levfac := (2 ^ Z.of_nat k)%Z in
      if Z.ltb (lx3 c * levfac) (gnrb g 2) && Z.ltb (lx2 c * levfac) (gnrb g 1) && Z.ltb (lx1 c * levfac) (gnrb g 0)
      then create g k c else Null) (seq 0 (nleaf (gdim g))))
  end.
Definition rootloc : loc := mkLoc 0 0 0 0.
Definition CreateRootGrid (g : grid) : tree := create g (groot g) rootloc.

(** The neighbours visited by Refine, 178-249, in order.  The loops are written as in the code: in particular
    the shift of lx3 across a pole (230) is not undone before the next oy. *)
Definition nmax (g : grid) (d lev : nat) : Z := if Nat.ltb d (gdim g) then (gnrb g d * 2 ^ Z.of_nat (lev - groot g))%Z else 1%Z.
Definition offs (g : grid) (d : nat) : list Z := if Nat.ltb d (gdim g) then [-1; 0; 1]%Z else [0]%Z.
Definition wrap_per (g : grid) (d : nat) (n x : Z) : option Z :=
  let x := if Z.ltb x 0 then (if is_per (gbc g d false) then Some (n - 1)%Z else None) else Some x in
  match x with
  | None => None
  | Some x => if Z.leb n x then (if is_per (gbc g d true) then Some 0%Z else None) else Some x
  end.
Definition wrap2 (g : grid) (n x : Z) : option (Z * bool) :=
  let x := if Z.ltb x 0 then (if is_per (gbc g 1 false) then Some ((n - 1)%Z, false)
                              else if is_polar (gbc g 1 false) then Some (0%Z, true) else None) else Some (x, false) in
  match x with
  | None => None
  | Some (x, pol) => if Z.leb n x then (if is_per (gbc g 1 true) then Some (0%Z, pol)
                                         else if is_polar (gbc g 1 true) then Some ((n - 1)%Z, true) else None) else Some (x, pol)
  end.
Definition row (g : grid) (l : loc) (y z : Z) (centre : bool) : list loc :=
  flat_map (fun ox => if centre && Z.eqb ox 0 then []
    else match wrap_per g 0 (nmax g 0 (level l)) (lx1 l + ox) with
         | None => [] | Some x => [mkLoc (level l) x y z] end) (offs g 0).
Fixpoint rows (g : grid) (l : loc) (oz : Z) (z : Z) (oys : list Z) : list loc :=
  match oys with
  | [] => []
  | oy :: oys =>
      match wrap2 g (nmax g 1 (level l)) (lx2 l + oy) with
      | None => rows g l oz z oys
      | Some (y, polar) =>
          let nz := nmax g 2 (level l) in
          let z := if polar then Z.rem (z + nz / 2) nz else z in
          row g l y z (Z.eqb oy 0 && Z.eqb oz 0) ++ rows g l oz z oys
      end
  end.
Definition nlocs (g : grid) (l : loc) : list loc :=
  flat_map (fun oz => match wrap_per g 2 (nmax g 2 (level l)) (lx3 l + oz) with
    | None => [] | Some z => rows g l oz z (offs g 1) end) (offs g 2).

(** AddMeshBlock from the root, 116-132: at each level on the way, refine a leaf, then step to the child. *)
Definition ancl (k : nat) (l : loc) : loc :=   (* the ancestor of l at level k *)
  let s := Z.of_nat (level l - k) in mkLoc k (Z.shiftr (lx1 l) s) (Z.shiftr (lx2 l) s) (Z.shiftr (lx3 l) s).
Fixpoint foldo {A S} (f : S -> A -> option S) (s : S) (l : list A) : option S :=
  match l with [] => Some s | x :: l => match f s x with None => None | Some s => foldo f s l end end.
Notation st := (tree * nat)%type.   (* the tree and the counter nnew *)
Definition add_with (rf : st -> loc -> option st) (s : st) (l : loc) : option st :=
  match foldo (fun s k => match FindMeshBlock (fst s) (ancl k l) with
                          | Null => None
                          | Leaf _ => rf s (ancl k l)
                          | Node _ _ => Some s end) s (seq 0 (level l)) with
  | None => None
  | Some s => match FindMeshBlock (fst s) l with Null => None | _ => Some s end
  end.
(** Refine, 166-255.  The recursion goes to coarser levels only; [fuel] bounds it. *)
Definition set_gid (z : Z) (t : tree) : tree := match t with Node _ ch => Node z ch | Leaf _ => Leaf z | Null => Null end.
Fixpoint refine (g : grid) (fuel : nat) (s : st) (l : loc) : option st :=
  match fuel with
  | O => None
  | S fuel =>
      match FindMeshBlock (fst s) l with
      | Null => None
      | Node _ _ => Some s
      | Leaf gid =>
          let t1 := upd (fst s) (path l) (fun _ => Node gid (repeat (Leaf gid) (nleaf (gdim g)))) in
          match foldo (add_with (refine g fuel)) (t1, snd s) (nlocs g l) with
          | None => None
          | Some (t2, n) => Some (upd t2 (path l) (set_gid (-1)), n + (nleaf (gdim g) - 1))
          end
      end
  end.
Definition Refine (g : grid) (s : st) (l : loc) : option st := refine g (S (level l)) s l.
Definition AddMeshBlock (g : grid) (s : st) (l : loc) : option st := add_with (refine g (level l)) s l.

(** AddMeshBlockWithoutRefine, 138-160; [p] is the rest of the path. *)
Definition set_nth (n : nat) (ch : list tree) (t : tree) : list tree := upd_nth n ch (fun _ => t).
Fixpoint add_norefine (nlf : nat) (t : tree) (p : list nat) : tree :=
  match p with
  | [] => t
  | n :: p =>
      let gid := match t with Leaf g => g | Node g _ => g | Null => 0%Z end in
      let ch := match t with Node _ ch => ch | _ => repeat Null nlf end in
      let c := match nth n ch Null with Null => Leaf gid | c => c end in
      Node gid (set_nth n ch (add_norefine nlf c p))
  end.
Definition AddMeshBlockWithoutRefine (g : grid) (t : tree) (l : loc) : tree := add_norefine (nleaf (gdim g)) t (path l).

(** Rebuilding the tree from the block list of a restart file, src/mesh/mesh.cpp 871-873. *)
Definition restart_tree (g : grid) (loclist : list loc) : tree := fold_left (AddMeshBlockWithoutRefine g) loclist (CreateRootGrid g).

(** FindNeighbor, 362-464: [None] is the fatal error, [Some None] the null pointer, [Some (Some l)] the node at [l]. *)
Definition wrap_f (g : grid) (d : nat) (n x : Z) : option (Z * bool) :=
  let ok f := if Nat.eqb d 0 then is_per_or_shear f else is_per f in
  let pl f := Nat.eqb d 1 && is_polar f in
  let x := if Z.ltb x 0 then (if ok (gbc g d false) then Some ((n - 1)%Z, false)
                              else if pl (gbc g d false) then Some (0%Z, true) else None) else Some (x, false) in
  match x with
  | None => None
  | Some (x, pol) => if Z.leb n x then (if ok (gbc g d true) then Some (0%Z, pol)
                                         else if pl (gbc g d true) then Some ((n - 1)%Z, true) else None) else Some (x, pol)
  end.
Definition fmax (g : grid) (d lev : nat) : Z := (gnrb g d * 2 ^ Z.of_nat (lev - groot g))%Z.
Definition FindNeighborLoc (g : grid) (l : loc) (o1 o2 o3 : Z) : option loc :=
  match wrap_f g 0 (fmax g 0 (level l)) (lx1 l + o1) with None => None | Some (x, _) =>
  match wrap_f g 1 (fmax g 1 (level l)) (lx2 l + o2) with None => None | Some (y, polar) =>
  match wrap_f g 2 (fmax g 2 (level l)) (lx3 l + o3) with None => None | Some (z, _) =>
    let nz := fmax g 2 (level l) in
    Some (mkLoc (level l) x y (if polar then Z.rem (z + nz / 2) nz else z))
  end end end.
Fixpoint walk (t : tree) (nl : loc) (k : nat) (p : list nat) : option loc :=   (* loop 424-447; [p] is the rest of the path *)
  match p with
  | [] => match t with Null => None | _ => Some nl end
  | n :: p => match t with
              | Null => None
              | Leaf _ => match p with [] => Some (ancl k nl) | _ => None end
              | Node _ ch => walk (nth n ch Null) nl (S k) p
              end
  end.
Definition FindNeighbor (g : grid) (t : tree) (l : loc) (o1 o2 o3 : Z) (amrflag : bool) : option (option loc) :=
  match FindNeighborLoc g l o1 o2 o3 with
  | None => Some None
  | Some nl =>
      if Nat.ltb (level l) 1 then Some (Some rootloc)
      else match walk t nl 0 (path nl) with
      | None => None
      | Some bl =>
          if Nat.ltb (level bl) (level nl) then Some (Some bl)
          else match FindMeshBlock t bl with
          | Null => None
          | Leaf _ => Some (Some bl)
          | Node _ ch =>
              let n := (if Z.ltb o1 0 then 1 else 0) + (if Z.ltb o2 0 then 2 else 0) + (if Z.ltb o3 0 then 4 else 0) in
              match nth n ch Null with
              | Null => None
              | Leaf _ => Some (Some bl)
              | Node _ _ => if amrflag then Some (Some bl) else None
              end
          end
      end
  end.

(** Derefine, 261-311.  The state is the tree and the counter ndel. *)
Definition facing (g : grid) (d : nat) (o : Z) : list nat :=   (* lis..lie etc. *)
  if Nat.ltb d (gdim g) then (if Z.eqb o (-1) then [1] else if Z.eqb o 1 then [0] else [0; 1]) else [0].
Definition offsets (g : grid) : list (Z * Z * Z) :=
  flat_map (fun o3 => flat_map (fun o2 => map (fun o1 => (o1, o2, o3)) [-1; 0; 1]%Z) (offs g 1)) (offs g 2).
(** 265-302: can [l] be derefined? *)
Fixpoint deref_ok (g : grid) (t : tree) (l : loc) (os : list (Z * Z * Z)) : option bool :=
  match os with
  | [] => Some true
  | (o1, o2, o3) :: os =>
      match FindNeighbor g t l o1 o2 o3 true with
      | None => None
      | Some None => deref_ok g t l os
      | Some (Some bl) =>
          match FindMeshBlock t bl with
          | Null => None
          | Leaf _ => deref_ok g t l os
          | Node _ ch =>
              let ns := flat_map (fun lk => flat_map (fun lj => map (fun li => li + 2 * lj + 4 * lk) (facing g 0 o1)) (facing g 1 o2)) (facing g 2 o3) in
              if existsb (fun n => match nth n ch Null with Null => true | _ => false end) ns then None
              else if existsb (fun n => match nth n ch Null with Node _ _ => true | _ => false end) ns then Some false
              else deref_ok g t l os
          end
      end
  end.
Definition gid_of (t : tree) : Z := match t with Leaf z => z | Node z _ => z | Null => 0%Z end.
Definition Derefine (g : grid) (s : st) (l : loc) : option st :=
  match FindMeshBlock (fst s) l with
  | Node _ ch =>
      match deref_ok g (fst s) l (offsets g) with
      | None => None
      | Some false => Some s
      | Some true => match nth 0 ch Null with
                     | Null => None
                     | c => Some (upd (fst s) (path l) (fun _ => Leaf (gid_of c)), snd s + (nleaf (gdim g) - 1))
                     end
      end
  | _ => None
  end.

(** CountMeshBlock, 317-329, and GetMeshBlockList, 336-352: the leaves with the ids stored in them, in order, and the
    renumbered tree. *)
Fixpoint leaves (t : tree) (l : loc) : list (loc * Z) :=
  match t with
  | Null => []
  | Leaf gid => [(l, gid)]
  | Node _ ch => (fix go ch n := match ch with [] => [] | c :: ch => leaves c (child l n) ++ go ch (S n) end) ch 0
  end.
Fixpoint count (t : tree) : nat :=
  match t with
  | Null => 0
  | Leaf _ => 1
  | Node _ ch => (fix go ch := match ch with [] => 0 | c :: ch => count c + go ch end) ch
  end.
Fixpoint renumber (t : tree) (n : nat) : tree * nat :=
  match t with
  | Null => (Null, n)
  | Leaf _ => (Leaf (Z.of_nat n), S n)
  | Node g ch =>
      let r := (fix go ch n := match ch with
                | [] => ([], n)
                | c :: ch => let '(c', n1) := renumber c n in let '(ch', n2) := go ch n1 in (c' :: ch', n2)
                end) ch n in
      (Node g (fst r), snd r)
  end.
Definition GetMeshBlockList (t : tree) : list (loc * Z) * tree := (leaves t rootloc, fst (renumber t 0)).

(** ** Mesh::UpdateMeshBlockTree, src/mesh/amr_loadbalance.cpp 178-313.  [lref] and [lderef] are the locations of the blocks
    with refine_flag_ = 1 and -1, gathered in rank order, hence in the order of the block list. *)
Definition even_loc (l : loc) : bool := negb (Z.testbit (lx1 l) 0) && negb (Z.testbit (lx2 l) 0) && negb (Z.testbit (lx3 l) 0).
Definition sibling_offsets (g : grid) : list (Z * Z * Z) :=   (* loops k, j, i of 263-265 *)
  flat_map (fun k => flat_map (fun j => map (fun i => (i, j, k)) [0; 1]%Z)
    (if Nat.leb 2 (gdim g) then [0; 1]%Z else [0]%Z)) (if Nat.eqb (gdim g) 3 then [0; 1]%Z else [0]%Z).
Fixpoint matches (first : loc) (os : list (Z * Z * Z)) (rest : list loc) : nat :=
  match os, rest with
  | (i, j, k) :: os, r :: rest =>
      (if Z.eqb (lx1 first + i) (lx1 r) && Z.eqb (lx2 first + j) (lx2 r) && Z.eqb (lx3 first + k) (lx3 r) && Nat.eqb (level first) (level r)
       then 1 else 0) + matches first os rest
  | _, _ => 0
  end.
Definition loc_parent (l : loc) : loc := mkLoc (level l - 1) (Z.shiftr (lx1 l) 1) (Z.shiftr (lx2 l) 1) (Z.shiftr (lx3 l) 1).
Fixpoint groups (g : grid) (lderef : list loc) : list loc :=
  match lderef with
  | [] => []
  | n :: rest => (if even_loc n && Nat.eqb (matches n (sibling_offsets g) (n :: rest)) (nleaf (gdim g)) then [loc_parent n] else []) ++ groups g rest
  end.
(** 288-289: std::sort by decreasing level, all but the last element (the end iterator points at the last element).
    std::sort may return any sorted permutation; insertion sort is used here. *)
Fixpoint insert (l : loc) (ls : list loc) : list loc :=
  match ls with [] => [l] | m :: ls => if Nat.ltb (level m) (level l) then l :: m :: ls else m :: insert l ls end.
Definition sort_all_but_last (ls : list loc) : list loc := fold_right insert [] (removelast ls) ++ match rev ls with [] => [] | l :: _ => [l] end.
(** 295-308: the tree manipulation for given lists. *)
Definition update_with (g : grid) (t : tree) (lref cld : list loc) : option (tree * nat * nat) :=
  match foldo (Refine g) (t, 0) lref with
  | None => None
  | Some (t1, nnew) => match foldo (Derefine g) (t1, 0) cld with
                       | None => None
                       | Some (t2, ndel) => Some (t2, nnew, ndel)
                       end
  end.
Definition UpdateMeshBlockTree (g : grid) (t : tree) (lref lderef : list loc) : option (tree * nat * nat) :=
  let nlf := nleaf (gdim g) in
  if Nat.eqb (length lref) 0 && Nat.ltb (length lderef) nlf then Some (t, 0, 0)
  else update_with g t lref (if Nat.leb nlf (length lderef) then sort_all_but_last (groups g lderef) else []).
