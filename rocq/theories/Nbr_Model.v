(** Neighbour lists, BoundaryBase::SearchAndSetNeighbors, src/bvals/bvals_base.cpp 302-740, and the refinement decision,
    MeshRefinement::CheckRefinementCondition, src/mesh/mesh_refinement.cpp 1393-1451.
    Not modelled: the separate lists of blocks around a pole (polar_neighbor_north_/south_, 495-606). *)
From Coq Require Import List Arith NArith ZArith Bool.
From Verif Require Import Loc Tags_Model AMR_Model Tree_Model.
Import ListNotations.
Local Open Scope nat_scope.

(** NeighborBlock, src/bvals/bvals_interfaces.hpp; snb.gid is the id stored in the tree at [n_loc], snb.level its level;
    a failed FindBufferID (-1) is [None] in [n_target]. *)
Record nblock := mkNB { n_loc : loc; n_gid : Z; n_o1 : Z; n_o2 : Z; n_o3 : Z; n_type : ctype; n_bufid : nat; n_target : option nat;
                        n_polar : bool; n_shear : bool; n_f1 : Z; n_f2 : Z }.
Definition dirt := (Z * Z * Z)%type.
(** The directions in the order of the loops: x1 faces 333-376, x2 faces 379-424, x3 faces 427-468, x1x2 edges 471-523,
    x1x3 edges 609-653, x2x3 edges 656-700, corners 703-739.  block_size_.nx2 > 1 is dim >= 2, nx3 > 1 is dim = 3. *)
Definition dirs (dim : nat) : list dirt :=
  let pm2 (f : Z -> Z -> dirt) := flat_map (fun m => map (fun n => f m n) pm) pm in
  map (fun n => (n, 0, 0)%Z) pm
  ++ (if Nat.leb 2 dim then map (fun n => (0, n, 0)%Z) pm else [])
  ++ (if Nat.eqb dim 3 then map (fun n => (0, 0, n)%Z) pm else [])
  ++ (if Nat.leb 2 dim then pm2 (fun m n => (n, m, 0)%Z) else [])
  ++ (if Nat.eqb dim 3 then pm2 (fun m n => (n, 0, m)%Z) ++ pm2 (fun m n => (0, n, m)%Z)
        ++ flat_map (fun l => pm2 (fun m n => (n, m, l)%Z)) pm else []).
Definition nz (o : Z) : nat := if Z.eqb o 0 then 0 else 1.
Definition dtype (o : dirt) : ctype := let '(o1, o2, o3) := o in match nz o1 + nz o2 + nz o3 with 1 => face | 2 => edge | _ => corner end.
(** How many finer neighbours meet the block in a direction: bounds of the f1 and f2 loops. *)
Definition cnt1 (dim : nat) (ml : bool) (o : dirt) : nat :=
  let '(_, _, o3) := o in match dtype o with face => nf1 dim ml | edge => if Z.eqb o3 0 then nf2 dim ml else nf1 dim ml | corner => 1 end.
Definition cnt2 (dim : nat) (ml : bool) (o : dirt) : nat := match dtype o with face => nf2 dim ml | _ => 1 end.

(** block_bcs at a face of the block; src/mesh/mesh.cpp (SetBlockSizeAndBoundaries): mesh_bcs at the edge of the domain. *)
Definition at_face (g : grid) (l : loc) (d : nat) (o : Z) : bool :=
  let x := match d with 0 => lx1 l | 1 => lx2 l | _ => lx3 l end in
  (Z.eqb o (-1) && Z.eqb x 0) || (Z.eqb o 1 && Z.eqb x (fmax g d (level l) - 1)).
Definition bpolar (g : grid) (l : loc) (o2 : Z) : bool := at_face g l 1 o2 && is_polar (gbc g 1 (Z.eqb o2 1)).
Definition bshear (g : grid) (l : loc) (o1 : Z) : bool := at_face g l 0 o1 && match gbc g 0 (Z.eqb o1 1) with BShear => true | _ => false end.

(** myfx1.. 307-309 and myox1.. 310-312. *)
Definition myf (x : Z) : Z := if Z.odd x then 1%Z else 0%Z.
Definition myo (x : Z) : Z := (myf x * 2 - 1)%Z.
(** The tangential directions of a neighbour, in the order in which f1 and f2 are passed to GetLeaf and the block's own halves
    to FindBufferID: x1 face (x2, x3), x2 face (x1, x3), x3 face (x1, x2), x1x2 edge x3, x1x3 edge x2, x2x3 edge x1. *)
Definition sub1 (o : dirt) (h1 h2 h3 : Z) : Z :=
  let '(o1, o2, o3) := o in if Z.eqb o1 0 then h1 else if Z.eqb o2 0 then h2 else if Z.eqb o3 0 then h3 else 0%Z.
Definition sub2 (o : dirt) (h1 h2 h3 : Z) : Z :=
  match dtype o with face => let '(o1, o2, o3) := o in if Z.eqb o3 0 then h3 else h2 | _ => 0%Z end.
(** GetLeaf(ox1, ox2, ox3), src/mesh/meshblock_tree.hpp 43-44: in a displaced direction the child facing the block
    (ff = 1 - (o + 1)/2, mirrored across a pole), in a tangential one the child f. *)
Definition leafbit (o : Z) (flip : bool) (f : Z) : nat :=
  if Z.eqb o 0 then (if Z.eqb f 0 then 0 else 1) else if xorb (Z.eqb o (-1)) flip then 1 else 0.
Definition getleaf (b : loc) (o : dirt) (flip : bool) (f1 f2 : Z) : loc :=
  let '(o1, o2, o3) := o in
  child b (leafbit o1 false f1 + 2 * leafbit o2 flip (if Z.eqb o1 0 then f2 else f1)
           + 4 * leafbit o3 false (if Z.eqb o1 0 || Z.eqb o2 0 then f2 else f1)).

(** One direction; the bodies of the seven loops differ only in the handling of poles: for a neighbour at another level the
    mirroring is applied on x1x2 edges and corners only. *)
Fixpoint seqo {A} (l : list (option A)) : option (list A) :=
  match l with [] => Some [] | None :: _ => None | Some x :: l => match seqo l with None => None | Some r => Some (x :: r) end end.
Definition direction (g : grid) (ml : bool) (t : tree) (l : loc) (bid : nat) (o : dirt) : option (list nblock) :=
  let '(o1, o2, o3) := o in
  let dim := gdim g in
  let pol := bpolar g l o2 in
  let polx := pol && negb (Z.eqb o1 0) in
  let opp (flip : bool) := if flip then o2 else (- o2)%Z in
  match FindNeighbor g t l o1 o2 o3 false with
  | None => None
  | Some None => Some []
  | Some (Some b) =>
      match FindMeshBlock t b with
      | Null => None
      | Node _ _ =>
          @seqo nblock (flat_map (fun f2 => map (fun f1 =>
            let c := getleaf b o polx f1 f2 in
            match FindMeshBlock t c with
            | Leaf gid => Some (mkNB c gid o1 o2 o3 (dtype o) (bid + Z.to_nat f2 * cnt1 dim ml o + Z.to_nat f1)
                                  (FindBufferID dim ml (- o1) (opp polx) (- o3) 0 0) polx false f1 f2)
            | _ => None          (* gid -1 or null pointer *)
            end) (upto (cnt1 dim ml o))) (upto (cnt2 dim ml o)))
      | Leaf gid =>
          if Nat.eqb (level b) (level l) then
            Some [mkNB b gid o1 o2 o3 (dtype o) bid (FindBufferID dim ml (- o1) (opp pol) (- o3) 0 0) pol (bshear g l o1) 0 0]
          else if match dtype o with face => true | _ => false end
                  || ((Z.eqb o1 0 || Z.eqb (myo (lx1 l)) o1) && (Z.eqb o2 0 || Z.eqb (myo (lx2 l)) o2) && (Z.eqb o3 0 || Z.eqb (myo (lx3 l)) o3)) then
            Some [mkNB b gid o1 o2 o3 (dtype o) bid
                    (FindBufferID dim ml (- o1) (opp polx) (- o3) (sub1 o (myf (lx1 l)) (myf (lx2 l)) (myf (lx3 l))) (sub2 o (myf (lx1 l)) (myf (lx2 l)) (myf (lx3 l))))
                    polx false 0 0]
          else Some []
      end
  end.
(** The whole function: the counter bufid advances by the number of slots of each direction. *)
Fixpoint search (g : grid) (ml : bool) (t : tree) (l : loc) (bid : nat) (os : list dirt) : option (list nblock) :=
  match os with
  | [] => Some []
  | o :: os => match direction g ml t l bid o with
               | None => None
               | Some r => match search g ml t l (bid + cnt1 (gdim g) ml o * cnt2 (gdim g) ml o) os with None => None | Some r' => Some (r ++ r') end
               end
  end.
Definition SearchAndSetNeighbors (g : grid) (ml : bool) (t : tree) (l : loc) : option (list nblock) := search g ml t l 0 (dirs (gdim g)).

(** nblevel[k][j][i] as set by the function: -1 without neighbour, the block's own level in the centre. *)
Definition nblevel (g : grid) (t : tree) (l : loc) (o : dirt) : Z :=
  let '(o1, o2, o3) := o in
  if Z.eqb o1 0 && Z.eqb o2 0 && Z.eqb o3 0 then Z.of_nat (level l)
  else match FindNeighbor g t l o1 o2 o3 false with
       | Some (Some b) => match FindMeshBlock t b with Node _ _ => Z.of_nat (level b) + 1 | _ => Z.of_nat (level b) end
       | _ => -1
       end%Z.

(** ** CheckRefinementCondition.  [crit] is the user's criterion AMRFlag_ (None if not enrolled: ret = 0), the state is
    deref_count_; the result is the new count and refine_flag_.  [finer] says whether any nblevel exceeds the block's level. *)
Definition finer_neighbour (g : grid) (t : tree) (l : loc) : bool :=
  existsb (fun o => Z.ltb (Z.of_nat (level l)) (nblevel g t l o))
    (flat_map (fun k => flat_map (fun j => map (fun i => (i, j, k)) [-1; 0; 1]%Z) (offs g 1)) (offs g 2)).
Definition CheckRefinementCondition (lev maxlev rootlev : nat) (finer : bool) (threshold : Z) (crit : option Z) (count : Z) : Z * Z :=
  let ret := match crit with Some r => r | None => 0%Z end in
  let aret := Z.max (-1) ret in
  let count := if Z.leb 0 aret then 0%Z else count in
  if Z.ltb 0 aret then (count, if Nat.eqb lev maxlev then 0 else 1)%Z
  else if Z.ltb aret 0 then
    if Nat.eqb lev rootlev then (0, 0)%Z
    else let count := (count + 1)%Z in
         (count, if finer then 0 else if Z.leb threshold count then -1 else 0)%Z
  else (count, 0)%Z.

(** Successive checks of a block: deref_count_ starts at 0 (mesh_refinement.cpp 36), survives between checks, and is carried
    along when the block moves to another rank (amr_loadbalance.cpp 703, 1070). *)
Fixpoint checks (lev maxlev rootlev : nat) (threshold count : Z) (obs : list (option Z * bool)) : list Z :=
  match obs with
  | [] => []
  | (crit, finer) :: obs => let (count', flag) := CheckRefinementCondition lev maxlev rootlev finer threshold crit count in
                            flag :: checks lev maxlev rootlev threshold count' obs
  end.

(** ** Persistent messages of a cell-centred variable, CellCenteredBoundaryVariable::SetupPersistentMPI,
    src/bvals/cc/bvals_cc.cpp 614-716.  Not modelled: the flux messages between shearing blocks (692-708). *)
Definition bsize := (nat * nat * nat)%type.
Definition dirsize (o : dirt) (a b : nat * nat * nat) : nat :=
  let '(o1, o2, o3) := o in let '(a1, a2, a3) := a in let '(b1, b2, b3) := b in
  (if Z.eqb o1 0 then a1 else b1) * (if Z.eqb o2 0 then a2 else b2) * (if Z.eqb o3 0 then a3 else b3).
(** [ng] NGHOST, [cng] cnghost; cng2 = cng*f2, cng3 = cng*f3 (620-623). *)
Definition half (n : nat) : nat := (n + 1) / 2.
Definition sz_same (ng : nat) (nx : bsize) (o : dirt) : nat := dirsize o nx (ng, ng, ng).
Definition sz_fc (ng : nat) (nx : bsize) (o : dirt) : nat := let '(n1, n2, n3) := nx in dirsize o (half n1, half n2, half n3) (ng, ng, ng).
Definition sz_cf (dim cng : nat) (nx : bsize) (o : dirt) : nat :=
  let '(n1, n2, n3) := nx in let c2 := if Nat.leb 2 dim then cng else 0 in let c3 := if Nat.eqb dim 3 then cng else 0 in
  dirsize o (half n1 + cng, half n2 + c2, half n3 + c3) (cng, c2, c3).
Definition n_dir (e : nblock) : dirt := (n_o1 e, n_o2 e, n_o3 e).
(** Number of values sent to / expected from a neighbour by a block of level [lev] (627-648). *)
Definition cc_ssize (dim ng cng : nat) (nx : bsize) (nvar lev : nat) (e : nblock) : option nat :=
  Some ((if Nat.eqb (level (n_loc e)) lev then sz_same ng nx (n_dir e) else if Nat.ltb (level (n_loc e)) lev then sz_fc ng nx (n_dir e) else sz_cf dim cng nx (n_dir e)) * nvar).
Definition cc_rsize (dim ng cng : nat) (nx : bsize) (nvar lev : nat) (e : nblock) : option nat :=
  Some ((if Nat.eqb (level (n_loc e)) lev then sz_same ng nx (n_dir e) else if Nat.ltb (level (n_loc e)) lev then sz_cf dim cng nx (n_dir e) else sz_fc ng nx (n_dir e)) * nvar).
(** Flux correction (666-690): faces only, from the finer to the coarser block. *)
Definition fl_size (nx : bsize) (nvar : nat) (e : nblock) : nat :=
  let '(n1, n2, n3) := nx in
  (if negb (Z.eqb (n_o1 e) 0) then half n2 * half n3 else if negb (Z.eqb (n_o2 e) 0) then half n1 * half n3 else half n1 * half n2) * nvar.
Definition fl_ssize (nx : bsize) (nvar lev : nat) (e : nblock) : option nat :=
  match n_type e with face => if Nat.ltb (level (n_loc e)) lev then Some (fl_size nx nvar e) else None | _ => None end.
Definition fl_rsize (nx : bsize) (nvar lev : nat) (e : nblock) : option nat :=
  match n_type e with face => if Nat.ltb lev (level (n_loc e)) then Some (fl_size nx nvar e) else None | _ => None end.

(** A message: the other rank, the block and slot it is for, its tag and length. *)
Record bmsg := mkBM { bm_peer : nat; bm_gid : nat; bm_slot : nat; bm_tag : N; bm_size : nat }.
Definition nbrs (g : grid) (ml : bool) (t : tree) (l : loc) : list nblock := match SearchAndSetNeighbors g ml t l with Some ns => ns | None => [] end.
(** nslist[rank]; snb.lid = gid - nslist[ranklist[gid]]. *)
Definition nslist (tbl : list (nat * nat)) (r : nat) : nat := fst (nth r tbl (0, 0)).
Definition bv_sends (g : grid) (ml : bool) (t : tree) (rl : list nat) (tbl : list (nat * nat)) (ssz : nat -> nblock -> option nat) (phys : N) (me : nat) : list bmsg :=
  let bl := map fst (leaves t rootloc) in
  flat_map (fun i => let l := nth i bl rootloc in
    flat_map (fun e => let gid := Z.to_nat (n_gid e) in let r := at_ rl gid in
      if Nat.eqb r me then [] else match ssz (level l) e, n_target e with
        | Some n, Some s => [mkBM r gid s (CreateBvalsMPITag (N.of_nat (gid - nslist tbl r)) (N.of_nat s) phys) n] | _, _ => [] end) (nbrs g ml t l)) (owned tbl me).
Definition bv_recvs (g : grid) (ml : bool) (t : tree) (rl : list nat) (tbl : list (nat * nat)) (rsz : nat -> nblock -> option nat) (phys : N) (me : nat) : list bmsg :=
  let bl := map fst (leaves t rootloc) in
  flat_map (fun i => let l := nth i bl rootloc in
    flat_map (fun e => let r := at_ rl (Z.to_nat (n_gid e)) in
      if Nat.eqb r me then [] else match rsz (level l) e with
        | Some n => [mkBM r i (n_bufid e) (CreateBvalsMPITag (N.of_nat (i - nslist tbl me)) (N.of_nat (n_bufid e)) phys) n] | None => [] end) (nbrs g ml t l)) (owned tbl me).
