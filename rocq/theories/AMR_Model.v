(** Redistribution of blocks after refinement: Mesh::RedistributeAndRefineMeshBlocks,
    src/mesh/amr_loadbalance.cpp 351-659 (steps 1-5) and the pairing part of
    Mesh::PrepareAndSendFaceFieldCorrection, 1220-1400.
    Arrays are lists with default values for reads outside of them; message contents are represented by the
    ids of the old and the new block. *)
From Coq Require Import List Arith NArith ZArith QArith Bool.
From Verif Require Import Loc Tags_Model.
Import ListNotations.
Local Open Scope nat_scope.

Definition dloc : loc := mkLoc 0 0 0 0.
Definition locs_at (l : list loc) (n : nat) : loc := nth n l dloc.
Definition at_ (l : list nat) (n : nat) : nat := nth n l 0.

(** 367-383: oldtonew.  The array is written at the increasing position mb_idx, so it is built by appending;
    the last loop fills the remaining entries with ntot-1. *)
Fixpoint otn_loop (nlf prev n : nat) (rest : list nat) : list nat :=
  match rest with
  | [] => []
  | x :: rest =>
      (if Nat.eqb x (prev + 1) then [n]
       else if Nat.eqb x (prev + nlf) then repeat (n - 1) (nlf - 1) ++ [n]
       else []) ++ otn_loop nlf x (n + 1) rest
  end.
Definition old_to_new (nlf : nat) (newtoold : list nat) (nbtold : nat) : list nat :=
  let written := 0 :: (match newtoold with [] => [] | x :: rest => otn_loop nlf x 1 rest end) in
  written ++ repeat (length newtoold - 1) (nbtold - length written).

(** 385-400: cost of the new blocks. *)
Definition qsumn (l : list Q) : Q := fold_left Qplus l 0%Q.
Definition new_cost (nlf : nat) (oldloc newloc : list loc) (newtoold : list nat) (cost : list Q) (n : nat) : Q :=
  let on := at_ newtoold n in
  if Nat.leb (level (locs_at oldloc on)) (level (locs_at newloc n)) then nth on cost 0%Q
  else (qsumn (map (fun l => nth (on + l) cost 0%Q) (seq 0 nlf)) / inject_Z (Z.of_nat nlf))%Q.
(** 391-392: refined_ *)
Definition refined (oldloc newloc : list loc) (newtoold : list nat) : list nat :=
  filter (fun n => Nat.ltb (level (locs_at oldloc (at_ newtoold n))) (level (locs_at newloc n))) (seq 0 (length newtoold)).

(** ** Messages (steps 4 and 5). *)
Inductive mkind := Same | F2C | C2F | FFC.
Record msg := mkM { m_src : nat; m_dst : nat; m_tag : N; m_kind : mkind; m_old : nat; m_new : nat }.
Record amr := mkAMR {
  a_dim : nat; oldloc : list loc; newloc : list loc; newtoold : list nat;
  ranklist : list nat; newrank : list nat;         (* rank of each old / new block *)
  oldtbl : list (nat * nat); newtbl : list (nat * nat)   (* first block and number of blocks of each rank *)
}.
Definition a_nlf (a : amr) : nat := nleaf (a_dim a).
Definition oldtonew (a : amr) : list nat := old_to_new (a_nlf a) (newtoold a) (length (oldloc a)).
(** nslist[r] after the new load balance; gids_, gide_ of the old one. *)
Definition nslist (a : amr) (r : nat) : nat := fst (nth r (newtbl a) (0, 0)).
Definition owned (tbl : list (nat * nat)) (r : nat) : list nat := let p := nth r tbl (0, 0) in seq (fst p) (snd p).
Definition odd (x : Z) : N := if Z.eqb (Z.land x 1) 1 then 1%N else 0%N.
Definition oxtag (lid : nat) (l : loc) : N := CreateAMRMPITag (N.of_nat lid) (odd (lx1 l)) (odd (lx2 l)) (odd (lx3 l)).
Definition zerotag (lid : nat) : N := CreateAMRMPITag (N.of_nat lid) 0 0 0.

(** Step 4, 436-472: receives posted by rank [me]. *)
Definition recv_block (a : amr) (me n : nat) : list msg :=
  let on := at_ (newtoold a) n in
  let lid := n - nslist a me in
  if Nat.ltb (level (locs_at (newloc a) n)) (level (locs_at (oldloc a) on)) then
    flat_map (fun l => let r := at_ (ranklist a) (on + l) in
      if Nat.eqb r me then [] else [mkM r me (oxtag lid (locs_at (oldloc a) (on + l))) F2C (on + l) n]) (seq 0 (a_nlf a))
  else let r := at_ (ranklist a) on in
    if Nat.eqb r me then []
    else [mkM r me (zerotag lid)
            (if Nat.eqb (level (locs_at (oldloc a) on)) (level (locs_at (newloc a) n)) then Same else C2F) on n].
Definition amr_recvs (a : amr) (me : nat) : list msg := flat_map (recv_block a me) (owned (newtbl a) me).

(** Step 5, 474-517: sends posted by rank [me]. *)
Definition send_block (a : amr) (me n : nat) : list msg :=
  let nn := at_ (oldtonew a) n in
  let ol := locs_at (oldloc a) n in let nl := locs_at (newloc a) nn in
  if Nat.eqb (level nl) (level ol) then
    let r := at_ (newrank a) nn in
    if Nat.eqb r me then [] else [mkM me r (zerotag (nn - nslist a r)) Same n nn]
  else if Nat.ltb (level ol) (level nl) then
    flat_map (fun l => let r := at_ (newrank a) (nn + l) in
      if Nat.eqb r me then [] else [mkM me r (zerotag (nn + l - nslist a r)) C2F n (nn + l)]) (seq 0 (a_nlf a))
  else let r := at_ (newrank a) nn in
    if Nat.eqb r me then [] else [mkM me r (oxtag (nn - nslist a r) ol) F2C n nn].
Definition amr_sends (a : amr) (me : nat) : list msg := flat_map (send_block a me) (owned (oldtbl a) me).

(** ** Face field correction, 1220-1330: the pairs (old block i, refined new block n, face of n). *)
Record ffcgrid := mkFG { g_root : nat; g_nrb : nat -> Z; g_per : nat -> bool -> bool }.  (* directions 0,1,2; g_per d outer = that face is periodic *)
(** The neighbour of [l] on its outer side in direction d (outer within its parent), [None] if outside. *)
Definition wrap (g : ffcgrid) (d lev : nat) (x : Z) : option Z :=
  let nmax := (g_nrb g d * 2 ^ Z.of_nat (lev - g_root g))%Z in
  if Z.ltb x 0 then (if g_per g d false then Some (nmax - 1)%Z else None)
  else if Z.leb nmax x then (if g_per g d true then Some 0%Z else None)
  else Some x.
Definition outward (x : Z) : Z := (2 * Z.of_N (odd x) - 1)%Z.
Definition floc (g : ffcgrid) (d : nat) (l : loc) : option loc :=
  match d with
  | 0 => option_map (fun x => mkLoc (level l) x (lx2 l) (lx3 l)) (wrap g 0 (level l) (lx1 l + outward (lx1 l)))
  | 1 => option_map (fun x => mkLoc (level l) (lx1 l) x (lx3 l)) (wrap g 1 (level l) (lx2 l + outward (lx2 l)))
  | _ => option_map (fun x => mkLoc (level l) (lx1 l) (lx2 l) x) (wrap g 2 (level l) (lx3 l + outward (lx3 l)))
  end.
Definition lxd (d : nat) (l : loc) : Z := match d with 0 => lx1 l | 1 => lx2 l | _ => lx3 l end.
(** locmap_: old blocks above the root level; the last block with that location. *)
Fixpoint find_loc (root : nat) (l : loc) (ls : list loc) (i : nat) (acc : option nat) : option nat :=
  match ls with
  | [] => acc
  | x :: ls => find_loc root l ls (S i) (if Nat.ltb root (level x) && loc_eqb x l then Some i else acc)
  end.
Definition ffc_pairs (a : amr) (g : ffcgrid) : list (nat * nat * nat) :=
  flat_map (fun n => flat_map (fun d =>
    match floc g d (locs_at (newloc a) n) with
    | None => []
    | Some fl => match find_loc (g_root g) fl (oldloc a) 0 None with
                 | None => []
                 | Some i => [(i, n, N.to_nat (odd (lxd d (locs_at (newloc a) n))) + 2 * d)]
                 end
    end) (seq 0 (a_dim a))) (refined (oldloc a) (newloc a) (newtoold a)).
Definition ffctag (lid fc : nat) : N := CreateFaceFieldCorrectionMPITag (N.of_nat lid) (N.of_nat fc).
(** The sender keeps the opposite face (xf^1 + 2d) and sends with face^1. *)
Definition xor1 (f : nat) : nat := if Nat.odd f then f - 1 else f + 1.
Definition ffc_recvs (a : amr) (g : ffcgrid) (me : nat) : list msg :=
  flat_map (fun '(i, n, fc) =>
    if Nat.eqb (at_ (newrank a) n) me && negb (Nat.eqb (at_ (ranklist a) i) me)
    then [mkM (at_ (ranklist a) i) me (ffctag (n - nslist a (at_ (newrank a) n)) fc) FFC i n] else []) (ffc_pairs a g).
Definition ffc_sends (a : amr) (g : ffcgrid) (me : nat) : list msg :=
  flat_map (fun '(i, n, fc) =>
    let sent := xor1 fc in     (* f.face *)
    if Nat.eqb (at_ (ranklist a) i) me && negb (Nat.eqb (at_ (newrank a) n) me)
    then [mkM me (at_ (newrank a) n) (ffctag (n - nslist a (at_ (newrank a) n)) (xor1 sent)) FFC i n] else []) (ffc_pairs a g).
Definition all_recvs (a : amr) (g : ffcgrid) (me : nat) : list msg := amr_recvs a me ++ ffc_recvs a g me.
Definition all_sends (a : amr) (g : ffcgrid) (me : nat) : list msg := amr_sends a me ++ ffc_sends a g me.
