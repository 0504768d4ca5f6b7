(** The values that blocks get when the mesh is refined or derefined: steps 5 to 7b of Mesh::RedistributeAndRefineMeshBlocks, src/mesh/amr_loadbalance.cpp 473-614, with its helpers 669-1217.
    Which message goes where is in AMR_Model (C59 shows that the messages that arrive are those sent for that block); the layout of several variables in one message is in Buf_Model.
    Here: one variable (any number of components, as in Gho_Model), its values before and after. *)
From Coq Require Import List Arith ZArith Bool Reals.
From Verif Require Import Loc AMR_Model Nbr_Model Buf_Model Fv_Model Ref_Model Gho_Model Con_Model Fgh_Model2.
Import ListNotations.
Local Open Scope Z_scope.

(** f2, f3 (1 in x1); "+1" in the direction [c] of the faces for a face field (x1f, x2f, x3f with c = 0, 1, 2; none for cells, c = 3). *)
Definition fdim (B : bsz) (d : nat) : Z := if actv B d then 1 else 0.
Definition stag (B : bsz) (c d : nat) : Z := if Nat.eqb d c && actv B d then 1 else 0.
(** (loc.lx1 & 1LL) == 1LL *)
Definition upper (l : loc) (d : nat) : bool := Z.eqb (Z.land (lx l d) 1) 1.
Definition upper1 (l : loc) (d : nat) : Z := if upper l d then 1 else 0.

(** ** Index ranges by direction *)
(** PrepareSendSameLevel, FinishRecvSameLevel: 681-696, 1037-1053. *)
Definition same_range (B : bsz) (c d : nat) : rangez := (s_ B d, e_ B d + stag B c d).
(** PrepareSendCoarseToFineAMR, 719-746. *)
Definition c2f_from (B : bsz) (c : nat) (l : loc) (d : nat) : rangez :=
  if upper l d then (s_ B d + nx_ B d / 2 - fdim B d, e_ B d + fdim B d + stag B c d) else (s_ B d - fdim B d, s_ B d + nx_ B d / 2 + stag B c d).
(** ReceiveCoarseToFineAMR, 1136-1163, and the loops of FillSameRankCoarseToFineAMR, 951-952, 967-1023. *)
Definition c2f_to (B : bsz) (c d : nat) : rangez := (cs_ B d - fdim B d, ce_ B d + fdim B d + stag B c d).
(** FillSameRankCoarseToFineAMR, 953-955: where the source indices start. *)
Definition c2f_start (B : bsz) (l : loc) (d : nat) : Z := upper1 l d * nx_ B d / 2 + s_ B d - fdim B d.
(** PrepareSendFineToCoarseAMR, 763-817. *)
Definition f2c_from (B : bsz) (c d : nat) : rangez := (cs_ B d, ce_ B d + stag B c d).
(** FinishRecvFineToCoarseAMR, 1086-1114. *)
Definition f2c_to (B : bsz) (c : nat) (l : loc) (d : nat) : rangez :=
  if upper l d then (s_ B d + nx_ B d / 2, e_ B d + stag B c d) else (s_ B d, s_ B d + nx_ B d / 2 - fdim B d + stag B c d).
(** FillSameRankFineToCoarseAMR, 830-832 and the loops 851-929. *)
Definition f2c_loop (B : bsz) (c : nat) (l : loc) (d : nat) : rangez :=
  let il := s_ B d + upper1 l d * nx_ B d / 2 in (il, il + (ce_ B d + stag B c d - cs_ B d)).

(** ** Moves *)
Section Moves.
Context {A : Type}.
(** for (k = kl, fk = ...; ...; k++, fk++) dst(nv,k,j,i) = src(nv,fk,fj,fi): ranges of the destination, first indices of the source. *)
Definition Copy (nl nu : Z) (to : nat -> rangez) (from : nat -> Z) (src dst : arr4 (A := A)) : arr4 := fun n k j i =>
  let inr (r : rangez) x := Z.leb (fst r) x && Z.leb x (snd r) in
  if inr (nl, nu) n && inr (to 2%nat) k && inr (to 1%nat) j && inr (to 0%nat) i
  then src n (k - fst (to 2%nat) + from 2%nat) (j - fst (to 1%nat) + from 1%nat) (i - fst (to 0%nat) + from 0%nat) else dst n k j i.
(** A message: packed from one region of the source, unpacked into another of the destination. *)
Definition Transfer (nl nu : Z) (from to : nat -> rangez) (src dst : arr4 (A := A)) : arr4 := Unpack (region nl nu to) (Pack src (region nl nu from)) dst.
(** [mine]: the source block is on the same rank. *)
Definition MoveF2C (B : bsz) (nl nu : Z) (c : nat) (mine : bool) (l : loc) (coarse dst : arr4 (A := A)) : arr4 :=
  if mine then Copy nl nu (f2c_loop B c l) (fun d => cs_ B d) coarse dst else Transfer nl nu (f2c_from B c) (f2c_to B c l) coarse dst.
Definition MoveC2F (B : bsz) (nl nu : Z) (c : nat) (mine : bool) (l : loc) (src coarse : arr4 (A := A)) : arr4 :=
  if mine then Copy nl nu (c2f_to B c) (c2f_start B l) src coarse else Transfer nl nu (c2f_from B c l) (c2f_to B c) src coarse.
(** 527-533: the block stays where it is; or FinishRecvSameLevel. *)
Definition MoveSame (B : bsz) (nl nu : Z) (c : nat) (mine : bool) (src dst : arr4 (A := A)) : arr4 :=
  if mine then src else Transfer nl nu (same_range B c) (same_range B c) src dst.
End Moves.

(** ** Cell-centred variables *)
(** RestrictCellCenteredValues over the whole block, 763-767 and 843-847, with the old block's cell volumes; [cbuf] is its coarse buffer before. *)
Definition RestrictBlock (B : bsz) (vol : arr) (v cbuf : arr4 (A := R)) : arr4 := fun n => RestrictCC (block_dims B) (coarse_offs B) vol (v n) (coarse_box B 3) (cbuf n).
(** ProlongateMeshBlock, 1174-1180, with the new block's positions (coarse and fine). *)
Definition ProlongateBlock (B : bsz) (xc xf : pos) (cbuf v : arr4 (A := R)) : arr4 := fun n => ProlongateCC (block_dims B) (coarse_offs B) xc xf (coarse_box B 3) (cbuf n) (v n).
(** What new block [n] ends up with.  Values [U o] and coarse buffers [C o] of the old blocks, by old id; volumes and positions by location; [fresh], [freshc]: what the arrays of a new MeshBlock hold (538).
    A block derefined from several is filled first from those on its own rank (step 6, 541-547), then from the messages (step 7, 585-591). *)
Definition NewBlock (B : bsz) (nl nu : Z) (vol : loc -> arr) (xc xf : loc -> pos) (a : amr) (U C : nat -> arr4 (A := R)) (fresh freshc : arr4 (A := R)) (n : nat) : arr4 :=
  let on := AMR_Model.at_ (newtoold a) n in
  let oloc := locs_at (oldloc a) on in let nloc := locs_at (newloc a) n in
  let mine o := Nat.eqb (AMR_Model.at_ (ranklist a) o) (AMR_Model.at_ (newrank a) n) in
  if Nat.eqb (level oloc) (level nloc) then MoveSame B nl nu 3 (mine on) (U on) fresh
  else if Nat.ltb (level nloc) (level oloc) then
    let leaf o v := let lo := locs_at (oldloc a) o in MoveF2C B nl nu 3 (mine o) lo (RestrictBlock B (vol lo) (U o) (C o)) v in
    let leaves := map (fun j => (on + j)%nat) (seq 0 (a_nlf a)) in
    let v := fold_left (fun v o => if mine o then leaf o v else v) leaves fresh in
    fold_left (fun v o => if mine o then v else leaf o v) leaves v
  else ProlongateBlock B (xc nloc) (xf nloc) (MoveC2F B nl nu 3 (mine on) nloc (U on) freshc) fresh.
