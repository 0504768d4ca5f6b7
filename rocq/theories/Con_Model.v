(** Flux correction between the blocks of a refined mesh and the update of all blocks: src/bvals/cc/flux_correction_cc.cpp (SendFluxCorrection 171-203, ReceiveFluxCorrection 283-331) along the
    neighbour lists of src/bvals/bvals_base.cpp, then src/hydro/add_flux_divergence.cpp.  The buffers themselves are those of Fv_Model.
    Not modelled: fluxes between shearing blocks of the same level (LoadFluxBoundaryBufferSameLevel, SetFluxBoundarySameLevel), poles. *)
From Coq Require Import List Arith ZArith Bool Reals.
From Verif Require Import Loc Tags_Model Tree_Model Nbr_Model Buf_Model Gho_Model Fv_Model.
Import ListNotations.
Local Open Scope nat_scope.

(** NeighborBlock::SetNeighbor, bvals_base.cpp 54-61: the face of a face neighbour. *)
Definition face_id (e : nblock) : nat :=
  if Z.eqb (n_o1 e) (-1) then 0 else if Z.eqb (n_o1 e) 1 then 1 else if Z.eqb (n_o2 e) (-1) then 2 else if Z.eqb (n_o2 e) 1 then 3 else if Z.eqb (n_o3 e) (-1) then 4 else 5.
Definition is_face (e : nblock) : bool := match n_type e with face => true | _ => false end.
(** "if (nb.ni.type != NeighborConnect::face) break;" in both loops (175, 289). *)
Fixpoint face_loop (ns : list nblock) : list nblock := match ns with [] => [] | e :: ns => if is_face e then e :: face_loop ns else [] end.
(** The index range of a block in the notation of Fv_Model (meshblock.cpp 60-100, in Buf_Model and Gho_Model); no polar faces. *)
Definition block_dims (B : bsz) : dims := mkD (s_ B 0) (e_ B 0) (s_ B 1) (e_ B 1) (s_ B 2) (e_ B 2) false false.
(** 171-203: what the block at [l], with geometry and fluxes [G l], [F l], sends for its entry [e]; p = 0, nothing, to blocks of the same or a finer level. *)
Definition SendFlux (B : bsz) (G : loc -> geom) (F : loc -> vec) (l : loc) (e : nblock) : list R :=
  if Nat.ltb (level (n_loc e)) (level l) then LoadFlux (block_dims B) (G l) (F l) (face_id e) else [].
(** Simplification: the sender's fluxes are those it has computed, [F], even if it has meanwhile received corrections from still finer blocks; C72_send_any_time shows that this makes no difference.
    CopyFluxCorrectionBufferSameProcess or the message with that tag: what arrives for entry [e] of the block at [l] (Gho_Model.arriving for fluxes). *)
Definition flux_arriving (g : grid) (ml : bool) (t : tree) (B : bsz) (G : loc -> geom) (F : loc -> vec) (l : loc) (e : nblock) : option (list R) :=
  match SearchAndSetNeighbors g ml t (n_loc e) with
  | None => None
  | Some ns => match find (targets l (n_bufid e)) (face_loop ns) with None => None | Some e' => Some (SendFlux B G F (n_loc e) e') end
  end.
(** 283-331 for the entries [es]; each is handled once its message has arrived. *)
Fixpoint ReceiveFlux (g : grid) (ml : bool) (t : tree) (B : bsz) (G : loc -> geom) (F : loc -> vec) (l : loc) (es : list nblock) (f : vec) : option vec :=
  match es with
  | [] => Some f
  | e :: es => match flux_arriving g ml t B G F l e with
               | None => None
               | Some buf => ReceiveFlux g ml t B G F l es
                   (if Nat.ltb (level l) (level (n_loc e)) then SetFlux (block_dims B) f (face_id e) (Z.to_nat (n_f1 e)) (Z.to_nat (n_f2 e)) buf else f)
               end
  end.
