(** Correction of the electromotive forces (EMFs) on the edges of cells that several blocks share: src/bvals/fc/flux_correction_fc.cpp and CountFineEdges, src/bvals/fc/bvals_fc.cpp 1129-1193.
    The EMFs e1, e2, e3 of a block are the components 0, 1, 2 of one array; so are the edge lengths GetEdge1Length .. (Edge1Length .. for a whole row).
    The code spells out every face and edge in one, two and three dimensions; here one definition covers them, with the ranges by direction.
    Not modelled: poles (nb.polar, LoadFluxBoundaryBufferToPolar, IsPole) and shearing boundaries; the second copy at ks+1 (js+1) of EMFs in a mesh without that direction, to which the code does the same as to the first. *)
From Coq Require Import List Arith ZArith Bool Reals.
From Verif Require Import Loc Tags_Model Tree_Model Nbr_Model Buf_Model Gho_Model Con_Model.
Import ListNotations.
Local Open Scope Z_scope.

Definition epos := (Z * Z * Z * Z)%type.
Definition emf := arr4 (A := R).
Definition dd (o : dirt) (d : nat) : Z := let '(o1, o2, o3) := o in match d with 0%nat => o1 | 1%nat => o2 | _ => o3 end.
Definition entry_dir (e : nblock) : dirt := (n_o1 e, n_o2 e, n_o3 e).
(** Loops over k, j, i for one component. *)
Definition grid3 (c : nat) (ls : nat -> list Z) : list epos :=
  flat_map (fun k => flat_map (fun j => map (fun i => (Z.of_nat c, k, j, i)) (ls 0%nat)) (ls 1%nat)) (ls 2%nat).
(** A face carries the two components along it, an edge the one. *)
Definition comps (o : dirt) : list nat := filter (fun c => Z.eqb (dd o c) 0) [0; 1; 2]%nat.

(** The range of component [c] in direction [d] on the face or edge in direction [o]: LoadFluxBoundaryBufferSameLevel 51-305, SetFluxBoundarySameLevel 712-935; "je+1" across the component, "je" along it. *)
Definition fixed (B : bsz) (o : dirt) (d : nat) : Z := if Z.ltb (dd o d) 0 then s_ B d else e_ B d + 1.
Definition whole_rng (B : bsz) (o : dirt) (c d : nat) : rangez :=
  if Z.eqb (dd o d) 0 then (s_ B d, e_ B d + (if negb (Nat.eqb d c) && actv B d then 1 else 0)) else (fixed B o d, fixed B o d).
Definition whole (B : bsz) (o : dirt) (c : nat) : list epos := grid3 c (fun d => ints (whole_rng B o c d)).
(** SetFluxBoundaryFromFiner 947-1183: the half given by fi1, fi2. *)
Definition half_rng (B : bsz) (e : nblock) (c d : nat) : rangez :=
  if Z.eqb (dd (entry_dir e) d) 0 then
    if actv B d then
      let plus := if Nat.eqb d c then 0 else 1 in
      if Z.eqb (fsel e d) 0 then (s_ B d, s_ B d + nx_ B d / 2 - 1 + plus) else (s_ B d + nx_ B d / 2, e_ B d + plus)
    else (s_ B d, e_ B d)
  else (fixed B (entry_dir e) d, fixed B (entry_dir e) d).
Definition half_of (B : bsz) (e : nblock) (c : nat) : list epos := grid3 c (fun d => ints (half_rng B e c d)).
(** LoadFluxBoundaryBufferToCoarser 315-570: every other index, "k+=2". *)
Definition evens (r : rangez) : list Z := map (fun n => fst r + 2 * Z.of_nat n) (seq 0 (Z.to_nat ((snd r - fst r) / 2 + 1))).
Definition every_other (B : bsz) (o : dirt) (c : nat) : list epos := grid3 c (fun d => evens (whole_rng B o c d)).
Definition next (c : nat) (p : epos) : epos := let '(n, k, j, i) := p in match c with 0%nat => (n, k, j, i + 1) | 1%nat => (n, k, j + 1, i) | _ => (n, k + 1, j, i) end.
(** "(e2(k,j,i)*el1 + e2(k,j+1,i)*el2)/(el1 + el2)"; a component along a direction the mesh does not have is copied. *)
Definition restrict_emf (B : bsz) (L E : emf) (c : nat) (p : epos) : R :=
  if actv B c then ((get E p * get L p + get E (next c p) * get L (next c p)) / (get L p + get L (next c p)))%R else get E p.

Definition LoadSame (B : bsz) (E : emf) (o : dirt) : list R := flat_map (fun c => map (get E) (whole B o c)) (comps o).
Definition LoadCoarser (B : bsz) (L E : emf) (o : dirt) : list R := flat_map (fun c => map (restrict_emf B L E c) (every_other B o c)) (comps o).
(** "e2(k,j,i) += buf[p++]" *)
Fixpoint Add (ps : list epos) (msg : list R) (E : emf) : emf :=
  match ps, msg with p :: ps, x :: msg => Add ps msg (put E p (get E p + x)%R) | _, _ => E end.
Definition SetSame (B : bsz) (o : dirt) (msg : list R) (E : emf) : emf := Add (flat_map (whole B o) (comps o)) msg E.
Definition SetFiner (B : bsz) (e : nblock) (msg : list R) (E : emf) : emf := Add (flat_map (half_of B e) (comps (entry_dir e))) msg E.

(** CountFineEdges: nf and fl for the block edge in direction [o] from the levels of the positions around it. *)
Definition span (o : Z) : list Z := if Z.eqb o 0 then [0] else ints (Z.max (o - 1) (-1), Z.min (o + 1) 1).
Definition around (o : dirt) : list dirt := flat_map (fun k => flat_map (fun j => map (fun i => (i, j, k)) (span (dd o 0))) (span (dd o 1))) (span (dd o 2)).
Definition count_step (nl : dirt -> Z) (st : nat * Z) (o : dirt) : nat * Z :=
  let st := if Z.ltb (snd st) (nl o) then (0%nat, snd st + 1) else st in
  if Z.eqb (nl o) (snd st) then (S (fst st), snd st) else st.
Definition count_fine (nl : dirt -> Z) (lev : nat) (o : dirt) : nat * Z := fold_left (count_step nl) (around o) (0%nat, Z.of_nat lev).
Definition edge_flag (g : grid) (t : tree) (l : loc) (o : dirt) : bool := Z.eqb (snd (count_fine (nblevel g t l) (level l) o)) (Z.of_nat (level l)).
Definition nedge_fine (g : grid) (t : tree) (l : loc) (o : dirt) : nat := fst (count_fine (nblevel g t l) (level l) o).
(** The faces 0 .. nface_-1 and the edges 0 .. nedge_-1 of a block; edge eid has the directions of SetNeighbor, bvals_base.cpp 63-81. *)
Definition face_dirs (B : bsz) : list dirt :=
  map (fun o => (o, 0, 0)) pm ++ (if actv B 1 then map (fun o => (0, o, 0)) pm else []) ++ (if actv B 2 then map (fun o => (0, 0, o)) pm else []).
Definition edge_dirs (B : bsz) : list dirt :=
  (if actv B 1 then flat_map (fun o2 => map (fun o1 => (o1, o2, 0)) pm) pm else []) ++
  (if actv B 2 then flat_map (fun o3 => map (fun o1 => (o1, 0, o3)) pm) pm ++ flat_map (fun o3 => map (fun o2 => (0, o2, o3)) pm) pm else []).

(** The EMFs of a face without those on the edges of the block ("k=ks+1 .. ke"), and in its middle ("k = ks + nx3/2"). *)
Definition inner_rng (B : bsz) (o : dirt) (c d : nat) : rangez :=
  if Z.eqb (dd o d) 0 then (if negb (Nat.eqb d c) && actv B d then s_ B d + 1 else s_ B d, e_ B d) else (fixed B o d, fixed B o d).
Definition inner (B : bsz) (o : dirt) (c : nat) : list epos := grid3 c (fun d => ints (inner_rng B o c d)).
Definition mid_rng (B : bsz) (o : dirt) (c d : nat) : rangez :=
  if Z.eqb (dd o d) 0 then if Nat.eqb d c then (s_ B d, e_ B d) else (s_ B d + nx_ B d / 2, s_ B d + nx_ B d / 2) else (fixed B o d, fixed B o d).
Definition middle (B : bsz) (o : dirt) (c : nat) : list epos := grid3 c (fun d => ints (mid_rng B o c d)).
Definition Zero (ps : list epos) (E : emf) : emf := fold_left (fun E p => put E p 0%R) ps E.
Definition Scale (x : R) (ps : list epos) (E : emf) : emf := fold_left (fun E p => put E p (get E p * x)%R) ps E.
(** The direction across both component [c] and the face [o]. *)
Definition across (o : dirt) (c : nat) : nat := match filter (fun d => Z.eqb (dd o d) 0 && negb (Nat.eqb d c)) [0; 1; 2]%nat with d :: _ => d | [] => 0%nat end.

(** ClearCoarseFluxBoundary 1213-1335. *)
Definition clear_face (g : grid) (t : tree) (B : bsz) (l : loc) (E : emf) (o : dirt) : emf :=
  if Z.ltb (Z.of_nat (level l)) (nblevel g t l o) then fold_left (fun E c => Zero (inner B o c) E) (comps o) E else E.
Definition clear_edge (g : grid) (t : tree) (B : bsz) (l : loc) (E : emf) (o : dirt) : emf :=
  if edge_flag g t l o then E else fold_left (fun E c => Zero (whole B o c) E) (comps o) E.
Definition ClearCoarse (g : grid) (t : tree) (B : bsz) (l : loc) (E : emf) : emf :=
  fold_left (clear_edge g t B l) (edge_dirs B) (fold_left (clear_face g t B l) (face_dirs B) E).
(** AverageFluxBoundary 1341-1535.  Faces on a physical boundary are skipped; their nblevel is -1, so that none of the cases applies. *)
Definition average_face (g : grid) (t : tree) (B : bsz) (l : loc) (E : emf) (o : dirt) : emf :=
  if Z.eqb (nblevel g t l o) (Z.of_nat (level l)) then fold_left (fun E c => Scale (/ 2) (inner B o c) E) (comps o) E
  else if Z.ltb (Z.of_nat (level l)) (nblevel g t l o) then fold_left (fun E c => if actv B (across o c) then Scale (/ 2) (middle B o c) E else E) (comps o) E
  else E.
Definition average_edge (g : grid) (t : tree) (B : bsz) (l : loc) (E : emf) (o : dirt) : emf :=
  if Nat.eqb (nedge_fine g t l o) 1 then E else fold_left (fun E c => Scale (/ INR (nedge_fine g t l o)) (whole B o c) E) (comps o) E.
Definition Average (g : grid) (t : tree) (B : bsz) (l : loc) (E : emf) : emf :=
  fold_left (average_edge g t B l) (edge_dirs B) (fold_left (average_face g t B l) (face_dirs B) E).

(** "if (nb.ni.type != face && nb.ni.type != edge) break;" in all loops. *)
Definition is_corner (e : nblock) : bool := match n_type e with corner => true | _ => false end.
Fixpoint emf_loop (ns : list nblock) : list nblock := match ns with [] => [] | e :: ns => if is_corner e then [] else e :: emf_loop ns end.
(** Same-level messages: across faces, and across edges that no finer block touches (632-634, 1621-1622). *)
Definition exchanged (g : grid) (t : tree) (l : loc) (e : nblock) : bool := is_face e || edge_flag g t l (entry_dir e).
(** SendFluxCorrection 624-652.  What is sent is what the block has computed: the task that receives and corrects depends on the one that sends. *)
Definition SendEmf (g : grid) (t : tree) (B : bsz) (L E : loc -> emf) (l : loc) (e : nblock) : option (list R) :=
  if Nat.eqb (level (n_loc e)) (level l) then if exchanged g t l e then Some (LoadSame B (E l) (entry_dir e)) else None
  else if Nat.eqb (S (level (n_loc e))) (level l) then Some (LoadCoarser B (L l) (E l) (entry_dir e)) else None.
(** CopyFluxCorrectionBufferSameProcess or the message with that tag; None: nothing ever arrives. *)
Definition emf_arriving (g : grid) (ml : bool) (t : tree) (B : bsz) (L E : loc -> emf) (l : loc) (e : nblock) : option (list R) :=
  match SearchAndSetNeighbors g ml t (n_loc e) with
  | None => None
  | Some ns => match find (targets l (n_bufid e)) (emf_loop ns) with None => None | Some e' => SendEmf g t B L E (n_loc e) e' end
  end.
(** ReceiveFluxCorrection 1612-1725: the entries [es] in the order in which their messages arrive; None if one of them never does. *)
Fixpoint ReceiveSame (g : grid) (ml : bool) (t : tree) (B : bsz) (L E : loc -> emf) (l : loc) (es : list nblock) (f : emf) : option emf :=
  match es with
  | [] => Some f
  | e :: es => if Nat.eqb (level (n_loc e)) (level l) && exchanged g t l e then
                 match emf_arriving g ml t B L E l e with None => None | Some buf => ReceiveSame g ml t B L E l es (SetSame B (entry_dir e) buf f) end
               else ReceiveSame g ml t B L E l es f
  end.
Fixpoint ReceiveFiner (g : grid) (ml : bool) (t : tree) (B : bsz) (L E : loc -> emf) (l : loc) (es : list nblock) (f : emf) : option emf :=
  match es with
  | [] => Some f
  | e :: es => if Nat.eqb (level (n_loc e)) (S (level l)) then
                 match emf_arriving g ml t B L E l e with None => None | Some buf => ReceiveFiner g ml t B L E l es (SetFiner B e buf f) end
               else ReceiveFiner g ml t B L E l es f
  end.
Definition ReceiveEmf (g : grid) (ml : bool) (t : tree) (B : bsz) (L E : loc -> emf) (l : loc) (es es' : list nblock) : option emf :=
  match ReceiveSame g ml t B L E l es (E l) with
  | None => None
  | Some f => match (if ml then ReceiveFiner g ml t B L E l es' (ClearCoarse g t B l f) else Some f) with
              | None => None
              | Some f => Some (Average g t B l f)
              end
  end.
