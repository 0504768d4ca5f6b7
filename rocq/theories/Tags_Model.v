(** Message tags, physics ids and buffer slots.
    Simplification: C++ [int] is unbounded here ([N] / [Z]); the values for which tags stay below a bound
    are the subject of separate theorems. *)
From Coq Require Import List Arith NArith ZArith Bool.
Import ListNotations.

(** BoundaryBase::CreateBvalsMPITag, src/bvals/bvals_base.cpp 289-291. *)
Definition CreateBvalsMPITag (lid bufid phys : N) : N :=
  N.lor (N.lor (N.shiftl lid 11) (N.shiftl bufid 5)) phys.

(** Mesh::CreateAMRMPITag, src/mesh/amr_loadbalance.cpp 1477-1480. *)
Definition CreateAMRMPITag (lid ox1 ox2 ox3 : N) : N :=
  N.lor (N.lor (N.lor (N.shiftl lid 8) (N.shiftl ox1 7)) (N.shiftl ox2 6)) (N.shiftl ox3 5).

(** Mesh::CreateFaceFieldCorrectionMPITag, src/mesh/amr_loadbalance.cpp 1490-1495. *)
Definition CreateFaceFieldCorrectionMPITag (lid face : N) : N :=
  N.lor (N.lor (N.shiftl lid 8) (N.shiftl face 5)) 1.

(** ** Buffer slots. *)
Inductive ctype := face | edge | corner.
(** NeighborIndexes, src/bvals/bvals_interfaces.hpp: offsets in {-1,0,1}, sub-positions fi1, fi2. *)
Record nidx := mkNI { ox1 : Z; ox2 : Z; ox3 : Z; fi1 : Z; fi2 : Z; nty : ctype }.

(** BoundaryBase::CreateBufferID, src/bvals/bvals_base.cpp 139-148. *)
Definition CreateBufferID (ox1 ox2 ox3 fi1 fi2 : Z) : Z :=
  Z.lor (Z.lor (Z.lor (Z.lor (Z.shiftl (ox1 + 1) 6) (Z.shiftl (ox2 + 1) 4)) (Z.shiftl (ox3 + 1) 2)) (Z.shiftl fi1 1)) fi2.

(** loops for (n=-1; n<=1; n+=2) and for (f=0; f<nf; f++) *)
Definition pm : list Z := [-1; 1]%Z.
Definition upto (n : nat) : list Z := map Z.of_nat (seq 0 n).
(** BoundaryBase::BufferID, src/bvals/bvals_base.cpp 155-253: the table ni[], in order. *)
Definition nf1 (dim : nat) (multilevel : bool) : nat := if multilevel && Nat.leb 2 dim then 2 else 1.
Definition nf2 (dim : nat) (multilevel : bool) : nat := if multilevel && Nat.leb 3 dim then 2 else 1.
Definition BufferTable (dim : nat) (multilevel : bool) : list nidx :=
  let n1 := nf1 dim multilevel in let n2 := nf2 dim multilevel in
  let faces (mk : Z -> Z -> Z -> nidx) := flat_map (fun n => flat_map (fun f2 => map (fun f1 => mk n f1 f2) (upto n1)) (upto n2)) pm in
  let edges (nf : nat) (mk : Z -> Z -> Z -> nidx) := flat_map (fun m => flat_map (fun n => map (fun f1 => mk m n f1) (upto nf)) pm) pm in
  faces (fun n f1 f2 => mkNI n 0 0 f1 f2 face)                                                   (* 163-172 *)
  ++ (if Nat.leb 2 dim then faces (fun n f1 f2 => mkNI 0 n 0 f1 f2 face) else [])                  (* 174-185 *)
  ++ (if Nat.eqb dim 3 then faces (fun n f1 f2 => mkNI 0 0 n f1 f2 face) else [])                  (* 186-198 *)
  ++ (if Nat.leb 2 dim then edges n2 (fun m n f1 => mkNI n m 0 f1 0 edge) else [])                 (* 201-212 *)
  ++ (if Nat.eqb dim 3 then
        edges n1 (fun m n f1 => mkNI n 0 m f1 0 edge)                                              (* 215-224 *)
        ++ edges n1 (fun m n f1 => mkNI 0 n m f1 0 edge)                                           (* 226-235 *)
        ++ flat_map (fun l => flat_map (fun m => map (fun n => mkNI n m l 0 0 corner) pm) pm) pm   (* 237-246 *)
      else []).
Definition bufids (dim : nat) (multilevel : bool) : list Z :=
  map (fun e => CreateBufferID (ox1 e) (ox2 e) (ox3 e) (fi1 e) (fi2 e)) (BufferTable dim multilevel).

(** BoundaryBase::FindBufferID, src/bvals/bvals_base.cpp 260-267; -1 when not found is [None]. *)
Fixpoint find_index (b : Z) (l : list Z) (i : nat) : option nat :=
  match l with [] => None | x :: l => if Z.eqb b x then Some i else find_index b l (S i) end.
Definition FindBufferID (dim : nat) (multilevel : bool) (ox1 ox2 ox3 fi1 fi2 : Z) : option nat :=
  find_index (CreateBufferID ox1 ox2 ox3 fi1 fi2) (bufids dim multilevel) 0.

(** ** Physics ids. *)
(** Compile-time and run-time options that create communicating variables. *)
Record popt := mkPO { p_mhd : bool; p_grav : bool; p_scalars : bool; p_sixray : bool;
                      p_nr : bool; p_im : bool; p_cr : bool; p_crdiff : bool; p_orbital : bool }.
Inductive pvar := PHydro | PField | PGravity | PScalars | PSixRay | PRad | PCR | PCRDiff | POrbital.
(** ids reserved per variable: bvals_cc.hpp 63, bvals_fc.hpp 53, bvals_sixray.hpp 39, bvals_orbital.hpp 50. *)
Definition max_phys_id (v : pvar) : nat :=
  match v with PField => 5 | PSixRay => 1 | POrbital => 2 | _ => 4 end.
(** One entry per variable: does it exist, and does the constructor advance the counter after it?
    MeshBlock constructors, src/mesh/meshblock.cpp 194-255 (fresh) and 390-441 (restart).  Implicit radiation
    creates its variable without advancing the counter; the restart constructor does not advance after chem radiation.
    Orbital advection advances the counter itself, src/bvals/orbital/bvals_orbital.cpp 49. *)
Definition ctor (restart : bool) (o : popt) : list (pvar * bool * bool) :=
  [ (PHydro, true, true); (PField, p_mhd o, true); (PGravity, p_grav o, true); (PScalars, p_scalars o, true);
    (PSixRay, p_sixray o, negb restart); (PRad, p_nr o || p_im o, p_nr o); (PCR, p_cr o, true); (PCRDiff, p_crdiff o, true);
    (POrbital, p_orbital o, true) ].
Fixpoint allocate (next : nat) (l : list (pvar * bool * bool)) : list (pvar * nat) :=
  match l with
  | [] => []
  | (v, here, adv) :: l =>
      if here then (v, next) :: allocate (if adv then next + max_phys_id v else next) l else allocate next l
  end.
(** bvars_next_phys_id_ starts at 1 (src/bvals/bvals.cpp 121). *)
Definition phys_base (restart : bool) (o : popt) : list (pvar * nat) := allocate 1 (ctor restart o).
(** The individual ids: cc_phys_id_, cc_flx, shear_cc, shear_flx (bvals_cc.cpp 68-84), fc_phys_id_, fc_flx, fc_flx_pole,
    shear_fc, shear_emf (bvals_fc.cpp 61-66, 122-123), orbital cc and fc (bvals_orbital.cpp 49-56), six-ray
    (bvals_sixray.cpp 57); offsets from the variable's first id. *)
Definition used_offsets (v : pvar) : list nat :=
  match v with
  | PField => [0; 1; 2; 3; 4]
  | PSixRay => [0]
  | POrbital => [0; 1]
  | _ => [0; 1; 2; 3]
  end.
Definition phys_ids (restart : bool) (o : popt) : list nat :=
  flat_map (fun vb => map (fun k => snd vb + k) (used_offsets (fst vb))) (phys_base restart o).
