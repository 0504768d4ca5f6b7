(** Packing of array regions into message buffers, src/utils/buffer_utils.cpp, and the messages that move a MeshBlock to another
    rank or level, src/mesh/mesh.cpp and src/mesh/amr_loadbalance.cpp. *)
From Coq Require Import List Arith ZArith Bool.
From Verif Require Import Loc Arr_Model.
Import ListNotations.
Local Open Scope Z_scope.

(** for (int i=a; i<=b; ++i) *)
Fixpoint loop {S} (n : nat) (i : Z) (f : Z -> S -> S) (s : S) : S := match n with O => s | Datatypes.S n => loop n (i + 1) f (f i s) end.
Definition for_ {S} (a b : Z) (f : Z -> S -> S) (s : S) : S := loop (Z.to_nat (b - a + 1)) a f s.
(** Storage of one array, or a buffer. *)
Definition mem (A : Type) := Z -> A.
Definition upd {A} (m : mem A) (p : Z) (v : A) : mem A := fun q => if Z.eqb q p then v else m q.

(** PackData, buffer_utils.cpp 25-75: the state is the buffer and [offset]. *)
Definition PackData5 {A} (D : dims) (src : mem A) (sn en sm em si ei sj ej sk ek : Z) (s : mem A * Z) : mem A * Z :=
  for_ sn en (fun n => for_ sk ek (fun k => for_ sj ej (fun j => for_ si ei (fun i => for_ sm em (fun m s =>
    (upd (fst s) (snd s) (src (at5 D n k j i m)), snd s + 1)))))) s.
Definition PackData4 {A} (D : dims) (src : mem A) (sn en si ei sj ej sk ek : Z) (s : mem A * Z) : mem A * Z :=
  for_ sn en (fun n => for_ sk ek (fun k => for_ sj ej (fun j => for_ si ei (fun i s =>
    (upd (fst s) (snd s) (src (at4 D n k j i)), snd s + 1))))) s.
Definition PackData3 {A} (D : dims) (src : mem A) (si ei sj ej sk ek : Z) (s : mem A * Z) : mem A * Z :=
  for_ sk ek (fun k => for_ sj ej (fun j => for_ si ei (fun i s => (upd (fst s) (snd s) (src (at3 D k j i)), snd s + 1)))) s.
(** UnpackData, 84-130: the state is the array and [offset]. *)
Definition UnpackData5 {A} (buf : mem A) (D : dims) (sn en sm em si ei sj ej sk ek : Z) (s : mem A * Z) : mem A * Z :=
  for_ sn en (fun n => for_ sk ek (fun k => for_ sj ej (fun j => for_ si ei (fun i => for_ sm em (fun m s =>
    (upd (fst s) (at5 D n k j i m) (buf (snd s)), snd s + 1)))))) s.
Definition UnpackData4 {A} (buf : mem A) (D : dims) (sn en si ei sj ej sk ek : Z) (s : mem A * Z) : mem A * Z :=
  for_ sn en (fun n => for_ sk ek (fun k => for_ sj ej (fun j => for_ si ei (fun i s =>
    (upd (fst s) (at4 D n k j i) (buf (snd s)), snd s + 1))))) s.
Definition UnpackData3 {A} (buf : mem A) (D : dims) (si ei sj ej sk ek : Z) (s : mem A * Z) : mem A * Z :=
  for_ sk ek (fun k => for_ sj ej (fun j => for_ si ei (fun i s => (upd (fst s) (at3 D k j i) (buf (snd s)), snd s + 1)))) s.

(** ** MeshBlock indices, src/mesh/meshblock.cpp 60-100 (the same in the restart constructor).  [bn1] .. is block_size.nx1 ..
    Even sizes in refined directions are enforced by mesh_refinement.cpp 41-60. *)
Record bsz := mkB { ng : Z; bn1 : Z; bn2 : Z; bn3 : Z }.
Definition act (n : Z) : bool := Z.ltb 1 n.
Definition is_ (B : bsz) : Z := ng B.
Definition ie_ (B : bsz) : Z := is_ B + bn1 B - 1.
Definition js_ (B : bsz) : Z := if act (bn2 B) then ng B else 0.
Definition je_ (B : bsz) : Z := if act (bn2 B) then js_ B + bn2 B - 1 else 0.
Definition ks_ (B : bsz) : Z := if act (bn3 B) then ng B else 0.
Definition ke_ (B : bsz) : Z := if act (bn3 B) then ks_ B + bn3 B - 1 else 0.
Definition cng (B : bsz) : Z := (ng B + 1) / 2 + 1.
Definition cis_ (B : bsz) : Z := ng B.
Definition cie_ (B : bsz) : Z := cis_ B + bn1 B / 2 - 1.
Definition cjs_ (B : bsz) : Z := if act (bn2 B) then ng B else 0.
Definition cje_ (B : bsz) : Z := if act (bn2 B) then cjs_ B + bn2 B / 2 - 1 else 0.
Definition cks_ (B : bsz) : Z := if act (bn3 B) then ng B else 0.
Definition cke_ (B : bsz) : Z := if act (bn3 B) then cks_ B + bn3 B / 2 - 1 else 0.
(** Mesh::f2, f3: mesh.cpp 103 (dimension flags; a MeshBlock has nx2 > 1 if and only if the mesh does). *)
Definition f2 (B : bsz) : Z := if act (bn2 B) then 1 else 0.
Definition f3 (B : bsz) : Z := if act (bn3 B) then 1 else 0.

(** The variables that move with a block: number of components of each cell-centred one (vars_cc_; pvars_cc_ is the same list),
    number of angles of the radiation intensities if there are any, number of face-centred ones. *)
Record vars := mkV { ncc : list Z; nrad : option Z; nfc : nat }.
Inductive arr := Cc (n : nat) | Rad | X1f (n : nat) | X2f (n : nat) | X3f (n : nat).
(** A packed or unpacked region: array and index ranges in loop order, slowest first. *)
Definition piece := (arr * list (Z * Z))%type.
Fixpoint indexed {X} (f : nat -> X -> list piece) (i : nat) (l : list X) : list piece := match l with [] => [] | x :: l => f i x ++ indexed f (S i) l end.

(** mesh.cpp 581-607 (same in the restart constructor 1010-1040), under MPI: Real elements in the three kinds of message. *)
Definition nx4_tot (V : vars) : Z := fold_right Z.add 0 (ncc V) + match nrad V with Some n => n | None => 0 end.
Definition bssame (B : bsz) (V : vars) : Z :=
  bn1 B * bn2 B * bn3 B * nx4_tot V
  + Z.of_nat (nfc V) * ((bn1 B + 1) * bn2 B * bn3 B + bn1 B * (bn2 B + f2 B) * bn3 B + bn1 B * bn2 B * (bn3 B + f3 B)) + 1.
Definition bsf2c (B : bsz) (V : vars) : Z :=
  (bn1 B / 2) * ((bn2 B + 1) / 2) * ((bn3 B + 1) / 2) * nx4_tot V
  + Z.of_nat (nfc V) * ((bn1 B / 2 + 1) * ((bn2 B + 1) / 2) * ((bn3 B + 1) / 2) + (bn1 B / 2) * ((bn2 B + 1) / 2 + f2 B) * ((bn3 B + 1) / 2)
                        + (bn1 B / 2) * ((bn2 B + 1) / 2) * ((bn3 B + 1) / 2 + f3 B)).
Definition bsc2f (B : bsz) (V : vars) : Z :=
  (bn1 B / 2 + 2) * ((bn2 B + 1) / 2 + 2 * f2 B) * ((bn3 B + 1) / 2 + 2 * f3 B) * nx4_tot V
  + Z.of_nat (nfc V) * ((bn1 B / 2 + 1 + 2) * ((bn2 B + 1) / 2 + 2 * f2 B) * ((bn3 B + 1) / 2 + 2 * f3 B)
                        + (bn1 B / 2 + 2) * ((bn2 B + 1) / 2 + f2 B + 2 * f2 B) * ((bn3 B + 1) / 2 + 2 * f3 B)
                        + (bn1 B / 2 + 2) * ((bn2 B + 1) / 2 + 2 * f2 B) * ((bn3 B + 1) / 2 + f3 B + 2 * f3 B)).
(** The three numbers are members of Mesh that get a value only if the mesh is adaptive (mesh.cpp 574); load balancing of other
    meshes (amr_loadbalance.cpp 40-66, with loadbalancing/balancer = automatic or manual) uses bssame too. *)
Definition same_buffer (adaptive : bool) (B : bsz) (V : vars) : option Z := if adaptive then Some (bssame B V) else None.

(** PrepareSendSameLevel, amr_loadbalance.cpp 669-706; the radiation array has its angles in the fastest index and is passed to the
    4D overload as (ks, ke, 0, nu, is, ie, js, je).  The derefinement counter that follows at the final offset is the "+ 1". *)
Definition send_list (B : bsz) (V : vars) (il iu jl ju kl ku : Z) : list piece :=
  indexed (fun i n => [(Cc i, [(0, n - 1); (kl, ku); (jl, ju); (il, iu)])]) 0 (ncc V)
  ++ match nrad V with Some n => [(Rad, [(kl, ku); (jl, ju); (il, iu); (0, n - 1)])] | None => [] end
  ++ indexed (fun i _ => [(X1f i, [(kl, ku); (jl, ju); (il, iu + 1)]); (X2f i, [(kl, ku); (jl, ju + f2 B); (il, iu)]); (X3f i, [(kl, ku + f3 B); (jl, ju); (il, iu)])]) 0 (repeat tt (nfc V)).
Definition PrepareSendSameLevel (B : bsz) (V : vars) : list piece := send_list B V (is_ B) (ie_ B) (js_ B) (je_ B) (ks_ B) (ke_ B).
(** PrepareSendCoarseToFineAMR, 713-748: the part of the block's own arrays that the new finer block [l] needs. *)
Definition odd_ (x : Z) : bool := Z.odd x.
Definition PrepareSendCoarseToFineAMR (B : bsz) (V : vars) (l : loc) : list piece :=
  let (il, iu) := if odd_ (lx1 l) then (is_ B + bn1 B / 2 - 1, ie_ B + 1) else (is_ B - 1, is_ B + bn1 B / 2) in
  let (jl, ju) := if odd_ (lx2 l) then (js_ B + bn2 B / 2 - f2 B, je_ B + f2 B) else (js_ B - f2 B, js_ B + bn2 B / 2) in
  let (kl, ku) := if odd_ (lx3 l) then (ks_ B + bn3 B / 2 - f3 B, ke_ B + f3 B) else (ks_ B - f3 B, ks_ B + bn3 B / 2) in
  send_list B V il iu jl ju kl ku.
(** PrepareSendFineToCoarseAMR, 754-822: regions of the coarse buffers, filled by restriction over the same ranges. *)
Definition PrepareSendFineToCoarseAMR (B : bsz) (V : vars) : list piece := send_list B V (cis_ B) (cie_ B) (cjs_ B) (cje_ B) (cks_ B) (cke_ B).

(** FinishRecvSameLevel, 1022-1074; FinishRecvFineToCoarseAMR, 1080-1129 (into the half given by the old finer block's location
    [l]); ReceiveCoarseToFineAMR, 1135-1166 (into the coarse buffers).  Not modelled: the copies of the single transverse face of
    x2f and x3f in one and two dimensions. *)
Definition recv_list (B : bsz) (V : vars) (il iu jl ju kl ku : Z) : list piece :=
  indexed (fun i n => [(Cc i, [(0, n - 1); (kl, ku); (jl, ju); (il, iu)])]) 0 (ncc V)
  ++ match nrad V with Some n => [(Rad, [(kl, ku); (jl, ju); (il, iu); (0, n - 1)])] | None => [] end
  ++ indexed (fun i _ => [(X1f i, [(kl, ku); (jl, ju); (il, iu + 1)]); (X2f i, [(kl, ku); (jl, ju + f2 B); (il, iu)]); (X3f i, [(kl, ku + f3 B); (jl, ju); (il, iu)])]) 0 (repeat tt (nfc V)).
Definition FinishRecvSameLevel (B : bsz) (V : vars) : list piece := recv_list B V (is_ B) (ie_ B) (js_ B) (je_ B) (ks_ B) (ke_ B).
Definition FinishRecvFineToCoarseAMR (B : bsz) (V : vars) (l : loc) : list piece :=
  let (il, iu) := if odd_ (lx1 l) then (is_ B + bn1 B / 2, ie_ B) else (is_ B, is_ B + bn1 B / 2 - 1) in
  let (jl, ju) := if odd_ (lx2 l) then (js_ B + bn2 B / 2, je_ B) else (js_ B, js_ B + bn2 B / 2 - f2 B) in
  let (kl, ku) := if odd_ (lx3 l) then (ks_ B + bn3 B / 2, ke_ B) else (ks_ B, ks_ B + bn3 B / 2 - f3 B) in
  recv_list B V il iu jl ju kl ku.
Definition ReceiveCoarseToFineAMR (B : bsz) (V : vars) : list piece :=
  recv_list B V (cis_ B - 1) (cie_ B + 1) (cjs_ B - f2 B) (cje_ B + f2 B) (cks_ B - f3 B) (cke_ B + f3 B).

(** FillSameRankFineToCoarseAMR, 830-949, and FillSameRankCoarseToFineAMR, 956-1043: the same moves between two blocks of one
    rank, without message.  A copied region: array, ranges in the destination, displacement of the source indices. *)
Definition copy := (arr * list (Z * Z) * list Z)%type.
Fixpoint icopies {X} (f : nat -> X -> list copy) (i : nat) (l : list X) : list copy := match l with [] => [] | x :: l => f i x ++ icopies f (S i) l end.
Definition copy_list (B : bsz) (V : vars) (dl du el eu fl fu : Z) (di dj dk : Z) : list copy :=
  icopies (fun i n => [(Cc i, [(0, n - 1); (fl, fu); (el, eu); (dl, du)], [0; dk; dj; di])]) 0 (ncc V)
  ++ match nrad V with Some n => [(Rad, [(fl, fu); (el, eu); (dl, du); (0, n - 1)], [dk; dj; di; 0])] | None => [] end
  ++ icopies (fun i _ => [(X1f i, [(fl, fu); (el, eu); (dl, du + 1)], [dk; dj; di]); (X2f i, [(fl, fu); (el, eu + f2 B); (dl, du)], [dk; dj; di]); (X3f i, [(fl, fu + f3 B); (el, eu); (dl, du)], [dk; dj; di])]) 0 (repeat tt (nfc V)).
(** The loops run over k = kl, fk = cks; fk <= cke, and so on: the destination ranges start at il, jl, kl. *)
Definition FillSameRankFineToCoarseAMR (B : bsz) (V : vars) (l : loc) : list copy :=
  let il := is_ B + (if odd_ (lx1 l) then 1 else 0) * bn1 B / 2 in
  let jl := js_ B + (if odd_ (lx2 l) then 1 else 0) * bn2 B / 2 in
  let kl := ks_ B + (if odd_ (lx3 l) then 1 else 0) * bn3 B / 2 in
  copy_list B V il (il + (cie_ B - cis_ B)) jl (jl + (cje_ B - cjs_ B)) kl (kl + (cke_ B - cks_ B)) (cis_ B - il) (cjs_ B - jl) (cks_ B - kl).
Definition FillSameRankCoarseToFineAMR (B : bsz) (V : vars) (l : loc) : list copy :=
  let il := cis_ B - 1 in let iu := cie_ B + 1 in let jl := cjs_ B - f2 B in let ju := cje_ B + f2 B in let kl := cks_ B - f3 B in let ku := cke_ B + f3 B in
  let cis := (if odd_ (lx1 l) then 1 else 0) * bn1 B / 2 + is_ B - 1 in
  let cjs := (if odd_ (lx2 l) then 1 else 0) * bn2 B / 2 + js_ B - f2 B in
  let cks := (if odd_ (lx3 l) then 1 else 0) * bn3 B / 2 + ks_ B - f3 B in
  copy_list B V il iu jl ju kl ku (cis - il) (cjs - jl) (cks - kl).

(** ** Running the lists.  A block's arrays; [dm a] are the extents of array [a]. *)
Definition store (A : Type) := arr -> mem A.
Definition arr_eqb (a b : arr) : bool :=
  match a, b with Cc i, Cc j | X1f i, X1f j | X2f i, X2f j | X3f i, X3f j => Nat.eqb i j | Rad, Rad => true | _, _ => false end.
Definition put {A} (S : store A) (a : arr) (m : mem A) : store A := fun b => if arr_eqb b a then m else S b.
Definition pack1 {A} (dm : arr -> dims) (S : store A) (p : piece) (s : mem A * Z) : mem A * Z :=
  let (a, rs) := p in
  match rs with
  | [(sn, en); (sk, ek); (sj, ej); (si, ei)] => PackData4 (dm a) (S a) sn en si ei sj ej sk ek s
  | [(sk, ek); (sj, ej); (si, ei)] => PackData3 (dm a) (S a) si ei sj ej sk ek s
  | _ => s
  end.
Definition unpack1 {A} (dm : arr -> dims) (buf : mem A) (p : piece) (s : store A * Z) : store A * Z :=
  let (a, rs) := p in
  match rs with
  | [(sn, en); (sk, ek); (sj, ej); (si, ei)] => let (m, o) := UnpackData4 buf (dm a) sn en si ei sj ej sk ek (fst s a, snd s) in (put (fst s) a m, o)
  | [(sk, ek); (sj, ej); (si, ei)] => let (m, o) := UnpackData3 buf (dm a) si ei sj ej sk ek (fst s a, snd s) in (put (fst s) a m, o)
  | _ => s
  end.
Definition pack_all {A} (dm : arr -> dims) (S : store A) (ps : list piece) (buf : mem A) : mem A * Z := fold_left (fun s p => pack1 dm S p s) ps (buf, 0).
Definition unpack_all {A} (dm : arr -> dims) (buf : mem A) (ps : list piece) (S : store A) : store A * Z := fold_left (fun s p => unpack1 dm buf p s) ps (S, 0).
(** One copied region: the nested loops dst(..) = src(..). *)
Definition copy1 {A} (dmd dms : arr -> dims) (src : store A) (c : copy) (S : store A) : store A :=
  let '(a, rs, ds) := c in
  match rs, ds with
  | [(sn, en); (sk, ek); (sj, ej); (si, ei)], [dn; dk; dj; di] =>
      put S a (for_ sn en (fun n => for_ sk ek (fun k => for_ sj ej (fun j => for_ si ei (fun i m => upd m (at4 (dmd a) n k j i) (src a (at4 (dms a) (n + dn) (k + dk) (j + dj) (i + di))))))) (S a))
  | [(sk, ek); (sj, ej); (si, ei)], [dk; dj; di] =>
      put S a (for_ sk ek (fun k => for_ sj ej (fun j => for_ si ei (fun i m => upd m (at3 (dmd a) k j i) (src a (at3 (dms a) (k + dk) (j + dj) (i + di)))))) (S a))
  | _, _ => S
  end.
Definition copy_all {A} (dmd dms : arr -> dims) (src : store A) (cs : list copy) (S : store A) : store A := fold_left (fun s c => copy1 dmd dms src c s) cs S.

(** Extents of the arrays: meshblock.cpp 62-92 (ncells1.., ncc1..), hydro.cpp 32 and 48, radiation.cpp 70 and 81, athena.hpp 128-135, field.cpp 28
    and 42 (coarse_b_ is built with ncc1+1).  Constructors without nx4.. set them to 1. *)
Definition ncells (n : Z) (g : Z) : Z := if act n then n + 2 * g else 1.
Definition main_dims (B : bsz) (V : vars) (a : arr) : dims :=
  let n1 := bn1 B + 2 * ng B in let n2 := ncells (bn2 B) (ng B) in let n3 := ncells (bn3 B) (ng B) in
  match a with
  | Cc i => mkD n1 n2 n3 (nth i (ncc V) 0) 1 1
  | Rad => mkD (match nrad V with Some n => n | None => 0 end) n1 n2 n3 1 1
  | X1f _ => mkD (n1 + 1) n2 n3 1 1 1
  | X2f _ => mkD n1 (n2 + 1) n3 1 1 1
  | X3f _ => mkD n1 n2 (n3 + 1) 1 1 1
  end.
Definition ncc_ (n : Z) (g : Z) : Z := if act n then n / 2 + 2 * g else 1.
Definition coarse_dims (B : bsz) (V : vars) (a : arr) : dims :=
  let n1 := bn1 B / 2 + 2 * ng B in let n2 := ncc_ (bn2 B) (ng B) in let n3 := ncc_ (bn3 B) (ng B) in
  match a with
  | Cc i => mkD n1 n2 n3 (nth i (ncc V) 0) 1 1
  | Rad => mkD (match nrad V with Some n => n | None => 0 end) n1 n2 n3 1 1
  | X1f _ => mkD (n1 + 2) n2 n3 1 1 1
  | X2f _ => mkD (n1 + 1) (n2 + 1) n3 1 1 1
  | X3f _ => mkD (n1 + 1) n2 (n3 + 1) 1 1 1
  end.
