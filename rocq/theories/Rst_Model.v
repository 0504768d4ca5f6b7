(** Restart files: src/outputs/restart.cpp (RestartOutput::WriteOutputFile), src/mesh/mesh.cpp (restart constructor) and
    src/mesh/meshblock.cpp (restart constructor, GetBlockSizeInBytes).  Objects are lists of bytes ([text]). *)
From Coq Require Import Ascii List Arith NArith Bool.
From Verif Require Import Par_Model.
Import ListNotations.
Local Open Scope nat_scope.

(** int and uint64_t in memory, little-endian ([k] bytes). *)
Fixpoint enc (k : nat) (n : N) : text := match k with O => [] | S k => ascii_of_N (N.modulo n 256) :: enc k (N.div n 256) end.
Fixpoint dec (s : text) : N := match s with [] => 0%N | c :: s => (N_of_ascii c + 256 * dec s)%N end.
(** sizeof(Real), sizeof(RegionSize), sizeof(LogicalLocation), sizeof(double); sizeof(int) = 4, sizeof(IOWrapperSizeT) = 8. *)
Record sizes := mkS { sReal : nat; sRegion : nat; sLoc : nat; sDouble : nat }.

(** memcpy into, and out of, a buffer at an offset; [None]: outside of it. *)
Definition memcpy_to (buf : text) (os : nat) (bs : text) : option text :=
  if Nat.leb (os + length bs) (length buf) then Some (firstn os buf ++ bs ++ skipn (os + length bs) buf) else None.
Definition memcpy_from (buf : text) (os n : nat) : option text := if Nat.leb (os + n) (length buf) then Some (firstn n (skipn os buf)) else None.

(** ** The record of a MeshBlock *)
(** The arrays: hydro u, w, w1; faces of b; ir; u_cr; ecr; scalars s, h; six-ray ir; user arrays. *)
Inductive var := U | W | W1 | B1 | B2 | B3 | IR | UCR | ECR | SC | HCH | CIR | IUser (n : nat) | RUser (n : nat).
Definition var_eq_dec : forall a b : var, {a = b} + {a <> b}. Proof. decide equality; apply Nat.eq_dec. Defined.
(** GENERAL_RELATIVITY, MAGNETIC_FIELDS_ENABLED, NR_RADIATION_ENABLED || IM_RADIATION_ENABLED, CR_ENABLED, CRDIFFUSION_ENABLED, NSCALARS > 0,
    CHEMISTRY_ENABLED, CHEMRADIATION_ENABLED, numbers of user arrays. *)
Record config := mkCf { gr : bool; mhd : bool; rad : bool; cr : bool; crd : bool; scal : bool; chem : bool; chemrad : bool; niu : nat; nru : nat }.
Definition opt (b : bool) (l : list var) : list var := if b then l else [].
(** restart.cpp 157-233: the order of packing. *)
Definition write_order (c : config) : list var :=
  [U] ++ opt (gr c) [W; W1] ++ opt (mhd c) [B1; B2; B3] ++ opt (rad c) [IR] ++ opt (cr c) [UCR] ++ opt (crd c) [ECR] ++ opt (scal c) ([SC] ++ opt (chem c) [HCH])
  ++ opt (chemrad c) [CIR] ++ map IUser (seq 0 (niu c)) ++ map RUser (seq 0 (nru c)).
(** meshblock.cpp 446-546: the order of loading (restart_from_gray off). *)
Definition read_order (c : config) : list var :=
  [U] ++ opt (gr c) [W; W1] ++ opt (mhd c) [B1; B2; B3] ++ opt (rad c) [IR] ++ opt (cr c) [UCR] ++ opt (crd c) [ECR] ++ opt (scal c) ([SC] ++ opt (chem c) [HCH])
  ++ opt (chemrad c) [CIR] ++ map IUser (seq 0 (niu c)) ++ map RUser (seq 0 (nru c)).
Definition sum := fold_right Nat.add 0.
(** GetBlockSizeInBytes, meshblock.cpp 655-690; [sz] is GetSizeInBytes of each array. *)
Definition GetBlockSizeInBytes (c : config) (sz : var -> nat) : nat :=
  sz U + (if gr c then sz W + sz W1 else 0) + (if mhd c then sz B1 + sz B2 + sz B3 else 0) + (if scal c then sz SC + (if chem c then sz HCH else 0) else 0) + (if chemrad c then sz CIR else 0)
  + (if rad c then sz IR else 0) + (if cr c then sz UCR else 0) + (if crd c then sz ECR else 0)
  + sum (map (fun n => sz (IUser n)) (seq 0 (niu c))) + sum (map (fun n => sz (RUser n)) (seq 0 (nru c))).
(** GetBlockSizeInBytesGray, 693-735, with restart_from_gray > 0; [szg] is the size of ir_gray. *)
Definition GetBlockSizeInBytesGray (c : config) (sz : var -> nat) (szg : nat) : nat :=
  sz U + (if gr c then sz W + sz W1 else 0) + (if mhd c then sz B1 + sz B2 + sz B3 else 0) + (if scal c then sz SC else 0)
  + (if rad c then szg else 0) + (if cr c then sz UCR else 0) + (if crd c then sz ECR else 0)
  + sum (map (fun n => sz (IUser n)) (seq 0 (niu c))) + sum (map (fun n => sz (RUser n)) (seq 0 (nru c))).

Definition arrays := var -> text.
(** Packing: pdata advances by the size of each array. *)
Fixpoint pack (vs : list var) (a : arrays) (buf : text) (os : nat) : option text :=
  match vs with [] => Some buf | v :: vs => match memcpy_to buf os (a v) with Some buf => pack vs a buf (os + length (a v)) | None => None end end.
Definition setv (a : arrays) (v : var) (s : text) : arrays := fun w => if var_eq_dec v w then s else a w.
(** Loading into arrays allocated with sizes [sz]. *)
Fixpoint unpack (vs : list var) (sz : var -> nat) (buf : text) (os : nat) (a : arrays) : option arrays :=
  match vs with [] => Some a | v :: vs => match memcpy_from buf os (sz v) with Some s => unpack vs sz buf (os + sz v) (setv a v s) | None => None end end.

(** ** Writing *)
Record mblock := mkMB { b_loc : text; b_cost : text; b_arr : arrays }.
Record mesh := mkM { m_root : text; m_region : text; m_time : text; m_dt : text; m_ncycle : text; m_iuser : list text; m_ruser : list text }.
Definition write := (nat * text)%type.
Definition udsize (iu ru : list nat) : nat := sum iu + sum ru.
(** The header, 92-131: consecutive writes by rank 0. *)
Fixpoint sequential (pos : nat) (ps : list text) : list write := match ps with [] => [] | s :: ps => (pos, s) :: sequential (pos + length s) ps end.
Definition header_writes (sbuf : text) (m : mesh) (nbtotal datasize : nat) : list write :=
  sequential 0 ([sbuf; enc 4 (N.of_nat nbtotal); m_root m; m_region m; m_time m; m_dt m; m_ncycle m; enc 8 (N.of_nat datasize)] ++
    (if Nat.eqb (udsize (map (@length _) (m_iuser m)) (map (@length _) (m_ruser m))) 0 then [] else [concat (m_iuser m) ++ concat (m_ruser m)])).
Definition writer_headeroffset (S : sizes) (sbuf : text) (m : mesh) : nat :=
  length sbuf + 3 * 4 + sRegion S + 2 * sReal S + 8 + udsize (map (@length _) (m_iuser m)) (map (@length _) (m_ruser m)).
(** The data of the blocks of a rank, 152-242; one buffer is used for all of them. *)
Fixpoint data_writes (c : config) (off datasize : nat) (data : text) (bs : list mblock) : option (list write) :=
  match bs with
  | [] => Some []
  | b :: bs => match pack (write_order c) (b_arr b) data 0 with
      | Some data => match data_writes c (off + datasize) datasize data bs with Some ws => Some ((off, data) :: ws) | None => None end
      | None => None
      end
  end.
(** A rank whose first block has the number [myns] (after the header). *)
Definition rank_writes (S : sizes) (c : config) (H nbtotal myns : nat) (junk : text) (bs : list mblock) : option (list write) :=
  let listsize := sLoc S + sDouble S in
  match bs with
  | [] => None
  | b0 :: _ => let datasize := GetBlockSizeInBytes c (fun v => length (b_arr b0 v)) in
      match data_writes c (H + listsize * nbtotal + datasize * myns) datasize (firstn datasize (junk ++ repeat "000"%char datasize)) bs with
      | Some ws => Some ((H + listsize * myns, flat_map (fun b => b_loc b ++ b_cost b) bs) :: ws)
      | None => None
      end
  end.
Fixpoint all_rank_writes (S : sizes) (c : config) (H nbtotal myns : nat) (junk : nat -> text) (ranks : list (list mblock)) : option (list (list write)) :=
  match ranks with
  | [] => Some []
  | bs :: ranks => match rank_writes S c H nbtotal myns (junk myns) bs, all_rank_writes S c H nbtotal (myns + length bs) junk ranks with Some w, Some ws => Some (w :: ws) | _, _ => None end
  end.
(** The writes of each rank; rank 0 starts with the header.  nslist are the partial sums of nblist (C18, LB_Props). *)
Definition WriteOutputFile (S : sizes) (c : config) (sbuf : text) (m : mesh) (junk : nat -> text) (ranks : list (list mblock)) : option (list (list write)) :=
  let nbtotal := length (concat ranks) in
  match all_rank_writes S c (writer_headeroffset S sbuf m) nbtotal 0 junk ranks, ranks with
  | Some (w :: ws), (b0 :: _) :: _ => Some ((header_writes sbuf m nbtotal (GetBlockSizeInBytes c (fun v => length (b_arr b0 v))) ++ w) :: ws)
  | _, _ => None
  end.
(** The file: a byte at each position written. *)
Definition file := nat -> option ascii.
Definition write_at (f : file) (w : write) : file := fun p => if Nat.leb (fst w) p && Nat.ltb p (fst w + length (snd w)) then nth_error (snd w) (p - fst w) else f p.
Definition write_all (ws : list write) : file := fold_left write_at ws (fun _ => None).

(** ** Reading *)
Definition read_at (f : text) (off n : nat) : option text := memcpy_from f off n.
Record restart := mkR { r_nbtotal : nat; r_root : text; r_region : text; r_time : text; r_dt : text; r_ncycle : text; r_datasize : nat; r_iuser : list text; r_ruser : list text;
  r_locs : list (text * text); r_offset : nat }.
(** Consecutive pieces of given sizes. *)
Fixpoint pieces (buf : text) (os : nat) (ns : list nat) : option (list text) :=
  match ns with [] => Some [] | n :: ns => match memcpy_from buf os n, pieces buf (os + n) ns with Some s, Some ss => Some (s :: ss) | _, _ => None end end.
(** The list of locations and costs, 852-862. *)
Fixpoint idlist (S : sizes) (buf : text) (os : nat) (n : nat) : option (list (text * text)) :=
  match n with
  | O => Some []
  | Datatypes.S n => match memcpy_from buf os (sLoc S), memcpy_from buf (os + sLoc S) (sDouble S), idlist S buf (os + sLoc S + sDouble S) n with Some l, Some c, Some r => Some ((l, c) :: r) | _, _, _ => None end
  end.
(** mesh.cpp 706-868.  [pos] is the position after the parameters, [iu] and [ru] the sizes of the user arrays set up by InitUserMeshData. *)
Definition ReadHeader (S : sizes) (f : text) (pos : nat) (iu ru : list nat) : option restart :=
  let headersize := 4 * 3 + sReal S * 2 + sRegion S + 8 in
  match read_at f pos headersize with
  | None => None
  | Some hd =>
      match pieces hd 0 [4; 4; sRegion S; sReal S; sReal S; 4; 8] with
      | Some [nb; root; region; time; dt; ncycle; ds] =>
          let nbtotal := N.to_nat (dec nb) in
          let ud := udsize iu ru in
          let listsize := sLoc S + sReal S in
          match read_at f (pos + headersize) ud with
          | None => None
          | Some u =>
              match pieces u 0 (iu ++ ru), read_at f (pos + headersize + ud) (listsize * nbtotal) with
              | Some us, Some ids =>
                  match idlist S ids 0 nbtotal with
                  | Some l => Some (mkR nbtotal root region time dt ncycle (N.to_nat (dec ds)) (firstn (length iu) us) (skipn (length iu) us) l (pos + headersize + ud + listsize * nbtotal))
                  | None => None
                  end
              | _, _ => None
              end
          end
      | _ => None
      end
  end.
(** mesh.cpp 948-972 and the MeshBlock constructor: block [i]; [a0] are its arrays as allocated. *)
Definition ReadBlock (c : config) (sz : var -> nat) (f : text) (R : restart) (a0 : arrays) (i : nat) : option mblock :=
  match nth_error (r_locs R) i, read_at f (r_offset R + i * r_datasize R) (r_datasize R) with
  | Some (l, k), Some mbdata => match unpack (read_order c) sz mbdata 0 a0 with Some a => Some (mkMB l k a) | None => None end
  | _, _ => None
  end.
Fixpoint mapM {A B : Type} (g : A -> option B) (l : list A) : option (list B) :=
  match l with [] => Some [] | x :: l => match g x, mapM g l with Some y, Some r => Some (y :: r) | _, _ => None end end.
(** A rank with blocks gids to gids + n - 1; datasize is checked against the rank's own size, 974-990. *)
Definition ReadRank (c : config) (sz : var -> nat) (f : text) (R : restart) (a0 : arrays) (gids n : nat) : option (list mblock) :=
  match mapM (ReadBlock c sz f R a0) (seq gids n) with Some bs => if Nat.eqb (r_datasize R) (GetBlockSizeInBytes c sz) then Some bs else None | None => None end.
