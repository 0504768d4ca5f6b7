(** C33, C34: restart files. *)
From Coq Require Import Ascii String List Arith NArith Bool Permutation Lia.
From Verif Require Import Par_Model Par_Spec Par_Proofs4 Rst_Model Rst_Spec Rst_Proofs Rst_Proofs2.
Import ListNotations.
Local Open Scope nat_scope.

(** C34.  The record of a block has the size announced in the header, whatever the buffer held before, and loading it restores every array
    of the configuration and touches no other. *)
Theorem C34_record : forall c a sz buf a0, (forall v, length (a v) = sz v) -> length buf = GetBlockSizeInBytes c sz ->
  exists r a', pack (write_order c) a buf 0 = Some r /\ length r = GetBlockSizeInBytes c sz /\ unpack (read_order c) sz r 0 a0 = Some a' /\ (forall v, kept c v -> a' v = a v) /\ (forall v, ~ kept c v -> a' v = a0 v).
Proof.
  intros c a sz buf a0 H L. pose proof (record_length c a sz H) as RL. destruct (record_read c a sz a0 H) as (a' & E & K1 & K2). exists (record c a), a'. split; [rewrite pack_ok by (change (0 + length (record c a) = length buf); rewrite RL, L; reflexivity); reflexivity|]. split; [exact RL|]. split; [exact E|]. split; [exact K1|].
  intros v N. apply K2. intros I. apply N. unfold read_order, opt in I. rewrite !in_app_iff in I.
  repeat match type of I with
  | _ \/ _ => destruct I as [I|I]
  | In _ (if ?b then _ else _) => destruct b eqn:?
  | In _ (_ ++ _) => apply in_app_iff in I
  | In _ [] => destruct I
  | In _ (_ :: _) => destruct I as [I|I]
  end; try (apply in_map_iff in I as (n & <- & I); apply in_seq in I; cbn [kept]; lia); subst v; cbn [kept]; auto.
Qed.
(** Finding: restarting a radiation run from a grey one (res_gray) is impossible with chemistry: the size check leaves out the chemistry arrays. *)
Theorem C34_gray_chemistry_refuted : forall c sz sz' , rad c = true -> scal c = true -> chem c = true -> 0 < sz HCH -> (forall v, v <> IR -> sz' v = sz v) ->
  (* [sz]: sizes of the grey run that wrote the file; the new run has the same arrays except for the radiation *)
  GetBlockSizeInBytes c sz <> GetBlockSizeInBytesGray c sz' (sz IR).
Proof.
  intros c sz sz' HR HS HC HP HE. unfold GetBlockSizeInBytes, GetBlockSizeInBytesGray. rewrite HR, HS, HC. rewrite !HE by discriminate.
  assert (E1 : map (fun n => sz' (IUser n)) (seq 0 (niu c)) = map (fun n => sz (IUser n)) (seq 0 (niu c))) by (apply map_ext; intros n; apply HE; discriminate).
  assert (E2 : map (fun n => sz' (RUser n)) (seq 0 (nru c)) = map (fun n => sz (RUser n)) (seq 0 (nru c))) by (apply map_ext; intros n; apply HE; discriminate). rewrite E1, E2. lia.
Qed.

(** C33.  The writes of all ranks are one behind the other, in some order, from the start of the file: disjoint and without gaps. *)
Theorem C33_regions : forall S c sz sbuf m junk ranks, ranks <> [] -> Forall (fun bs => bs <> []) ranks -> good_mesh S m -> good_blocks S sz (concat ranks) ->
  exists ws order e, WriteOutputFile S c sbuf m junk ranks = Some ws /\ length ws = length ranks /\ Permutation (concat ws) order /\ tile 0 order e /\ ForallOrdPairs apart order /\
  forall p, p < e -> exists w, In w order /\ fst w <= p < fst w + length (snd w).
Proof.
  intros S c sz sbuf m junk ranks H1 H2 H3 H4. destruct (writes_ok S c sz sbuf m junk ranks H1 H2 H3 H4) as (ws & ps & E & EL & P & _). exists ws, (sequential 0 ps), (0 + length (concat ps)). pose proof (sequential_tile ps 0) as T.
  split; [exact E|]. split; [exact EL|]. split; [exact P|]. split; [exact T|]. split; [exact (tile_apart _ _ _ T)|]. intros p Hp. apply (tile_cover _ _ _ T). lia.
Qed.
(** For every order in which the writes are done there is one file, and the restart procedure recovers from it the parameters, the state of the
    mesh, and for every distribution of the blocks over new ranks all blocks in their order: location, cost and arrays. *)
Theorem C33_restart : forall S c sz st m junk ranks nblist a0, sReal S = sDouble S -> ranks <> [] -> Forall (fun bs => bs <> []) ranks ->
  writable st -> no_angle st -> length (ParameterDump st) <= 11 * kBufSize + 1 -> good_mesh S m -> good_blocks S sz (concat ranks) -> fits_in c sz (length (concat ranks)) ->
  sum nblist = length (concat ranks) ->
  exists ws F, WriteOutputFile S c (ParameterDump st) m junk ranks = Some ws /\ (forall order, Permutation order (concat ws) -> forall p, write_all order p = nth_error F p) /\
  exists pos st' R rs, LoadFromFile [] F = Some (pos, st') /\ contents st' = contents st /\
    ReadHeader S F pos (map (@length _) (m_iuser m)) (map (@length _) (m_ruser m)) = Some R /\
    (r_root R, r_region R, r_time R, r_dt R, r_ncycle R, r_iuser R, r_ruser R) = (m_root m, m_region m, m_time m, m_dt m, m_ncycle m, m_iuser m, m_ruser m) /\ r_nbtotal R = length (concat ranks) /\
    r_locs R = map (fun b => (b_loc b, b_cost b)) (concat ranks) /\
    mapM (fun '(g, n) => ReadRank c sz F R a0 g n) (split_ranks 0 nblist) = Some rs /\ map (@length _) rs = nblist /\ Forall2 (same_block c) (concat ranks) (concat rs).
Proof.
  intros S c sz st m junk ranks nblist a0 ER H1 H2 W N LD HM G HF HS. destruct (writes_ok S c sz (ParameterDump st) m junk ranks H1 H2 HM G) as (ws & ps & E & _ & P & EP). set (F := layout c sz (ParameterDump st) m (concat ranks)) in *.
  exists ws, F. split; [exact E|]. split; [intros order HO p; rewrite <- EP; apply written; rewrite HO; exact P|].
  destruct (restart_header st (fixed_part m (length (concat ranks)) (GetBlockSizeInBytes c sz) ++ user_part m ++ ids (concat ranks) ++ concat (map (fun b => record c (b_arr b)) (concat ranks))) W N LD) as (st' & EH & EC).
  destruct (read_ranks_ok S c sz (ParameterDump st) m (concat ranks) a0 nblist 0 G HS) as (rs & E1 & E2 & E3).
  exists (length (ParameterDump st)), st', (header_read c sz (ParameterDump st) m (concat ranks)), rs. split; [exact EH|]. split; [exact EC|]. split; [apply (read_header_ok S); assumption|]. split; [reflexivity|]. split; [reflexivity|]. split; [reflexivity|]. split; [exact E1|]. split; [exact E2|exact E3].
Qed.
(** Finding: with single precision (sizeof(Real) < sizeof(double)) the reader takes too few bytes for the list of locations and costs and then parses beyond
    its end (undefined behaviour), for every file. *)
Theorem C33_single_precision_refuted : forall S c sz sbuf m junk ranks, sReal S < sDouble S -> ranks <> [] -> Forall (fun bs => bs <> []) ranks -> good_mesh S m -> good_blocks S sz (concat ranks) -> fits_in c sz (length (concat ranks)) ->
  exists ws F, WriteOutputFile S c sbuf m junk ranks = Some ws /\ (forall order, Permutation order (concat ws) -> forall p, write_all order p = nth_error F p) /\
  ReadHeader S F (length sbuf) (map (@length _) (m_iuser m)) (map (@length _) (m_ruser m)) = None.
Proof.
  intros S c sz sbuf m junk ranks ER H1 H2 HM G HF. destruct (writes_ok S c sz sbuf m junk ranks H1 H2 HM G) as (ws & ps & E & _ & P & EP). exists ws, (layout c sz sbuf m (concat ranks)). split; [exact E|]. split; [intros order HO p; rewrite <- EP; apply written; rewrite HO; exact P|].
  apply single; try assumption. destruct ranks as [|[|b bs] ranks]; [contradiction|inversion H2; contradiction|discriminate].
Qed.

(** Examples: double precision, MHD with scalars and a user array, three blocks written by two ranks and read by three or by one. *)
Definition ex_S : sizes := mkS 8 88 32 8.
Definition ex_c : config := mkCf false true false false false true false false 1 0.
Definition ex_sz (v : var) : nat := match v with U => 40 | B1 => 48 | B2 => 40 | B3 => 40 | SC => 8 | IUser _ => 4 | _ => 0 end.
Definition ex_m : mesh := mkM (repeat "a" 4)%char (repeat "b" 88)%char (repeat "t" 8)%char (repeat "d" 8)%char (repeat "n" 4)%char [repeat "i" 12]%char [].
Definition ex_b (x : ascii) : mblock := mkMB (repeat x 32) (repeat x 8) (fun v => repeat x (ex_sz v)).
Definition ex_ranks : list (list mblock) := [[ex_b "1"; ex_b "2"]; [ex_b "3"]]%char.
Definition ex_st : store := SetString [] (str "mesh") (str "nx1") (str "64").
Example ex_good : good_mesh ex_S ex_m /\ good_blocks ex_S ex_sz (concat ex_ranks) /\ fits_in ex_c ex_sz (length (concat ex_ranks)) /\ Forall (fun bs => bs <> []) ex_ranks.
Proof.
  split; [repeat split|]. split; [unfold ex_ranks; cbn [concat app]; repeat (apply Forall_cons; [unfold ex_b; cbn [b_loc b_cost b_arr]; split; [apply repeat_length|]; split; [apply repeat_length|]; intros v; apply repeat_length|]); apply Forall_nil|].
  split; [split; reflexivity|repeat (constructor; [discriminate|]); constructor].
Qed.
Example ex_st_good : writable ex_st /\ no_angle ex_st /\ length (ParameterDump ex_st) <= 11 * kBufSize + 1.
Proof.
  assert (W : forall cs s, (forall c, In c cs -> In c s -> False) -> without cs s) by (intros cs s H c Hc Hs; exact (H c Hc Hs)).
  split; [|split; [repeat constructor; cbn; intuition discriminate|apply Nat.leb_le; vm_compute; reflexivity]].
  split; [split; repeat constructor; cbn; tauto|]. split; [repeat constructor|]. constructor; [|constructor]. split; [split; [apply W; intros c Hc Hs; cbn in Hc, Hs; intuition (subst; discriminate)|discriminate]|]. constructor; [|constructor]. cbn [lname lvalue lcomment].
  split; [split; [apply W; intros c Hc Hs; cbn in Hc, Hs; intuition (subst; discriminate)|split; [split; discriminate|discriminate]]|]. split; [split; [apply W; intros c Hc Hs; cbn in Hc, Hs; intuition (subst; discriminate)|split; discriminate]|].
  split; [right; reflexivity|apply W; intros c Hc Hs; cbn in Hc, Hs; intuition (subst; discriminate)].
Qed.
Example ex_partitions : sum [1; 1; 1] = length (concat ex_ranks) /\ sum [3] = length (concat ex_ranks). Proof. split; reflexivity. Qed.
Example ex_kept : kept ex_c B2 /\ kept ex_c (IUser 0) /\ ~ kept ex_c W. Proof. split; [reflexivity|]. split; [cbn; lia|discriminate]. Qed.
(** Single precision: sizeof(Real) = 4, RegionSize 48 bytes. *)
Example ex_single : let S := mkS 4 48 32 8 in sReal S < sDouble S /\ good_mesh S (mkM (repeat "a" 4)%char (repeat "b" 48)%char (repeat "t" 4)%char (repeat "d" 4)%char (repeat "n" 4)%char [] []) /\ good_blocks S ex_sz (concat ex_ranks).
Proof. split; [cbn; lia|]. split; [repeat split|]. apply ex_good. Qed.
Print Assumptions C34_record. Print Assumptions C34_gray_chemistry_refuted. Print Assumptions C33_regions. Print Assumptions C33_restart. Print Assumptions C33_single_precision_refuted.
