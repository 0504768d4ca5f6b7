(** Restart files: reading what was written. *)
From Coq Require Import Ascii List Arith NArith Bool Permutation Lia.
From Verif Require Import Par_Model Par_Spec Rst_Model Rst_Spec Rst_Proofs.
Import ListNotations.
Local Open Scope nat_scope.

(** The parts of the file in order. *)
Definition user_part (m : mesh) : text := concat (m_iuser m) ++ concat (m_ruser m).
Definition fixed_part (m : mesh) (nb ds : nat) : text := enc 4 (N.of_nat nb) ++ m_root m ++ m_region m ++ m_time m ++ m_dt m ++ m_ncycle m ++ enc 8 (N.of_nat ds).
Definition layout (c : config) (sz : var -> nat) (sbuf : text) (m : mesh) (bs : list mblock) : text :=
  sbuf ++ fixed_part m (length bs) (GetBlockSizeInBytes c sz) ++ user_part m ++ ids bs ++ concat (map (fun b => record c (b_arr b)) bs).
Lemma length_concat : forall l : list text, length (concat l) = sum (map (@length _) l).
Proof. induction l as [|s l IH]; [reflexivity|]. cbn [concat map sum fold_right]. rewrite app_length, IH. reflexivity. Qed.
Lemma user_length : forall m, length (user_part m) = udsize (map (@length _) (m_iuser m)) (map (@length _) (m_ruser m)).
Proof. intros m. unfold user_part, udsize. rewrite app_length, !length_concat. reflexivity. Qed.
Lemma ids_concat : forall ranks, concat (map ids ranks) = ids (concat ranks).
Proof. induction ranks as [|r ranks IH]; [reflexivity|]. cbn [map concat]. rewrite IH. unfold ids. rewrite flat_map_app. reflexivity. Qed.
Lemma writes_ok : forall S c sz sbuf m junk ranks, ranks <> [] -> Forall (fun bs => bs <> []) ranks -> good_mesh S m -> good_blocks S sz (concat ranks) ->
  exists ws ps, WriteOutputFile S c sbuf m junk ranks = Some ws /\ length ws = length ranks /\ Permutation (concat ws) (sequential 0 ps) /\ concat ps = layout c sz sbuf m (concat ranks).
Proof.
  intros S c sz sbuf m junk ranks NE HN (L1 & L2 & L3 & L4 & L5) G. unfold WriteOutputFile. set (H := writer_headeroffset S sbuf m). set (nb := length (concat ranks)).
  destruct (ranks_ok S c sz H nb junk ranks 0 HN G) as (ws & E & EL & P). rewrite E. destruct ranks as [|[|b0 bs] ranks]; [contradiction|inversion HN; contradiction|]. destruct ws as [|w ws]; [discriminate EL|].
  assert (ES : GetBlockSizeInBytes c (fun v => length (b_arr b0 v)) = GetBlockSizeInBytes c sz) by (apply GBS_ext; inversion G; tauto). rewrite ES.
  set (hp := [sbuf; enc 4 (N.of_nat nb); m_root m; m_region m; m_time m; m_dt m; m_ncycle m; enc 8 (N.of_nat (GetBlockSizeInBytes c sz))] ++ (if Nat.eqb (udsize (map (@length _) (m_iuser m)) (map (@length _) (m_ruser m))) 0 then [] else [concat (m_iuser m) ++ concat (m_ruser m)])).
  assert (EU : concat hp = sbuf ++ fixed_part m nb (GetBlockSizeInBytes c sz) ++ user_part m).
  { unfold hp. rewrite concat_app. cbn [concat]. unfold fixed_part. rewrite <- !app_assoc. cbn [app]. do 8 f_equal. rewrite <- user_length. unfold user_part. destruct (Nat.eqb_spec (length (concat (m_iuser m) ++ concat (m_ruser m))) 0) as [Z|Z]; cbn [concat]; [apply length_zero_iff_nil in Z; rewrite Z; reflexivity|apply app_nil_r]. }
  assert (EH : length (concat hp) = H). { rewrite EU. unfold H, writer_headeroffset, fixed_part. rewrite <- user_length, !app_length, !enc_length, L1, L2, L3, L4, L5. lia. }
  exists ((header_writes sbuf m nb (GetBlockSizeInBytes c sz) ++ w) :: ws), (hp ++ map ids ((b0 :: bs) :: ranks) ++ map (fun b => record c (b_arr b)) (concat ((b0 :: bs) :: ranks))).
  split; [reflexivity|]. split; [exact EL|]. split.
  - rewrite !sequential_app, EH, ids_concat. cbn [Nat.add]. rewrite (ids_length S sz _ G). fold nb. cbn [concat]. rewrite <- app_assoc. change (header_writes sbuf m nb (GetBlockSizeInBytes c sz)) with (sequential 0 hp). apply Permutation_app_head.
    rewrite !Nat.mul_0_r, !Nat.add_0_r in P. exact P.
  - rewrite !concat_app, ids_concat, EU. unfold layout. fold nb. rewrite <- !app_assoc. reflexivity.
Qed.
(** ** Reading *)
Lemma pieces_ok : forall ss A C, pieces (A ++ concat ss ++ C) (length A) (map (@length _) ss) = Some ss.
Proof.
  induction ss as [|s ss IH]; intros A C; [reflexivity|]. cbn [map pieces concat]. rewrite (from_at _ A s (concat ss ++ C)) by (rewrite <- ?app_assoc; reflexivity). specialize (IH (A ++ s) C). rewrite app_length, <- !app_assoc in IH. rewrite <- app_assoc, IH. reflexivity.
Qed.
Lemma idlist_ok : forall S sz bs A C, good_blocks S sz bs -> idlist S (A ++ ids bs ++ C) (length A) (length bs) = Some (map (fun b => (b_loc b, b_cost b)) bs).
Proof.
  intros S sz bs A C G. revert A. induction G as [|b bs (L1 & L2 & _) G IH]; intros A; [reflexivity|]. cbn [length idlist map]. change (ids (b :: bs)) with ((b_loc b ++ b_cost b) ++ ids bs).
  rewrite (from_at _ A (b_loc b) (b_cost b ++ ids bs ++ C)) by (rewrite <- ?app_assoc, ?L1; reflexivity). rewrite (from_at _ (A ++ b_loc b) (b_cost b) (ids bs ++ C)) by (rewrite ?app_length, <- ?app_assoc, ?L1, ?L2; reflexivity).
  specialize (IH (A ++ b_loc b ++ b_cost b)). rewrite !app_length, L1, L2, Nat.add_assoc, <- !app_assoc in IH. rewrite <- !app_assoc, IH. reflexivity.
Qed.
Definition header_read (c : config) (sz : var -> nat) (sbuf : text) (m : mesh) (bs : list mblock) : restart :=
  mkR (length bs) (m_root m) (m_region m) (m_time m) (m_dt m) (m_ncycle m) (GetBlockSizeInBytes c sz) (m_iuser m) (m_ruser m) (map (fun b => (b_loc b, b_cost b)) bs)
    (length sbuf + length (fixed_part m (length bs) (GetBlockSizeInBytes c sz)) + length (user_part m) + length (ids bs)).
Lemma read_header_ok : forall S c sz sbuf m bs, sReal S = sDouble S -> good_mesh S m -> good_blocks S sz bs -> fits_in c sz (length bs) ->
  ReadHeader S (layout c sz sbuf m bs) (length sbuf) (map (@length _) (m_iuser m)) (map (@length _) (m_ruser m)) = Some (header_read c sz sbuf m bs).
Proof.
  intros S c sz sbuf m bs ER (L1 & L2 & L3 & L4 & L5) G (F1 & F2). unfold ReadHeader, read_at. set (ds := GetBlockSizeInBytes c sz) in *. set (nb := length bs) in *. set (fp := fixed_part m nb ds). set (D := concat (map (fun b => record c (b_arr b)) bs)).
  assert (LF : length fp = 4 * 3 + sReal S * 2 + sRegion S + 8) by (unfold fp, fixed_part; rewrite !app_length, !enc_length, L1, L2, L3, L4, L5; lia).
  assert (EL : layout c sz sbuf m bs = sbuf ++ fp ++ user_part m ++ ids bs ++ D) by reflexivity. rewrite EL. clear EL.
  rewrite (from_at _ sbuf fp (user_part m ++ ids bs ++ D)) by (try reflexivity; symmetry; exact LF).
  pose proof (pieces_ok [enc 4 (N.of_nat nb); m_root m; m_region m; m_time m; m_dt m; m_ncycle m; enc 8 (N.of_nat ds)] [] []) as HP. cbn [map concat app length] in HP. rewrite !app_nil_r, !enc_length, L1, L2, L3, L4, L5 in HP. fold (fixed_part m nb ds) in HP. fold fp in HP. rewrite HP. clear HP.
  rewrite !dec_enc by assumption. rewrite !Nnat.Nat2N.id. rewrite <- user_length.
  rewrite (from_at _ (sbuf ++ fp) (user_part m) (ids bs ++ D)) by (rewrite ?app_length, <- ?app_assoc; lia || reflexivity).
  pose proof (pieces_ok (m_iuser m ++ m_ruser m) [] []) as HP. cbn [app length] in HP. rewrite app_nil_r, concat_app, map_app in HP. fold (user_part m) in HP. match goal with |- context [pieces ?a ?b ?c] => replace (pieces a b c) with (Some (m_iuser m ++ m_ruser m)) by (symmetry; exact HP) end. clear HP.
  rewrite ER. rewrite (from_at _ (sbuf ++ fp ++ user_part m) (ids bs) D) by (rewrite ?(ids_length S sz _ G), ?app_length, <- ?app_assoc; unfold nb; lia || reflexivity).
  pose proof (idlist_ok S sz bs [] [] G) as HI. cbn [app length] in HI. rewrite app_nil_r in HI. fold nb in HI. rewrite HI. unfold header_read. fold nb ds. fold fp. rewrite map_length, (ids_length S sz _ G). fold nb. f_equal. f_equal.
  - rewrite firstn_app, firstn_all, Nat.sub_diag. cbn [firstn]. apply app_nil_r.
  - rewrite skipn_app, skipn_all, Nat.sub_diag. reflexivity.
  - rewrite LF, ER. lia.
Qed.
Lemma nth_split3 : forall (A : Type) (l : list A) i b, nth_error l i = Some b -> exists p s, l = p ++ b :: s /\ length p = i.
Proof. intros A l i b H. apply nth_error_split in H as (p & s & -> & <-). exists p, s. split; reflexivity. Qed.
Lemma records_length : forall c sz S bs, good_blocks S sz bs -> length (concat (map (fun b => record c (b_arr b)) bs)) = length bs * GetBlockSizeInBytes c sz.
Proof. intros c sz S bs G. induction G as [|b bs (_ & _ & L) G IH]; [reflexivity|]. cbn [map concat length]. rewrite app_length, IH, (record_length c _ sz L). lia. Qed.
Lemma read_block_ok : forall S c sz sbuf m bs a0 i b, good_blocks S sz bs -> nth_error bs i = Some b ->
  exists b', ReadBlock c sz (layout c sz sbuf m bs) (header_read c sz sbuf m bs) a0 i = Some b' /\ same_block c b b'.
Proof.
  intros S c sz sbuf m bs a0 i b G H. unfold ReadBlock, header_read. cbn [r_locs r_offset r_datasize]. rewrite nth_error_map, H. cbn [option_map]. destruct (nth_split3 _ _ _ _ H) as (p & s & EB & LP).
  assert (Gp : good_blocks S sz p /\ (forall v, length (b_arr b v) = sz v)). { rewrite EB in G. apply Forall_app in G as (G1 & G2). inversion G2. tauto. } destruct Gp as (Gp & Lb).
  unfold read_at. rewrite (from_at _ (sbuf ++ fixed_part m (length bs) (GetBlockSizeInBytes c sz) ++ user_part m ++ ids bs ++ concat (map (fun b => record c (b_arr b)) p)) (record c (b_arr b)) (concat (map (fun b => record c (b_arr b)) s))).
  - destruct (record_read c (b_arr b) sz a0 Lb) as (a' & -> & K & _). eexists. split; [reflexivity|]. repeat split. exact K.
  - unfold layout. rewrite <- !app_assoc. do 4 f_equal. rewrite EB at 1. rewrite map_app, concat_app. cbn [map concat]. reflexivity.
  - rewrite !app_length, (records_length c sz S p Gp), LP. lia.
  - symmetry. apply record_length, Lb.
Qed.
Lemma mapM_ok : forall (A B : Type) (g : A -> option B) (R : A -> B -> Prop) l, (forall x, In x l -> exists y, g x = Some y /\ R x y) -> exists r, mapM g l = Some r /\ Forall2 R l r.
Proof.
  intros A B g R l. induction l as [|x l IH]; intros H; [exists []; split; [reflexivity|constructor]|]. cbn [mapM]. destruct (H x (or_introl eq_refl)) as (y & -> & Ry). destruct IH as (r & -> & Rr); [intros z Hz; apply H; right; exact Hz|]. exists (y :: r). split; [reflexivity|constructor; assumption].
Qed.
Lemma read_rank_ok : forall S c sz sbuf m bs a0 gids n, good_blocks S sz bs -> gids + n <= length bs ->
  exists bs', ReadRank c sz (layout c sz sbuf m bs) (header_read c sz sbuf m bs) a0 gids n = Some bs' /\ Forall2 (same_block c) (firstn n (skipn gids bs)) bs'.
Proof.
  intros S c sz sbuf m bs a0 gids n G H. unfold ReadRank.
  destruct (mapM_ok _ _ (ReadBlock c sz (layout c sz sbuf m bs) (header_read c sz sbuf m bs) a0) (fun i b' => exists b, nth_error bs i = Some b /\ same_block c b b') (seq gids n)) as (r & -> & F).
  - intros i Hi. apply in_seq in Hi. destruct (nth_error bs i) as [b|] eqn:E; [|apply nth_error_None in E; lia]. destruct (read_block_ok S c sz sbuf m bs a0 i b G E) as (b' & E' & SB). exists b'. split; [exact E'|]. exists b. split; [reflexivity|exact SB].
  - change (r_datasize (header_read c sz sbuf m bs)) with (GetBlockSizeInBytes c sz). rewrite Nat.eqb_refl. exists r. split; [reflexivity|]. clear - F H. revert gids r H F. induction n as [|n IH]; intros gids r H F; cbn [seq] in F; inversion F as [|? b' ? r' (b & E & SB) F']; subst; [constructor|].
    destruct (nth_split3 _ _ _ _ E) as (p & s & -> & LP). rewrite skipn_app, skipn_all2, LP, Nat.sub_diag by lia. cbn [skipn app firstn]. constructor; [exact SB|]. specialize (IH (S gids) r' ltac:(lia) F'). replace (p ++ b :: s) with ((p ++ [b]) ++ s) in IH by (rewrite <- app_assoc; reflexivity). rewrite skipn_app, skipn_all2 in IH by (rewrite app_length; cbn [length]; lia). rewrite app_length in IH. cbn [length app] in IH. replace (S gids - (length p + 1)) with 0 in IH by lia. exact IH.
Qed.
Lemma F2_length : forall (A B : Type) (R : A -> B -> Prop) l l', Forall2 R l l' -> length l = length l'.
Proof. intros A B R l l' H. induction H; [reflexivity|cbn [length]; congruence]. Qed.
(** All ranks of the new run. *)
Lemma read_ranks_ok : forall S c sz sbuf m bs a0 nblist first, good_blocks S sz bs -> first + sum nblist = length bs ->
  exists rs, mapM (fun '(g, n) => ReadRank c sz (layout c sz sbuf m bs) (header_read c sz sbuf m bs) a0 g n) (split_ranks first nblist) = Some rs /\ map (@length _) rs = nblist /\ Forall2 (same_block c) (skipn first bs) (concat rs).
Proof.
  intros S c sz sbuf m bs a0 nblist. induction nblist as [|n nblist IH]; intros first G H; cbn [sum fold_right] in H.
  - exists []. split; [reflexivity|]. split; [reflexivity|]. rewrite skipn_all2 by lia. constructor.
  - cbn [split_ranks mapM]. change (fold_right Nat.add 0 nblist) with (sum nblist) in H. destruct (read_rank_ok S c sz sbuf m bs a0 first n G ltac:(lia)) as (r & -> & F). destruct (IH (first + n) G ltac:(lia)) as (rs & -> & EL & F'). exists (r :: rs). split; [reflexivity|]. cbn [map concat].
    assert (EN : length r = n) by (rewrite <- (F2_length _ _ _ _ _ F); apply firstn_length_le; rewrite skipn_length; lia). split; [rewrite EN, EL; reflexivity|].
    rewrite <- (firstn_skipn n (skipn first bs)). apply Forall2_app; [exact F|]. replace (skipn n (skipn first bs)) with (skipn (first + n) bs); [exact F'|]. clear. revert bs. induction first as [|f IH]; intros bs; [reflexivity|]. destruct bs as [|b bs]; [rewrite !skipn_nil; reflexivity|]. cbn [Nat.add skipn]. apply IH.
Qed.
(** With a smaller Real the list is read short and parsed beyond the buffer. *)
Lemma idlist_short : forall S buf n os, length buf < os + (sLoc S + sDouble S) * n -> n <> 0 -> idlist S buf os n = None.
Proof.
  intros S buf n. induction n as [|n IH]; intros os H N; [contradiction|]. cbn [idlist]. unfold memcpy_from at 1. destruct (Nat.leb_spec (os + sLoc S) (length buf)) as [L|L]; [|reflexivity]. unfold memcpy_from at 1. destruct (Nat.leb_spec (os + sLoc S + sDouble S) (length buf)) as [L'|L']; [|reflexivity].
  destruct n as [|n]; [lia|]. rewrite IH by (try discriminate; lia). reflexivity.
Qed.
Lemma from_length : forall f o n s, memcpy_from f o n = Some s -> length s = n.
Proof. intros f o n s H. unfold memcpy_from in H. destruct (Nat.leb_spec (o + n) (length f)) as [L|L]; [|discriminate H]. injection H as <-. apply firstn_length_le. rewrite skipn_length. lia. Qed.
Lemma single : forall S c sz sbuf m bs, sReal S < sDouble S -> bs <> [] -> good_mesh S m -> good_blocks S sz bs -> fits_in c sz (length bs) ->
  ReadHeader S (layout c sz sbuf m bs) (length sbuf) (map (@length _) (m_iuser m)) (map (@length _) (m_ruser m)) = None.
Proof.
  intros S c sz sbuf m bs ER NE (L1 & L2 & L3 & L4 & L5) G (F1 & F2). unfold ReadHeader, read_at. set (ds := GetBlockSizeInBytes c sz) in *. set (nb := length bs) in *. set (fp := fixed_part m nb ds). set (D := concat (map (fun b => record c (b_arr b)) bs)).
  assert (LF : length fp = 4 * 3 + sReal S * 2 + sRegion S + 8) by (unfold fp, fixed_part; rewrite !app_length, !enc_length, L1, L2, L3, L4, L5; lia).
  assert (EL : layout c sz sbuf m bs = sbuf ++ fp ++ user_part m ++ ids bs ++ D) by reflexivity. rewrite EL. clear EL.
  rewrite (from_at _ sbuf fp (user_part m ++ ids bs ++ D)) by (try reflexivity; symmetry; exact LF).
  pose proof (pieces_ok [enc 4 (N.of_nat nb); m_root m; m_region m; m_time m; m_dt m; m_ncycle m; enc 8 (N.of_nat ds)] [] []) as HP. cbn [map concat app length] in HP. rewrite !app_nil_r, !enc_length, L1, L2, L3, L4, L5 in HP. fold (fixed_part m nb ds) in HP. fold fp in HP. rewrite HP. clear HP.
  rewrite !dec_enc by assumption. rewrite !Nnat.Nat2N.id. destruct (memcpy_from _ _ (udsize _ _)); [|reflexivity]. destruct (pieces _ _ (_ ++ _)); [|reflexivity]. destruct (memcpy_from _ _ ((sLoc S + sReal S) * nb)) as [il|] eqn:E; [|reflexivity]. apply from_length in E.
  assert (nb <> 0) by (unfold nb; destruct bs; [contradiction|discriminate]). rewrite idlist_short; [reflexivity| |assumption]. rewrite E. nia.
Qed.
