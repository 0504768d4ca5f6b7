(** Restart files: lemmas. *)
From Coq Require Import Ascii List Arith NArith Bool Permutation Lia.
From Verif Require Import Par_Model Rst_Model Rst_Spec.
Import ListNotations.
Local Open Scope nat_scope.

Lemma enc_length : forall k n, length (enc k n) = k. Proof. induction k as [|k IH]; intros n; [reflexivity|]. cbn [enc length]. rewrite IH. reflexivity. Qed.
Lemma dec_enc : forall k n, (n < 256 ^ N.of_nat k)%N -> dec (enc k n) = n.
Proof.
  induction k as [|k IH]; intros n H; [change (256 ^ N.of_nat 0)%N with 1%N in H; cbn [enc dec]; lia|]. cbn [enc dec]. rewrite Nnat.Nat2N.inj_succ, N.pow_succ_r' in H. pose proof (N.mod_lt n 256 ltac:(lia)) as M. pose proof (N.div_mod n 256 ltac:(lia)) as D.
  rewrite N_ascii_embedding by exact M. rewrite IH by (apply N.div_lt_upper_bound; lia). lia.
Qed.
Lemma from_mid : forall A B C : text, memcpy_from (A ++ B ++ C) (length A) (length B) = Some B.
Proof. intros A B C. unfold memcpy_from. rewrite !app_length. destruct (Nat.leb_spec (length A + length B) (length A + (length B + length C))); [|lia]. rewrite skipn_app, skipn_all, Nat.sub_diag. cbn [skipn app]. rewrite firstn_app, firstn_all, Nat.sub_diag. cbn [firstn]. rewrite app_nil_r. reflexivity. Qed.
Lemma from_at : forall buf A B C os n, buf = A ++ B ++ C -> os = length A -> n = length B -> memcpy_from buf os n = Some B.
Proof. intros buf A B C os n -> -> ->. apply from_mid. Qed.
Lemma to_at : forall buf os s, os + length s <= length buf -> exists b', memcpy_to buf os s = Some b' /\ length b' = length buf /\ firstn (os + length s) b' = firstn os buf ++ s.
Proof.
  intros buf os s H. unfold memcpy_to. rewrite (proj2 (Nat.leb_le _ _) H). eexists. split; [reflexivity|]. assert (L : length (firstn os buf) = os) by (apply firstn_length_le; lia). split.
  - rewrite !app_length, L, skipn_length. lia.
  - rewrite app_assoc, firstn_app. rewrite firstn_all2 by (rewrite app_length, L; lia). rewrite app_length, L, Nat.sub_diag. cbn [firstn]. rewrite app_nil_r. reflexivity.
Qed.
(** ** Records *)
Definition record (c : config) (a : arrays) : text := concat (map a (write_order c)).
Lemma pack_ok : forall a vs buf os, os + length (concat (map a vs)) = length buf -> pack vs a buf os = Some (firstn os buf ++ concat (map a vs)).
Proof.
  intros a vs. induction vs as [|v vs IH]; intros buf os H; cbn [pack map concat] in *.
  - cbn [length] in H. rewrite app_nil_r, firstn_all2 by lia. reflexivity.
  - rewrite app_length in H. destruct (to_at buf os (a v) ltac:(lia)) as (b' & -> & L & E). rewrite IH by lia. rewrite E, <- app_assoc. reflexivity.
Qed.
Lemma sum_app : forall a b, sum (a ++ b) = sum a + sum b. Proof. induction a as [|x a IH]; intros b; cbn [app sum fold_right]; [reflexivity|]. change (fold_right Nat.add 0 (a ++ b)) with (sum (a ++ b)). rewrite IH. unfold sum. lia. Qed.
Lemma sum_opt : forall sz b l, sum (map sz (opt b l)) = if b then sum (map sz l) else 0. Proof. intros sz [] l; reflexivity. Qed.
Lemma size_write : forall c sz, GetBlockSizeInBytes c sz = sum (map sz (write_order c)).
Proof.
  intros c sz. unfold GetBlockSizeInBytes, write_order. rewrite !map_app, !sum_app, !sum_opt, !map_app, !map_map, !sum_app, !sum_opt. set (x := sum (map _ (seq 0 (niu c)))). set (y := sum (map _ (seq 0 (nru c)))). cbn [map sum fold_right]. rewrite !Nat.add_0_r. generalize (if scal c then sz SC + (if chem c then sz HCH else 0) else 0) (if gr c then sz W + sz W1 else 0) (if crd c then sz ECR else 0) (if cr c then sz UCR else 0) (if rad c then sz IR else 0) (if chemrad c then sz CIR else 0). intros. rewrite Nat.add_assoc. destruct (mhd c); lia.
Qed.
Lemma length_concat_map : forall (a : arrays) sz vs, (forall v, length (a v) = sz v) -> length (concat (map a vs)) = sum (map sz vs).
Proof. intros a sz vs H. induction vs as [|v vs IH]; [reflexivity|]. cbn [map concat]. rewrite app_length, H, IH. reflexivity. Qed.
Lemma record_length : forall c a sz, (forall v, length (a v) = sz v) -> length (record c a) = GetBlockSizeInBytes c sz.
Proof. intros c a sz H. unfold record. rewrite (length_concat_map a sz), size_write by exact H. reflexivity. Qed.
Lemma unpack_ok : forall (b : arrays) sz vs A C a, (forall v, length (b v) = sz v) -> exists a', unpack vs sz (A ++ concat (map b vs) ++ C) (length A) a = Some a' /\ forall v, (In v vs -> a' v = b v) /\ (~ In v vs -> a' v = a v).
Proof.
  intros b sz vs. induction vs as [|v vs IH]; intros A C a H.
  - exists a. split; [reflexivity|]. intros v. split; [intros []|reflexivity].
  - cbn [unpack map concat]. rewrite (from_at _ A (b v) (concat (map b vs) ++ C)) by (rewrite ?H, <- ?app_assoc; reflexivity).
    destruct (IH (A ++ b v) C (setv a v (b v)) H) as (a' & E & P). rewrite app_length, H in E. rewrite <- !app_assoc in *. exists a'. split; [exact E|]. intros w. destruct (P w) as (P1 & P2). destruct (in_dec var_eq_dec w vs) as [I|I].
    + split; [intros _; exact (P1 I)|intros N; exfalso; apply N; right; exact I].
    + rewrite (P2 I). unfold setv. destruct (var_eq_dec v w) as [->|NE]; split; try reflexivity; [intros N; exfalso; apply N; left; reflexivity|intros [->|K]; contradiction].
Qed.
Lemma kept_in : forall c v, kept c v -> In v (read_order c).
Proof.
  intros c v H. unfold read_order, opt. rewrite !in_app_iff. destruct v; cbn [kept] in H; try rewrite H; cbn [In app]; auto 14.
  - destruct H as (-> & ->). cbn. auto 14.
  - assert (In (IUser n) (map IUser (seq 0 (niu c)))) by (apply in_map, in_seq; lia). tauto.
  - assert (In (RUser n) (map RUser (seq 0 (nru c)))) by (apply in_map, in_seq; lia). tauto.
Qed.
Lemma record_read : forall c b sz a0, (forall v, length (b v) = sz v) -> exists a', unpack (read_order c) sz (record c b) 0 a0 = Some a' /\ (forall v, kept c v -> a' v = b v) /\ (forall v, ~ In v (read_order c) -> a' v = a0 v).
Proof.
  intros c b sz a0 H. destruct (unpack_ok b sz (read_order c) [] [] a0 H) as (a' & E & P). exists a'. split; [|split; [intros v K; apply P, kept_in, K|intros v K; apply P, K]]. cbn [app length] in E. rewrite app_nil_r in E. exact E.
Qed.
(** ** Writes *)
Lemma sequential_app : forall a b o, sequential o (a ++ b) = sequential o a ++ sequential (o + length (concat a)) b.
Proof. induction a as [|s a IH]; intros b o; cbn [app sequential concat length]; [rewrite Nat.add_0_r; reflexivity|]. rewrite IH, app_length, Nat.add_assoc. reflexivity. Qed.
Lemma sequential_tile : forall ps o, tile o (sequential o ps) (o + length (concat ps)).
Proof. induction ps as [|s ps IH]; intros o; cbn [sequential concat]; [cbn [length]; rewrite Nat.add_0_r; constructor|]. constructor. rewrite app_length, Nat.add_assoc. apply IH. Qed.
Lemma data_ok : forall c sz bs off data, (forall b, In b bs -> forall v, length (b_arr b v) = sz v) -> length data = GetBlockSizeInBytes c sz ->
  data_writes c off (GetBlockSizeInBytes c sz) data bs = Some (sequential off (map (fun b => record c (b_arr b)) bs)).
Proof.
  intros c sz bs. induction bs as [|b bs IH]; intros off data H L; [reflexivity|]. cbn [data_writes map sequential]. pose proof (record_length c (b_arr b) sz (H b (or_introl eq_refl))) as RL. rewrite pack_ok by (change (0 + length (record c (b_arr b)) = length data); rewrite RL, L; reflexivity). cbn [firstn app]. fold (record c (b_arr b)).
  rewrite IH; [rewrite RL; reflexivity|intros b' Hb; apply H; right; exact Hb|exact RL].
Qed.
Definition ids (bs : list mblock) : text := flat_map (fun b => b_loc b ++ b_cost b) bs.
Lemma ids_length : forall S sz bs, good_blocks S sz bs -> length (ids bs) = (sLoc S + sDouble S) * length bs.
Proof. intros S sz bs H. unfold ids. induction H as [|b bs (L1 & L2 & _) H IH]; cbn [flat_map length]; [lia|]. rewrite !app_length, IH, L1, L2. lia. Qed.
Lemma GBS_ext : forall c f g, (forall v, f v = g v) -> GetBlockSizeInBytes c f = GetBlockSizeInBytes c g.
Proof. intros c f g H. rewrite !size_write. f_equal. apply map_ext, H. Qed.
Lemma rank_ok : forall S c sz H nb myns junk b bs, good_blocks S sz (b :: bs) ->
  rank_writes S c H nb myns junk (b :: bs) = Some ((H + (sLoc S + sDouble S) * myns, ids (b :: bs)) :: sequential (H + (sLoc S + sDouble S) * nb + GetBlockSizeInBytes c sz * myns) (map (fun b => record c (b_arr b)) (b :: bs))).
Proof.
  intros S c sz H nb myns junk b bs G. unfold rank_writes. assert (E : GetBlockSizeInBytes c (fun v => length (b_arr b v)) = GetBlockSizeInBytes c sz) by (apply GBS_ext; inversion G; tauto). rewrite E.
  rewrite (data_ok c sz); [reflexivity| |].
  - intros b' Hb. apply (proj1 (Forall_forall _ _) G b' Hb).
  - apply firstn_length_le. rewrite app_length, repeat_length. lia.
Qed.
Lemma perm_four : forall (A : Type) (a b c d : list A), Permutation ((a ++ b) ++ c ++ d) ((a ++ c) ++ b ++ d).
Proof. intros A a b c d. rewrite <- !app_assoc. apply Permutation_app_head. rewrite !app_assoc. apply Permutation_app_tail, Permutation_app_comm. Qed.
Lemma ranks_ok : forall S c sz H nb junk ranks myns, Forall (fun bs => bs <> []) ranks -> good_blocks S sz (concat ranks) ->
  exists ws, all_rank_writes S c H nb myns junk ranks = Some ws /\ length ws = length ranks /\
  Permutation (concat ws) (sequential (H + (sLoc S + sDouble S) * myns) (map ids ranks) ++ sequential (H + (sLoc S + sDouble S) * nb + GetBlockSizeInBytes c sz * myns) (map (fun b => record c (b_arr b)) (concat ranks))).
Proof.
  intros S c sz H nb junk ranks. induction ranks as [|bs ranks IH]; intros myns HN G; [exists []; repeat split; constructor|]. inversion HN as [|? ? NE HN']; subst. cbn [concat] in G. apply Forall_app in G as (G1 & G2).
  cbn [all_rank_writes]. destruct bs as [|b bs]; [contradiction|]. rewrite (rank_ok S c sz) by exact G1. destruct (IH (myns + length (b :: bs)) HN' G2) as (ws & E & EL & P). rewrite E. eexists. split; [reflexivity|]. split; [cbn [length]; rewrite EL; reflexivity|].
  set (bb := b :: bs) in *. cbn [concat map]. rewrite map_app, sequential_app. cbn [sequential].
  assert (L1 : length (ids bb) = (sLoc S + sDouble S) * length bb) by (apply (ids_length S sz); exact G1).
  assert (L2 : length (concat (map (fun b => record c (b_arr b)) bb)) = GetBlockSizeInBytes c sz * length bb).
  { clear - G1. induction G1 as [|x l (_ & _ & Hx) G IH]; cbn [map concat length]; [lia|]. rewrite app_length, IH, (record_length c _ sz Hx). lia. }
  rewrite L1, L2. match goal with |- Permutation ((?x :: ?a) ++ concat ws) _ => change (x :: a) with ([x] ++ a) end.
  rewrite P. match goal with |- Permutation _ ((?x :: ?a) ++ ?b) => change ((x :: a) ++ b) with (([x] ++ a) ++ b) end. rewrite !Nat.mul_add_distr_l, !Nat.add_assoc. apply perm_four.
Qed.
(** ** Tilings *)
Lemma tile_le : forall o ws e, tile o ws e -> o <= e. Proof. intros o ws e H. induction H; lia. Qed.
Lemma tile_in : forall o ws e, tile o ws e -> forall w, In w ws -> o <= fst w /\ fst w + length (snd w) <= e.
Proof. intros o ws e H. induction H as [o|o s ws e H IH]; intros w []; [subst w; cbn [fst snd]; pose proof (tile_le _ _ _ H); lia|]. specialize (IH w H0). lia. Qed.
Lemma tile_apart : forall o ws e, tile o ws e -> ForallOrdPairs apart ws.
Proof. intros o ws e H. induction H as [o|o s ws e H IH]; constructor; [|exact IH]. apply Forall_forall. intros w Hw. left. cbn [fst snd]. apply (tile_in _ _ _ H w Hw). Qed.
Lemma tile_cover : forall o ws e, tile o ws e -> forall p, o <= p < e -> exists w, In w ws /\ fst w <= p < fst w + length (snd w).
Proof. intros o ws e H. induction H as [o|o s ws e H IH]; intros p Hp; [lia|]. destruct (le_lt_dec (o + length s) p) as [L|L]; [destruct (IH p) as (w & Hw & R); [lia|exists w; split; [right; exact Hw|exact R]]|exists (o, s); split; [left; reflexivity|cbn [fst snd]; lia]]. Qed.
Lemma nth_out : forall (l : text) p, length l <= p -> nth_error l p = None. Proof. intros l p H. apply nth_error_None. exact H. Qed.
Lemma write_agree : forall L ws, (forall w, In w ws -> forall p, fst w <= p < fst w + length (snd w) -> nth_error (snd w) (p - fst w) = nth_error L p) -> forall f p,
  (exists w, In w ws /\ fst w <= p < fst w + length (snd w)) -> fold_left write_at ws f p = nth_error L p.
Proof.
  intros L ws. induction ws as [|w ws IH] using rev_ind; intros HA f p (w' & Hw & R); [destruct Hw|]. rewrite fold_left_app. cbn [fold_left]. unfold write_at at 1.
  match goal with |- (if ?b then _ else _) = _ => destruct b eqn:EB end; [apply andb_prop in EB as (B1 & B2); apply Nat.leb_le in B1; apply Nat.ltb_lt in B2; apply HA; [apply in_or_app; right; left; reflexivity|split; assumption]|].
  apply IH; [intros w0 H0; apply HA, in_or_app; left; exact H0|]; apply in_app_iff in Hw as [Hw|[<-|[]]]; [exists w'; split; assumption|]. exfalso. destruct R as (R1 & R2). apply andb_false_iff in EB as [EB|EB]; [apply Nat.leb_gt in EB; exact (Nat.lt_irrefl _ (Nat.lt_le_trans _ _ _ EB R1))|apply Nat.ltb_ge in EB; exact (Nat.lt_irrefl _ (Nat.lt_le_trans _ _ _ R2 EB))].
Qed.
Lemma write_outside : forall ws f p, (forall w, In w ws -> ~ (fst w <= p < fst w + length (snd w))) -> fold_left write_at ws f p = f p.
Proof.
  induction ws as [|w ws IH]; intros f p H; [reflexivity|]. cbn [fold_left]. rewrite IH by (intros w' Hw; apply H; right; exact Hw). unfold write_at. specialize (H w (or_introl eq_refl)). match goal with |- (if ?b then _ else _) = _ => destruct b eqn:EB end; [|reflexivity]. exfalso. apply H. apply andb_prop in EB as (B1 & B2). apply Nat.leb_le in B1. apply Nat.ltb_lt in B2. split; assumption.
Qed.
Lemma sequential_agree : forall ps o w, In w (sequential o ps) -> forall p, fst w <= p < fst w + length (snd w) -> nth_error (snd w) (p - fst w) = nth_error (concat ps) (p - o) /\ o <= p.
Proof.
  induction ps as [|s ps IH]; intros o w Hw p Hp; [destruct Hw|]. cbn [sequential concat] in *. destruct Hw as [<-|Hw].
  - cbn [fst snd] in *. rewrite nth_error_app1 by lia. split; [reflexivity|lia].
  - destruct (IH _ _ Hw p Hp) as (E & L). split; [|lia]. rewrite E, nth_error_app2 by lia. f_equal. lia.
Qed.
Lemma written : forall ps ws, Permutation ws (sequential 0 ps) -> forall p, write_all ws p = nth_error (concat ps) p.
Proof.
  intros ps ws HP p. unfold write_all. pose proof (sequential_tile ps 0) as T. cbn [Nat.add] in T. destruct (le_lt_dec (length (concat ps)) p) as [L|L].
  - rewrite nth_out by exact L. apply write_outside. intros w Hw R. apply (Permutation_in _ HP) in Hw. destruct (tile_in _ _ _ T w Hw) as (_ & K). exact (Nat.lt_irrefl _ (Nat.lt_le_trans _ _ _ (proj2 R) (Nat.le_trans _ _ _ K L))).
  - apply write_agree.
    + intros w Hw q Hq. apply (Permutation_in _ HP) in Hw. destruct (sequential_agree ps 0 w Hw q Hq) as (E & _). rewrite Nat.sub_0_r in E. exact E.
    + destruct (tile_cover _ _ _ T p ltac:(lia)) as (w & Hw & R). exists w. split; [apply (Permutation_in _ (Permutation_sym HP)), Hw|exact R].
Qed.
