(** The block list, renumbering, counting; the root grid; tiling of well-formed trees. *)
From Coq Require Import List Arith ZArith Bool Lia.
From Verif Require Import Loc AMR_Spec AMR_Proofs AMR_Proofs2 Tree_Model Tree_Spec Tree_Proofs1 Tree_Proofs2 Tree_Proofs3.
Import ListNotations.
Local Open Scope nat_scope.

Lemma Forall_lt8 : forall n p, n <= 8 -> Forall (fun i => i < n) p -> Forall (fun i => i < 8) p.
Proof. intros n p Hn H. induction H as [|i p Hi _ IH]; constructor; [lia|exact IH]. Qed.
(** ** leaves, count, renumber as list functions *)
Definition golv (l : loc) := fix go ch n := match ch with [] => [] | c :: ch => leaves c (child l n) ++ go ch (S n) end.
Lemma leaves_node : forall z ch l, leaves (Node z ch) l = golv l ch 0.
Proof. reflexivity. Qed.
Definition gocnt := fix go ch := match ch with [] => 0 | c :: ch => count c + go ch end.
Lemma count_node : forall z ch, count (Node z ch) = gocnt ch.
Proof. reflexivity. Qed.
Definition goren := fix go ch n := match ch with
                | [] => ([], n)
                | c :: ch => let '(c', n1) := renumber c n in let '(ch', n2) := go ch n1 in (c' :: ch', n2)
                end.
Lemma renumber_node : forall z ch n, renumber (Node z ch) n = (Node z (fst (goren ch n)), snd (goren ch n)).
Proof. reflexivity. Qed.

Lemma in_golv : forall l ch n y, In y (golv l ch n) <-> exists i, i < length ch /\ In y (leaves (nth i ch Null) (child l (n + i))).
Proof.
  intros l. induction ch as [|c ch IH]; intros n y; [split; [intros []|intros (i & H & _); cbn in H; lia]|].
  cbn [golv]. rewrite in_app_iff. fold (golv l). rewrite IH. split.
  - intros [H|(i & Hi & H)]; [exists 0; rewrite Nat.add_0_r; split; [cbn; lia|exact H]|exists (S i)]. cbn [length nth]. split; [lia|].
    rewrite <- Nat.add_succ_comm. exact H.
  - intros (i & Hi & H). destruct i as [|i]; [left; rewrite Nat.add_0_r in H; exact H|right; exists i]. cbn [length nth] in *. split; [lia|].
    rewrite Nat.add_succ_comm. exact H.
Qed.
Lemma in_leaves : forall t l x z, In (x, z) (leaves t l) <-> exists p, sub t p = Leaf z /\ x = descend l p.
Proof.
  induction t as [|z0|z0 ch IH] using tree_ind'; intros l x z.
  - split; [intros []|intros (p & H & _); rewrite sub_null in H; discriminate H].
  - split.
    + intros [H|[]]. injection H as <- <-. exists []. split; reflexivity.
    + intros (p & H & ->). destruct p; [|discriminate H]. injection H as <-. left. reflexivity.
  - rewrite leaves_node, in_golv. split.
    + intros (i & Hi & H). rewrite Forall_forall in IH. apply (IH (nth i ch Null)) in H; [|apply nth_In, Hi].
      destruct H as (p & Hp & ->). exists (i :: p). split; [exact Hp|reflexivity].
    + intros (p & H & ->). destruct p as [|i p]; [discriminate H|]. cbn [sub] in H. assert (Hi : i < length ch) by (apply nth_nonnull; intros E; rewrite E, sub_null in H; discriminate H).
      exists i. split; [exact Hi|]. rewrite Forall_forall in IH. apply (IH (nth i ch Null)); [apply nth_In, Hi|]. exists p. split; [exact H|reflexivity].
Qed.
Lemma count_leaves : forall t l, length (leaves t l) = count t.
Proof.
  induction t as [|z|z ch IH] using tree_ind'; intros l; [reflexivity|reflexivity|]. rewrite leaves_node, count_node.
  generalize 0. induction IH as [|c ch Hc _ IHch]; intros n; [reflexivity|]. cbn [golv gocnt]. rewrite app_length, Hc. f_equal. apply IHch.
Qed.
Lemma leaves_nodup : forall n t l, n <= 8 -> shape n t -> NoDup (map fst (leaves t l)).
Proof.
  intros n. induction t as [|z|z ch IH] using tree_ind'; intros l Hn Hs; [constructor|constructor; [intros []|constructor]|]. rewrite leaves_node.
  assert (Hlen : length ch = n) by exact (Hs [] z ch eq_refl).
  assert (Hsub : forall i, shape n (nth i ch Null)) by (intros i; exact (shape_sub n _ [i] Hs)).
  assert (G : forall ch' k, (forall i, shape n (nth i ch' Null)) -> Forall (fun t => forall l, n <= 8 -> shape n t -> NoDup (map fst (leaves t l))) ch' -> k + length ch' <= n ->
    NoDup (map fst (golv l ch' k))); [|apply G; [exact Hsub|exact IH|lia]].
  clear ch Hs IH Hlen Hsub. induction ch' as [|c ch' IHc]; intros k Hs HF Hk; [constructor|]. inversion_clear HF. cbn [golv length] in *. fold (golv l). rewrite map_app.
  apply NoDup_app2.
  - apply H; [exact Hn|exact (Hs 0)].
  - apply IHc; [intros i; exact (Hs (S i))|exact H0|lia].
  - intros x Hx Hx'. apply in_map_iff in Hx as ((x1 & z1) & E & Hx). cbn [fst] in E. subst x1. apply in_map_iff in Hx' as ((x1 & z2) & E & Hx'). cbn [fst] in E. subst x1.
    apply in_leaves in Hx as (p & Hp & Ep). apply in_golv in Hx' as (i & Hi & Hx'). apply in_leaves in Hx' as (q & Hq & Eq).
    assert (Fp : Forall (fun i => i < 8) p). { apply (Forall_lt8 n); [exact Hn|]. apply (shape_path n c); [exact (Hs 0)|congruence]. }
    assert (Fq : Forall (fun i => i < 8) q). { apply (Forall_lt8 n); [exact Hn|]. apply (shape_path n (nth i ch' Null)); [exact (Hs (S i))|congruence]. }
    assert (E : path (descend (child l k) p) = path (descend (child l (S k + i)) q)) by congruence.
    rewrite !path_descend, !path_child in E by (assumption || lia). rewrite <- !app_assoc in E. apply app_inv_head in E. cbn [app] in E. injection E as E E2. clear - E. lia.
Qed.
Lemma golv_app : forall l ch1 ch2 n, golv l (ch1 ++ ch2) n = golv l ch1 n ++ golv l ch2 (n + length ch1).
Proof.
  intros l. induction ch1 as [|c ch1 IH]; intros ch2 n; cbn [app golv length]; [f_equal; lia|]. fold (golv l). rewrite IH, <- app_assoc. replace (n + S (length ch1)) with (S n + length ch1) by lia. reflexivity.
Qed.

(** counting after an update of one subtree *)
Lemma gocnt_upd : forall f ch n, n < length ch -> gocnt (upd_nth n ch f) + count (nth n ch Null) = gocnt ch + count (f (nth n ch Null)).
Proof.
  intros f. induction ch as [|c ch IH]; intros n H; cbn [length] in H; [lia|]. destruct n; cbn [upd_nth gocnt nth]; fold gocnt; [lia|].
  specialize (IH n ltac:(lia)). lia.
Qed.
Lemma count_upd : forall p t f, sub t p <> Null -> count (upd t p f) + count (sub t p) = count t + count (f (sub t p)).
Proof.
  induction p as [|n p IH]; intros t f H; [cbn [sub upd]; lia|]. cbn [sub upd] in *. destruct t as [|z|z ch]; try contradiction.
  assert (Hn : n < length ch) by (apply nth_nonnull; intros E; rewrite E, sub_null in H; contradiction).
  rewrite !count_node. pose proof (gocnt_upd (fun c => upd c p f) ch n Hn) as E. cbn beta in E. specialize (IH (nth n ch Null) f H). lia.
Qed.
Lemma count_setgid : forall t z, count (set_gid z t) = count t.
Proof. intros [| |] z; reflexivity. Qed.
Lemma gocnt_repeat : forall z n, gocnt (repeat (Leaf z) n) = n.
Proof. induction n as [|n IH]; [reflexivity|]. cbn [repeat gocnt count]. fold gocnt. rewrite IH. reflexivity. Qed.
Lemma nleaf_pos : forall dim, 2 <= nleaf dim.
Proof. intros [|[|[|]]]; cbn; lia. Qed.
Lemma count_split : forall g t l z, K t l = KLeaf z -> count (split_at g t l z) = count t + (nleaf (gdim g) - 1).
Proof.
  intros g t l z H. assert (Hn : sub t (path l) <> Null) by (apply K_nonnull_sub; congruence).
  pose proof (count_upd (path l) t (fun _ => Node z (repeat (Leaf z) (nleaf (gdim g)))) Hn) as E. unfold K in H.
  destruct (sub t (path l)); try discriminate H. rewrite count_node, gocnt_repeat in E. cbn [count] in E. fold (split_at g t l z) in E. pose proof (nleaf_pos (gdim g)). lia.
Qed.
Lemma count_splits : forall g Q a b k, splits g Q a b k -> count b = count a + k * (nleaf (gdim g) - 1).
Proof.
  intros g Q a b k H. induction H as [t|t l z t' k Hl Hk HQ H IH|t l t' k Hk H IH].
  - lia.
  - rewrite IH, (count_split g t l z Hk). lia.
  - rewrite IH. assert (Hn : sub t (path l) <> Null) by (apply K_nonnull_sub; congruence).
    pose proof (count_upd (path l) t (set_gid (-1)) Hn) as E. rewrite count_setgid in E. lia.
Qed.

(** ** Renumbering *)
Definition norm (k : kd) : kd := match k with KLeaf _ => KLeaf 0 | k => k end.
Definition same (t t' : tree) : Prop := forall p, norm (kind (sub t' p)) = norm (kind (sub t p)).
Lemma same_null : forall t t' p, same t t' -> (kind (sub t' p) = KNull <-> kind (sub t p) = KNull).
Proof. intros t t' p H. specialize (H p). destruct (kind (sub t' p)), (kind (sub t p)); cbn in H; split; congruence. Qed.
Lemma same_node : forall t t' p, same t t' -> (kind (sub t' p) = KNode <-> kind (sub t p) = KNode).
Proof. intros t t' p H. specialize (H p). destruct (kind (sub t' p)), (kind (sub t p)); cbn in H; split; congruence. Qed.
Lemma same_leaf : forall t t' p z, same t t' -> kind (sub t p) = KLeaf z -> exists z', kind (sub t' p) = KLeaf z'.
Proof. intros t t' p z H E. specialize (H p). rewrite E in H. destruct (kind (sub t' p)) as [|z'|]; cbn in H; try discriminate H. exists z'. reflexivity. Qed.
Lemma same_sym : forall t t', same t t' -> same t' t.
Proof. intros t t' H p. symmetry. apply H. Qed.
Lemma same_wf : forall g t t', same t t' -> shape (nleaf (gdim g)) t' -> wf g t -> wf g t'.
Proof.
  intros g t t' H S W. assert (HN : forall x, K t' x = KNull <-> K t x = KNull) by (intros x; apply same_null, H).
  assert (HD : forall x, K t' x = KNode <-> K t x = KNode) by (intros x; apply same_node, H). constructor.
  - exact S.
  - intros x Hx Hk. apply (wf_dom g t W); [exact Hx|]. rewrite <- HN. exact Hk.
  - intros x Hx Hl. apply HD, (wf_low g t W); assumption.
  - intros x Hx Hl. rewrite HN. apply (wf_root g t W); assumption.
  - intros x j Hx Hk Hl Hj. rewrite HN. apply (wf_child g t W); try assumption. apply HD, Hk.
Qed.
Lemma goren_nth : forall ch n i, exists m, nth i (fst (goren ch n)) Null = fst (renumber (nth i ch Null) m).
Proof.
  induction ch as [|c ch IH]; intros n i; [exists 0; destruct i; reflexivity|]. cbn [goren]. fold goren.
  destruct (renumber c n) as [c' n1] eqn:E1. destruct (goren ch n1) as [ch' n2] eqn:E2. cbn [fst]. destruct i as [|i]; cbn [nth].
  - exists n. rewrite E1. reflexivity.
  - specialize (IH n1 i). rewrite E2 in IH. exact IH.
Qed.
Lemma goren_length : forall ch n, length (fst (goren ch n)) = length ch.
Proof.
  induction ch as [|c ch IH]; intros n; [reflexivity|]. cbn [goren]. fold goren. destruct (renumber c n) as [c' n1] eqn:E1. specialize (IH n1).
  destruct (goren ch n1) as [ch' n2]. cbn [fst length] in *. rewrite IH. reflexivity.
Qed.
Lemma renumber_sub : forall p t n, exists m, sub (fst (renumber t n)) p = fst (renumber (sub t p) m).
Proof.
  induction p as [|i p IH]; intros t n; [exists n; reflexivity|]. destruct t as [|z|z ch]; [exists 0; reflexivity|exists 0; reflexivity|].
  rewrite renumber_node. cbn [sub fst]. destruct (goren_nth ch n i) as (m & ->). apply IH.
Qed.
Lemma renumber_kind : forall t n, norm (kind (fst (renumber t n))) = norm (kind t).
Proof. intros [|z|z ch] n; reflexivity. Qed.
Lemma renumber_same : forall t n, same t (fst (renumber t n)).
Proof. intros t n p. destruct (renumber_sub p t n) as (m & ->). apply renumber_kind. Qed.
Lemma renumber_shape : forall k t n, shape k t -> shape k (fst (renumber t n)).
Proof.
  intros k t n S p z ch E. destruct (renumber_sub p t n) as (m & E'). rewrite E' in E. destruct (sub t p) as [|z0|z0 ch0] eqn:E0; try discriminate E.
  rewrite renumber_node in E. cbn [fst] in E. injection E as <- <-. rewrite goren_length. exact (S _ _ _ E0).
Qed.
Lemma renumber_leaves : forall t l n, leaves (fst (renumber t n)) l = combine (map fst (leaves t l)) (map Z.of_nat (seq n (count t))) /\ snd (renumber t n) = n + count t.
Proof.
  induction t as [|z|z ch IH] using tree_ind'; intros l n.
  - split; [reflexivity|cbn; lia].
  - split; [reflexivity|cbn; lia].
  - rewrite renumber_node. cbn [fst snd]. rewrite !leaves_node, count_node. revert n. generalize 0. induction IH as [|c ch Hc _ IHch]; intros i n.
    + split; [reflexivity|cbn; lia].
    + cbn [goren gocnt golv]. fold goren. fold gocnt. fold (golv l). destruct (renumber c n) as [c' n1] eqn:E1. destruct (Hc (child l i) n) as [H1 H2]. rewrite E1 in H1, H2. cbn [fst snd] in H1, H2. subst n1.
      destruct (IHch (S i) (n + count c)) as [H3 H4]. destruct (goren ch (n + count c)) as [ch' n2]. cbn [fst snd] in *. subst n2. split; [|lia].
      cbn [golv]. fold (golv l). rewrite H1, H3, map_app, seq_app, map_app. symmetry.
      assert (Hlen : length (map fst (leaves c (child l i))) = length (map Z.of_nat (seq n (count c)))) by (rewrite !map_length, seq_length; apply count_leaves).
      revert Hlen. generalize (map fst (leaves c (child l i))) (map Z.of_nat (seq n (count c))). clear. intros a. induction a as [|x a IH]; intros [|y b] H; cbn in *; try lia; [reflexivity|].
      f_equal. apply IH. lia.
Qed.

(** ** The block list of a well-formed tree *)
Section Tiling.
Variable g : grid.
Hypothesis Vg : valid_grid g.
Lemma in_blist : forall t x z, wf g t -> (In (x, z) (leaves t rootloc) <-> canon x /\ K t x = KLeaf z).
Proof.
  intros t x z W. rewrite in_leaves. unfold K. split.
  - intros (p & Hp & ->). split; [apply canon_descend, canon_root|]. rewrite path_descend, path_rootloc; [cbn [app]; rewrite Hp; reflexivity|].
    apply (Forall_lt8 (nleaf (gdim g))); [apply nleaf_le|]. apply (shape_path _ t); [apply W|congruence].
  - intros (Hc & H). exists (path x). split; [|symmetry; apply (descend_path (level x)); [reflexivity|exact Hc]].
    destruct (sub t (path x)); try discriminate H. cbn in H. congruence.
Qed.
Lemma in_blocks : forall t x, wf g t -> (In x (blocks t) <-> canon x /\ exists z, K t x = KLeaf z).
Proof.
  intros t x W. unfold blocks, GetMeshBlockList. cbn [fst]. rewrite in_map_iff. split.
  - intros ((y & z) & E & H). cbn [fst] in E. subst y. apply in_blist in H; [|exact W]. destruct H as [Hc Hk]. split; [exact Hc|exists z; exact Hk].
  - intros (Hc & z & Hk). exists (x, z). split; [reflexivity|]. apply in_blist; [exact W|]. split; assumption.
Qed.
Lemma blocks_nodup : forall t, wf g t -> NoDup (blocks t).
Proof. intros t W. apply (leaves_nodup (nleaf (gdim g))); [apply nleaf_le|apply W]. Qed.
(** below every node there is a leaf *)
Lemma leaf_below : forall t s x, wf g t -> canon x -> sub t (path x) = s -> s <> Null -> exists y z, canon y /\ contains x y /\ K t y = KLeaf z /\ (kind s = KNode -> level x < level y).
Proof.
  intros t. induction s as [|z|z ch IH] using tree_ind'; intros x W Hx E Hs.
  - contradiction.
  - exists x, z. split; [exact Hx|]. split; [apply contains_refl|]. split; [unfold K; rewrite E; reflexivity|]. discriminate.
  - assert (Kx : K t x = KNode) by (unfold K; rewrite E; reflexivity).
    assert (Dx : in_domain g x) by (apply (wf_dom g t W); [exact Hx|congruence]).
    pose proof (nleaf_pos (gdim g)) as Hn.
    assert (K0 : K t (child x 0) <> KNull).
    { destruct (Nat.lt_ge_cases (level x) (groot g)) as [Hl|Hl].
      - apply (wf_root g t W); [apply dom_child0, Dx|cbn [child level]; lia].
      - apply (wf_child g t W); [exact Hx|exact Kx|exact Hl|lia]. }
    assert (E0 : sub t (path (child x 0)) = nth 0 ch Null) by (rewrite path_child, sub_app, E by lia; reflexivity).
    apply K_nonnull_sub in K0. rewrite E0 in K0.
    rewrite Forall_forall in IH. destruct (IH (nth 0 ch Null)) with (x := child x 0) as (y & z' & Hy & Hc & Hk & _).
    + apply nth_In. apply nth_nonnull, K0.
    + exact W.
    + apply canon_child, Hx.
    + exact E0.
    + exact K0.
    + exists y, z'. split; [exact Hy|]. split; [apply (contains_trans _ (child x 0)); [apply contains_child|exact Hc]|]. split; [exact Hk|].
      intros _. destruct Hc as [Hc _]. cbn [child level] in Hc. lia.
Qed.
Lemma cover : forall t x, wf g t -> in_domain g x -> forall k, k <= level x -> (exists a z, canon a /\ contains a x /\ K t a = KLeaf z) \/ K t (ancl k x) <> KNull.
Proof.
  intros t x W Hx. induction k as [|k IH]; intros Hk.
  - right. apply (wf_root g t W); [apply dom_ancl; [exact Hx|lia]|rewrite ancl_level; lia].
  - destruct (IH ltac:(lia)) as [H|H]; [left; exact H|].
    destruct (K t (ancl k x)) as [|z|] eqn:E; [contradiction H; reflexivity| |].
    + left. exists (ancl k x), z. split; [apply (dom_canon g Vg), dom_ancl; [exact Hx|lia]|]. split; [|exact E]. rewrite ancl_anc by lia. split; [cbn [anc level]; lia|].
      cbn [anc level]. f_equal. lia.
    + right. apply (ex_next g Vg); [exact W|exact Hx|lia|exact E].
Qed.
Theorem wf_tiling : forall t, wf g t -> tiling g (blocks t).
Proof.
  intros t W. split; [apply blocks_nodup, W|]. split; [|split].
  - intros a Ha. apply in_blocks in Ha; [|exact W]. destruct Ha as (Ca & z & Ka). assert (Da : in_domain g a) by (apply (wf_dom g t W); [exact Ca|congruence]).
    split; [exact Da|]. destruct (Nat.lt_ge_cases (level a) (groot g)) as [Hl|Hl]; [|exact Hl]. rewrite (wf_low g t W a Da Hl) in Ka. discriminate Ka.
  - intros a b Ha Hb H. apply in_blocks in Ha; [|exact W]. apply in_blocks in Hb; [|exact W]. destruct Ha as (Ca & z & Ka), Hb as (Cb & z' & Kb).
    destruct H as [H|H]; [|symmetry]; eapply wf_contains_leaf; try eassumption; congruence.
  - intros x Hx Hlev. assert (Hc : exists a z, canon a /\ contains a x /\ K t a = KLeaf z).
    { destruct (cover t x W Hx (level x) (le_n _)) as [H|H]; [exact H|]. rewrite ancl_self in H.
      pose proof (K_nonnull_sub t x H) as Hn. destruct (leaf_below t _ x W (dom_canon g Vg x Hx) eq_refl Hn) as (y & z & Hy & Hc & Hk & Hlt).
      assert (Hin : In y (blocks t)) by (apply in_blocks; [exact W|split; [exact Hy|exists z; exact Hk]]). specialize (Hlev y Hin).
      assert (y = x). { destruct Hc as [Hc1 Hc2]. assert (El : level y = level x) by lia. rewrite El, Nat.sub_diag, anc_0 in Hc2. congruence. }
      subst y. exists x, z. split; [exact Hy|]. split; [apply contains_refl|exact Hk]. }
    destruct Hc as (a & z & Ca & Hc & Hk). exists a. split; [|exact Hc]. apply in_blocks; [exact W|]. split; [exact Ca|exists z; exact Hk].
Qed.

(** ** The root grid *)
Definition condb (x : loc) : bool := let f := (2 ^ Z.of_nat (groot g - level x))%Z in
  Z.ltb (lx3 x * f) (gnrb g 2) && Z.ltb (lx2 x * f) (gnrb g 1) && Z.ltb (lx1 x * f) (gnrb g 0).
Lemma create_S : forall k l, level l + S k = groot g -> create g (S k) l = Node (-1) (map (fun n => if condb (child l n) then create g k (child l n) else Null) (seq 0 (nleaf (gdim g)))).
Proof.
  intros k l H. cbn [create]. f_equal. apply map_ext. intros n. unfold condb. cbn [child level lx1 lx2 lx3].
  replace (groot g - S (level l)) with k by lia. reflexivity.
Qed.
Lemma cond_mono : forall x n, level x < groot g -> condb (child x n) = true -> condb x = true.
Proof.
  intros x n Hl H. unfold condb in *. apply andb_prop in H as [H H1]. apply andb_prop in H as [H3 H2]. apply Z.ltb_lt in H1, H2, H3. cbn [child level lx1 lx2 lx3] in *.
  replace (groot g - level x) with (S (groot g - S (level x))) by lia. rewrite pow2_S. pose proof (pow2_pos (groot g - S (level x))) as Hp.
  pose proof (bit_range n 0). pose proof (bit_range n 1). pose proof (bit_range n 2).
  repeat (apply andb_true_intro; split); apply Z.ltb_lt; nia.
Qed.
Lemma cond_mono_d : forall p x, level x + length p <= groot g -> condb (descend x p) = true -> condb x = true.
Proof.
  induction p as [|n p IH]; intros x Hl H; [exact H|]. cbn [descend fold_left length] in *. apply (cond_mono x n); [lia|]. apply IH; [cbn [child level]; lia|exact H].
Qed.
Lemma create_kind : forall p k l, level l + k = groot g -> condb l = true -> Forall (fun i => i < nleaf (gdim g)) p ->
  kind (sub (create g k l) p) = if Nat.leb (length p) k then (if condb (descend l p) then (if Nat.eqb (length p) k then KLeaf (-1) else KNode) else KNull) else KNull.
Proof.
  induction p as [|n p IH]; intros k l Hl Hc Hp.
  - cbn [sub length descend fold_left Nat.leb]. rewrite Hc. destruct k; reflexivity.
  - inversion_clear Hp as [|? ? Hn Hp']. destruct k as [|k]; [reflexivity|]. rewrite (create_S k l Hl). cbn [sub length descend fold_left Nat.leb Nat.eqb].
    rewrite (nth_indep _ Null (if condb (child l 0) then create g k (child l 0) else Null)) by (rewrite map_length, seq_length; exact Hn).
    rewrite (map_nth (fun n => if condb (child l n) then create g k (child l n) else Null)), seq_nth by exact Hn. cbn [plus].
    destruct (condb (child l n)) eqn:E.
    + apply IH; [cbn [child level]; lia|exact E|exact Hp'].
    + rewrite sub_null. cbn [kind]. destruct (Nat.leb_spec (length p) k) as [Hlp|Hlp]; [|reflexivity]. destruct (condb (fold_left child p (child l n))) eqn:E2; [|reflexivity].
      apply cond_mono_d in E2; [congruence|cbn [child level]; lia].
Qed.
Lemma create_shape : forall k l, level l + k = groot g -> shape (nleaf (gdim g)) (create g k l).
Proof.
  induction k as [|k IH]; intros l Hl; [apply shape_leaf|]. rewrite (create_S k l Hl). apply shape_node; [rewrite map_length, seq_length; reflexivity|].
  intros i Hi. rewrite (nth_indep _ Null (if condb (child l 0) then create g k (child l 0) else Null)) by (rewrite map_length, seq_length; exact Hi).
  rewrite (map_nth (fun n => if condb (child l n) then create g k (child l n) else Null)), seq_nth by exact Hi. cbn [plus].
  destruct (condb (child l i)); [apply IH; cbn [child level]; lia|]. intros p z ch E. rewrite sub_null in E. discriminate E.
Qed.
Lemma cond_domain : forall x, level x <= groot g -> flat (gdim g) x -> canon x -> (condb x = true <-> in_domain g x).
Proof.
  intros x Hl [F2 F3] Hc. unfold condb. pose proof (pow2_pos (groot g - level x)) as Hp. pose proof (pow2_pos (level x)) as Hq.
  assert (E : (2 ^ Z.of_nat (groot g) = 2 ^ Z.of_nat (groot g - level x) * 2 ^ Z.of_nat (level x))%Z) by (rewrite <- Z.pow_add_r by lia; f_equal; lia).
  rewrite !andb_true_iff, !Z.ltb_lt. destruct Vg as (Hd & Hn & H1 & _).
  assert (H : forall d, d < 3 -> (coord d x * 2 ^ Z.of_nat (groot g - level x) < gnrb g d <-> coord d x * 2 ^ Z.of_nat (groot g) < gnrb g d * 2 ^ Z.of_nat (level x))%Z).
  { intros d _. rewrite E. split; intros H; nia. }
  assert (HF : forall d, d < 3 -> gdim g <= d -> coord d x = 0%Z).
  { intros d Hd3 Hdd. destruct d as [|[|d]]; [lia|apply F2; lia|apply F3; lia]. }
  split.
  - intros ((A3 & A2) & A1) d Hd3. split; [apply Hc, Hd3|]. split; [|apply HF, Hd3]. intros _. apply H; [exact Hd3|]. destruct d as [|[|[|d]]]; assumption || lia.
  - intros D.
    assert (A : forall d, d < 3 -> (coord d x * 2 ^ Z.of_nat (groot g - level x) < gnrb g d)%Z).
    { intros d Hd3. destruct (Nat.lt_ge_cases d (gdim g)) as [Hdd|Hdd]; [apply H; [exact Hd3|]; apply D; assumption|]. rewrite (HF d Hd3 Hdd), (H1 d Hdd). lia. }
    split; [split; [apply (A 2)|apply (A 1)]|apply (A 0)]; lia.
Qed.
Lemma path_flat : forall n x, level x = n -> flat (gdim g) x -> Forall (fun i => i < nleaf (gdim g)) (path x).
Proof.
  induction n as [|n IH]; intros x Hl F.
  - unfold path. rewrite Hl. constructor.
  - destruct (child_exists (gdim g) x (anc 1 x) F) as (j & Hj & E); [cbn [anc level]; lia|reflexivity|].
    rewrite E, path_child by (pose proof (nleaf_le (gdim g)); lia). apply Forall_app. split; [|constructor; [exact Hj|constructor]].
    apply IH; [cbn [anc level]; lia|apply flat_anc, F].
Qed.
Lemma path_flat_inv : forall p x, Forall (fun i => i < nleaf (gdim g)) p -> flat (gdim g) x -> flat (gdim g) (descend x p).
Proof.
  induction p as [|j p IH]; intros x Hp F; [exact F|]. inversion_clear Hp. cbn [descend fold_left]. apply IH; [assumption|].
  destruct F as [F2 F3]. pose proof (bit_high j 1). pose proof (bit_high j 2). pose proof (nleaf_le (gdim g)). destruct Vg as (Hd & _). split; intros Hdd; cbn [child lx2 lx3].
  - rewrite F2 by exact Hdd. destruct H1 as [B _]; [lia|]. rewrite B; [reflexivity| |reflexivity]. assert (E : gdim g = 1) by lia. rewrite E in H. exact H.
  - rewrite F3 by exact Hdd. destruct H2 as [_ B]; [lia|]. rewrite B; [reflexivity| |reflexivity]. destruct (gdim g) as [|[|[|]]]; cbn [nleaf] in H; lia.
Qed.
Lemma flat_root : flat (gdim g) rootloc.
Proof. split; reflexivity. Qed.
Lemma cond_root : condb rootloc = true.
Proof. apply cond_domain; [cbn; lia|apply flat_root|apply canon_root|apply (dom_root g Vg)]. Qed.
Lemma root_K : forall x, canon x -> flat (gdim g) x -> K (CreateRootGrid g) x =
  if Nat.leb (level x) (groot g) then (if condb x then (if Nat.eqb (level x) (groot g) then KLeaf (-1) else KNode) else KNull) else KNull.
Proof.
  intros x Hc F. unfold K, CreateRootGrid. rewrite create_kind; [|reflexivity|apply cond_root|apply (path_flat (level x)); [reflexivity|exact F]].
  rewrite path_length, (descend_path (level x)) by (reflexivity || exact Hc). reflexivity.
Qed.
Lemma root_flat : forall x, canon x -> K (CreateRootGrid g) x <> KNull -> flat (gdim g) x.
Proof.
  intros x Hc Hk. rewrite <- (descend_path (level x) x eq_refl Hc). apply path_flat_inv; [|apply flat_root].
  apply (shape_path _ (CreateRootGrid g)); [apply create_shape; reflexivity|apply K_nonnull_sub, Hk].
Qed.
Theorem root_wf : wf g (CreateRootGrid g).
Proof.
  constructor.
  - apply create_shape. reflexivity.
  - intros x Hc Hk. pose proof (root_flat x Hc Hk) as F. rewrite root_K in Hk by assumption. destruct (Nat.leb_spec (level x) (groot g)) as [Hl|Hl]; [|contradiction Hk; reflexivity].
    destruct (condb x) eqn:E; [|contradiction Hk; reflexivity]. apply cond_domain in E; assumption.
  - intros x Hx Hl. pose proof (dom_canon g Vg x Hx) as Hc. pose proof (dom_flat g x Hx) as F. rewrite root_K by assumption.
    rewrite (proj2 (Nat.leb_le _ _)) by lia. rewrite (proj2 (cond_domain x ltac:(lia) F Hc) Hx). rewrite (proj2 (Nat.eqb_neq _ _)) by lia. reflexivity.
  - intros x Hx Hl. pose proof (dom_canon g Vg x Hx) as Hc. pose proof (dom_flat g x Hx) as F. rewrite root_K by assumption.
    rewrite (proj2 (Nat.leb_le _ _)) by lia. rewrite (proj2 (cond_domain x ltac:(lia) F Hc) Hx). destruct (Nat.eqb _ _); discriminate.
  - intros x j Hc Hk Hl Hj. assert (F : flat (gdim g) x) by (apply root_flat; [exact Hc|congruence]). rewrite root_K in Hk by assumption.
    destruct (Nat.leb_spec (level x) (groot g)) as [Hl2|Hl2]; [|discriminate Hk]. destruct (condb x); [|discriminate Hk].
    rewrite (proj2 (Nat.eqb_eq _ _)) in Hk by lia. discriminate Hk.
Qed.
Theorem root_blocks : forall x, In x (blocks (CreateRootGrid g)) <-> in_domain g x /\ level x = groot g.
Proof.
  intros x. rewrite in_blocks by exact root_wf. split.
  - intros (Hc & z & Hk). assert (F : flat (gdim g) x) by (apply root_flat; [exact Hc|congruence]). rewrite root_K in Hk by assumption.
    destruct (Nat.leb_spec (level x) (groot g)) as [Hl2|Hl2]; [|discriminate Hk]. destruct (condb x) eqn:E; [|discriminate Hk].
    destruct (Nat.eqb_spec (level x) (groot g)) as [He|He]; [|discriminate Hk]. split; [apply cond_domain; assumption|exact He].
  - intros (Hx & He). pose proof (dom_canon g Vg x Hx) as Hc. pose proof (dom_flat g x Hx) as F. split; [exact Hc|]. exists (-1)%Z. rewrite root_K by assumption.
    rewrite (proj2 (Nat.leb_le _ _)) by lia. rewrite (proj2 (cond_domain x ltac:(lia) F Hc) Hx). rewrite (proj2 (Nat.eqb_eq _ _)) by lia. reflexivity.
Qed.
End Tiling.
