(** The neighbour lookup in the words of the specification, the block list, single operations. *)
From Coq Require Import List Arith ZArith Bool Lia Permutation.
From Verif Require Import Loc AMR_Spec AMR_Proofs AMR_Proofs2 Tree_Model Tree_Spec Tree_Proofs1 Tree_Proofs2 Tree_Proofs3 Tree_Proofs4 Tree_Proofs5 Tree_Proofs6 Tree_Proofs7 Tree_Proofs8 Tree_Restart Tree_Proofs9.
Import ListNotations.
Local Open Scope nat_scope.

Section Look.
Variable g : grid.
Hypothesis Vg : valid_grid g.
Let nl := nleaf (gdim g).
(** ** Neighbour lookup *)
Definition dir (o1 o2 o3 : Z) : Prop := (-1 <= o1 <= 1)%Z /\ (if Nat.ltb 1 (gdim g) then -1 <= o2 <= 1 else o2 = 0)%Z /\ (if Nat.ltb 2 (gdim g) then -1 <= o3 <= 1 else o3 = 0)%Z.
Lemma dir_offs : forall o1 o2 o3, dir o1 o2 o3 -> In o1 (offs g 0) /\ In o2 (offs g 1) /\ In o3 (offs g 2).
Proof.
  intros o1 o2 o3 (H1 & H2 & H3). unfold offs. destruct Vg as (Hd & _). destruct (Nat.ltb_spec 0 (gdim g)); [|lia]. destruct (Nat.ltb 1 (gdim g)), (Nat.ltb 2 (gdim g)); cbn; lia.
Qed.
Lemma nbpos_nb : forall l o m, in_domain g l -> groot g <= level l -> (forall d, d < 3 -> In (o d) (offs g d)) -> (neighbour_position g l o m <-> nb g l o m).
Proof.
  intros l o m Dl Hr Ho. split.
  - intros (Lm & Dm & H). split; [exact Lm|]. intros d Hd. split; [apply Ho, Hd|]. destruct (Nat.lt_ge_cases d (gdim g)) as [Hdd|Hdd].
    + destruct (H d Hdd) as (s & Hs & Hc). pose proof (dom_inr g m d ltac:(lia) Dm Hd) as Im. pose proof (dom_inr g l d Hr Dl Hd) as Il. pose proof (offs_range g d _ (Ho d Hd)) as Or.
      unfold inr in *. rewrite Lm in Im. unfold nmax in *. destruct (Nat.ltb_spec d (gdim g)) as [_|]; [|lia]. set (N := (gnrb g d * 2 ^ Z.of_nat (level l - groot g))%Z) in *. clearbody N.
      destruct Hs as [->|(P1 & P2 & [->| ->])]; [rewrite wrap_in by lia; f_equal; lia| |].
      * unfold wrap_per. destruct (Z.ltb_spec (coord d l + o d) 0); [|lia]. rewrite P1, P2. cbn [is_per]. destruct (Z.leb_spec N (N - 1)); [lia|]. f_equal. lia.
      * unfold wrap_per. destruct (Z.ltb_spec (coord d l + o d) 0); [lia|]. rewrite P2. cbn [is_per]. destruct (Z.leb_spec N (coord d l + o d)); [|lia]. f_equal. lia.
    + rewrite (offs_out g d _ Hdd (Ho d Hd)). destruct (Dl d Hd) as (_ & _ & D0). destruct (Dm d Hd) as (_ & _ & M0). rewrite (D0 Hdd), (M0 Hdd). unfold nmax. destruct (Nat.ltb_spec d (gdim g)); [lia|]. apply wrap_in. lia.
  - intros Hnb. split; [apply Hnb|]. split; [apply (nb_dom g Vg l o m Dl Hr Hnb)|]. intros d Hdd. assert (Hd : d < 3) by (destruct Vg as (Hd & _); lia). destruct Hnb as [Lm H]. destruct (H d Hd) as [_ Hw].
    pose proof (dom_inr g l d Hr Dl Hd) as Il. pose proof (offs_range g d _ (Ho d Hd)) as Or. unfold inr, nmax in *. destruct (Nat.ltb_spec d (gdim g)) as [_|]; [|lia]. set (N := (gnrb g d * 2 ^ Z.of_nat (level l - groot g))%Z) in *.
    unfold period_shift. destruct Vg as (_ & _ & _ & Hper). specialize (Hper d Hdd). unfold wrap_per in Hw. destruct (Z.ltb_spec (coord d l + o d) 0).
    + destruct (gbc g d false) eqn:P1; try discriminate Hw. cbn [is_per] in Hw. assert (P2 : gbc g d true = BPeriodic) by (apply Hper; reflexivity). destruct (Z.leb_spec N (N - 1)); [lia|]. injection Hw as Hw. exists N. split; [right; repeat split; auto|lia].
    + destruct (Z.leb_spec N (coord d l + o d)); [|injection Hw as Hw; exists 0%Z; split; [left; reflexivity|lia]].
      destruct (gbc g d true) eqn:P2; try discriminate Hw. cbn [is_per] in Hw. assert (P1 : gbc g d false = BPeriodic) by (apply Hper; reflexivity). injection Hw as Hw. exists (- N)%Z. split; [right; repeat split; auto|lia].
Qed.
Theorem lookup : no_pole g -> no_shear g -> forall t l o1 o2 o3 amr, wf g t -> B g t -> In l (blocks t) -> dir o1 o2 o3 ->
  (FindNeighbor g t l o1 o2 o3 amr = Some None <-> forall m, ~ neighbour_position g l (off3 o1 o2 o3) m) /\
  forall m, neighbour_position g l (off3 o1 o2 o3) m -> exists r, FindNeighbor g t l o1 o2 o3 amr = Some (Some r) /\
    ((r = m /\ exists b, In b (blocks t) /\ contains m b) \/ (In r (blocks t) /\ level r + 1 = level m /\ contains r m)).
Proof.
  intros NP NS t l o1 o2 o3 amr W Bt Hl Hdir. apply (in_blocks g t l W) in Hl as [Cl (z & Ez)]. destruct (leaf_level g t l z W Cl Ez) as [Dl Rl]. destruct (dir_offs _ _ _ Hdir) as (O1 & O2 & O3).
  assert (Hoff : forall d, d < 3 -> In (off3 o1 o2 o3 d) (offs g d)) by (intros d Hd; destruct d as [|[|[|d]]]; assumption || lia).
  assert (H2 : forall m, neighbour_position g l (off3 o1 o2 o3) m -> exists r, FindNeighbor g t l o1 o2 o3 amr = Some (Some r) /\
    ((r = m /\ exists b, In b (blocks t) /\ contains m b) \/ (In r (blocks t) /\ level r + 1 = level m /\ contains r m))).
  { intros m Hm. apply nbpos_nb in Hm; try assumption. destruct (find_leaf g Vg NP t l z o1 o2 o3 m amr W Bt Cl Ez Hm) as (r & E & [[-> Hk]|(Hgm & -> & (z' & Ez'))]).
    - exists m. split; [exact E|]. left. split; [reflexivity|]. pose proof (nb_dom g Vg l _ m Dl Rl Hm) as Dm. destruct (leaf_below g t (sub t (path m)) m W (dom_canon g Vg m Dm) eq_refl (K_nonnull_sub t m Hk)) as (y & zy & Cy & Hc & Ky & _).
      exists y. split; [|exact Hc]. apply (in_blocks g t y W). split; [exact Cy|exists zy; exact Ky].
    - exists (anc 1 m). split; [exact E|]. right. pose proof (nb_dom g Vg l _ m Dl Rl Hm) as Dm. split; [apply (in_blocks g t _ W); split; [apply canon_anc; [apply (dom_canon g Vg), Dm|lia]|exists z'; exact Ez']|].
      split; [cbn [anc level]; lia|]. split; [cbn [anc level]; lia|]. cbn [anc level]. f_equal; [lia|f_equal; f_equal; lia..]. }
  split; [|exact H2]. split.
  - intros E m Hm. destruct (H2 m Hm) as (r & E' & _). rewrite E in E'. discriminate E'.
  - intros H. unfold FindNeighbor. destruct (FindNeighborLoc g l o1 o2 o3) as [m|] eqn:E; [|reflexivity]. exfalso. apply (H m). apply nbpos_nb; try assumption. apply fnl_nb; assumption.
Qed.

(** ** The model's own order of the groups is one of the allowed ones *)
Lemma insert_perm : forall l ls, Permutation (insert l ls) (l :: ls).
Proof. intros l ls. induction ls as [|m ls IH]; [reflexivity|]. cbn [insert]. destruct (Nat.ltb _ _); [reflexivity|]. rewrite IH. constructor. Qed.
Lemma sort_perm : forall ls, Permutation (sort_all_but_last ls) ls.
Proof.
  intros ls. unfold sort_all_but_last. assert (P : forall l, Permutation (fold_right insert [] l) l). { induction l as [|x l IH]; [reflexivity|]. cbn [fold_right]. rewrite insert_perm, IH. reflexivity. }
  rewrite P. destruct ls as [|x ls]; [reflexivity|]. destruct (rev (x :: ls)) as [|y r] eqn:E; [apply (f_equal (@length loc)) in E; rewrite rev_length in E; discriminate E|].
  assert (E' : x :: ls = rev r ++ [y]) by (rewrite <- (rev_involutive (x :: ls)), E; reflexivity). rewrite E', removelast_last. reflexivity.
Qed.
Theorem update_allowed : forall t lref lderef, may_update g t lref lderef (UpdateMeshBlockTree g t lref lderef).
Proof.
  intros t lref lderef. unfold may_update, UpdateMeshBlockTree. destruct (_ && _); [reflexivity|]. eexists. split; [|reflexivity]. destruct (Nat.leb _ _); [apply sort_perm|reflexivity].
Qed.

(** ** The block list *)
Lemma nth_error_combine2 : forall (A B : Type) (xs : list A) (ys : list B) i x y, nth_error xs i = Some x -> nth_error ys i = Some y -> nth_error (combine xs ys) i = Some (x, y).
Proof. induction xs as [|a xs IH]; intros ys i x y Hx Hy; [destruct i; discriminate Hx|]. destruct ys as [|b ys]; [destruct i; discriminate Hy|]. destruct i; cbn in *; [congruence|apply IH; assumption]. Qed.
Theorem list_ids : forall t, wf g t ->
  let final := fst (GetMeshBlockList (renumbered t)) in
  NoDup (blocks t) /\ (forall x, In x (blocks t) <-> in_domain g x /\ exists z, K t x = KLeaf z) /\ count t = length (blocks t) /\
  length final = count t /\ forall i x, nth_error (blocks t) i = Some x -> nth_error final i = Some (x, Z.of_nat i).
Proof.
  intros t W final. split; [apply (blocks_nodup g t W)|]. split; [|split; [|split]].
  - intros x. rewrite (in_blocks g t x W). split; [intros [Cx (z & Ez)]; destruct (leaf_level g t x z W Cx Ez); split; [assumption|exists z; exact Ez]|intros [Dx Hz]; split; [apply (dom_canon g Vg), Dx|exact Hz]].
  - unfold blocks, GetMeshBlockList. cbn [fst]. rewrite map_length. symmetry. apply count_leaves.
  - unfold final, renumbered, GetMeshBlockList. cbn [fst snd]. rewrite (proj1 (renumber_leaves _ _ _)), combine_length, !map_length, seq_length, count_leaves. lia.
  - intros i x Hx. unfold final, renumbered, GetMeshBlockList. cbn [fst snd]. rewrite (proj1 (renumber_leaves _ _ _)). change (map fst (leaves t rootloc)) with (blocks t).
    assert (Hi : i < count t). { assert (Hlt : i < length (blocks t)) by (apply nth_error_Some; congruence). unfold blocks, GetMeshBlockList in Hlt. cbn [fst] in Hlt. rewrite map_length, count_leaves in Hlt. exact Hlt. }
    assert (Hs : nth_error (map Z.of_nat (seq 0 (count t))) i = Some (Z.of_nat i)).
    { rewrite (nth_error_nth' _ (Z.of_nat 0)) by (rewrite map_length, seq_length; exact Hi). rewrite map_nth, seq_nth by exact Hi. reflexivity. }
    apply nth_error_combine2; assumption.
Qed.
Lemma siblings_together : forall t l, wf g t -> (forall c, In c (children (gdim g) l) -> In c (blocks t)) -> exists pre post, blocks t = pre ++ children (gdim g) l ++ post.
Proof.
  intros t l W H. assert (HL : leaf_children g t l). { intros j Hj. assert (Hin : In (child l j) (blocks t)) by (apply H, in_children; exists j; split; [exact Hj|reflexivity]). apply (in_blocks g t _ W) in Hin as [_ Hz]. exact Hz. }
  pose proof (nleaf_pos (gdim g)) as Hp. assert (H0 : In (child l 0) (blocks t)) by (apply H, in_children; exists 0; split; [lia|reflexivity]). apply (in_blocks g t _ W) in H0 as [C0 (z & Ez)].
  assert (E : anc 1 (child l 0) = l) by (apply anc_child; lia). apply siblings_contiguous; try assumption.
  - rewrite <- E. apply canon_anc; [exact C0|rewrite child_level; lia].
  - rewrite <- E. apply K_anc; [rewrite child_level; lia|lia|congruence].
Qed.

(** ** One request *)
Lemma leaf_above : forall t l b, wf g t -> K t l <> KNull -> In b (blocks t) -> overlap b l -> level l <= level b /\ contains l b.
Proof.
  intros t l b W Hk Hb Ho. apply (in_blocks g t b W) in Hb as [Cb (z & Ez)]. destruct Ho as [Hc|Hc]; [|split; [apply Hc|exact Hc]].
  assert (b = l) by (apply (wf_contains_leaf t b l z Ez Hc Hk)). subst b. split; [lia|apply contains_refl].
Qed.
Lemma ext_finer : forall t t' a b, wf g t -> wf g t' -> ext t t' -> In a (blocks t) -> In b (blocks t') -> overlap a b -> contains a b.
Proof.
  intros t t' a b W W' X Ha Hb Ho. apply (in_blocks g t a W) in Ha as [Ca (z & Ez)]. apply (leaf_above t' a b W'); [apply (X a Ca); congruence|exact Hb|]. apply overlap_sym, Ho.
Qed.
Theorem request : forall t n l, wf g t -> in_domain g l -> exists t' n', AddMeshBlock g (t, n) l = Some (t', n') /\
  FindMeshBlock t' l <> Null /\ (forall b, In b (blocks t') -> overlap b l -> contains l b) /\
  (forall a b, In a (blocks t) -> In b (blocks t') -> overlap a b -> contains a b) /\ length (blocks t') + n = length (blocks t) + n'.
Proof.
  intros t n l W D. destruct (Add_spec g Vg t n l W D) as (t' & k & E & S & _ & Hk). exists t', (n + k * (nl - 1)). split; [exact E|].
  pose proof (splits_wf g Vg _ t t' k (fun x Hx => Hx) S W) as W'. pose proof (splits_ext g _ t t' k S) as X.
  split; [apply K_nonnull_sub, Hk|]. split; [intros b Hb Ho; apply (leaf_above t' l b W' Hk Hb Ho)|]. split; [intros a b; apply (ext_finer t t' a b W W' X)|].
  unfold blocks, GetMeshBlockList. cbn [fst]. rewrite !map_length, !count_leaves. pose proof (count_splits g _ t t' k S) as Hc. unfold nl. lia.
Qed.

(** ** One derefinement *)
Lemma upd_nth_app : forall c1 c c2 f, upd_nth (length c1) (c1 ++ c :: c2) f = c1 ++ f c :: c2.
Proof. induction c1 as [|x c1 IH]; intros c c2 f; [reflexivity|]. cbn [length app upd_nth]. rewrite IH. reflexivity. Qed.
Lemma leaves_upd : forall p t l, Forall (fun i => i < 8) p -> sub t p <> Null -> exists pre post, leaves t l = pre ++ leaves (sub t p) (descend l p) ++ post /\
  forall f, leaves (upd t p f) l = pre ++ leaves (f (sub t p)) (descend l p) ++ post.
Proof.
  induction p as [|n p IH]; intros t l F H; [exists [], []; cbn [app sub upd descend]; split; [|intros f]; rewrite app_nil_r; reflexivity|]. cbn [sub upd] in *.
  destruct t as [|z|z ch]; [contradiction|contradiction|]. rewrite leaves_node. inversion F as [|? ? Hn F']; subst.
  destruct (nth_split ch Null (n := n)) as (c1 & c2 & Ec & Lc); [apply nth_nonnull; intros E; apply H; rewrite E; apply sub_null|].
  destruct (IH (nth n ch Null) (child l n) F' H) as (pre & post & E & EU). set (c := nth n ch Null) in *. clearbody c. subst ch. subst n.
  exists (golv l c1 0 ++ pre), (post ++ golv l c2 (S (length c1))). cbn [descend fold_left]. fold (descend (child l (length c1)) p). split; [|intros f; rewrite leaves_node, upd_nth_app]; rewrite golv_app; cbn [golv]; rewrite ?Nat.add_0_l, ?E, ?EU, !app_assoc; reflexivity.
Qed.
Theorem derefine_blocks : no_pole g -> forall t n l t' n', wf g t -> B g t -> in_domain g l -> groot g <= level l -> Derefine g (t, n) l = Some (t', n') ->
  balanced g (blocks t') /\ ((t' = t /\ n' = n) \/
    exists pre post, blocks t = pre ++ children (gdim g) l ++ post /\ blocks t' = pre ++ [l] ++ post /\ n' = n + (nleaf (gdim g) - 1)).
Proof.
  intros NP t n l t' n' W Bt Dl Rl H. pose proof (Derefine_B g Vg NP t n l t' n' W Bt Dl Rl H) as Bt'. destruct (Derefine_cases g Vg t n l t' n' W Dl Rl H) as [Hk [[-> ->]|(HL & z & Ez & -> & ->)]].
  - split; [apply (B_balanced g Vg NP t W Bt)|]. left. split; reflexivity.
  - pose proof (dom_canon g Vg l Dl) as Cl. split; [apply (B_balanced g Vg NP _ (wf_collapse g Vg t l z W Cl Hk Rl HL) Bt')|]. right.
    destruct (leaves_upd (path l) t rootloc (path_lt l)) as (pre & post & E & EU); [apply K_nonnull_sub; congruence|]. rewrite (descend_path (level l) l eq_refl Cl) in E, EU.
    exists (map fst pre), (map fst post). unfold blocks, GetMeshBlockList, collapse. cbn [fst]. rewrite (EU (fun _ => Leaf z)), E, !map_app. split; [|split; reflexivity]. f_equal. f_equal.
    pose proof (shape_sub _ _ (path l) (wf_shape g t W)) as Sl. pose proof (nleaf_le (gdim g)) as H8.
    assert (HL' : forall j, j < nl -> exists z, sub (sub t (path l)) [j] = Leaf z).
    { intros j Hj. destruct (HL j Hj) as (z' & Ez'). exists z'. unfold K in Ez'. unfold nl in Hj. rewrite path_child, sub_app in Ez' by lia. destruct (sub (sub t (path l)) [j]); try discriminate Ez'. injection Ez' as ->. reflexivity. }
    unfold K in Hk. destruct (sub t (path l)) as [|z0|z0 ch]; try discriminate Hk. rewrite leaves_node. unfold children. pose proof (Sl [] z0 ch eq_refl) as Hlen. fold nl in Hlen. rewrite golv_leaves, Hlen; [reflexivity|].
    intros j Hj. rewrite Hlen in Hj. exact (HL' j Hj).
Qed.
End Look.
