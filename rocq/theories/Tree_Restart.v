(** Rebuilding the tree from the list of blocks. *)
From Coq Require Import List Arith ZArith Bool Lia Permutation.
From Verif Require Import Loc AMR_Spec AMR_Proofs AMR_Proofs2 Tree_Model Tree_Spec Tree_Proofs1 Tree_Proofs2 Tree_Proofs3 Tree_Proofs4 Tree_Proofs5 Tree_Proofs6 Tree_Proofs7 Tree_Proofs8.
Import ListNotations.
Local Open Scope nat_scope.

(** ** AddMeshBlockWithoutRefine *)
Lemma shape_nth : forall n z ch i, shape n (Node z ch) -> shape n (nth i ch Null).
Proof. intros n z ch i S p z' ch' E. apply (S (i :: p) z' ch' E). Qed.
Lemma shape_null : forall n, shape n Null.
Proof. intros n p z ch E. rewrite sub_null in E. discriminate E. Qed.
Lemma nth_repeat_null : forall i n, nth i (repeat Null n) Null = Null.
Proof. intros i n. revert i. induction n as [|n IH]; intros i; [destruct i; reflexivity|]. destruct i; [reflexivity|apply IH]. Qed.
Lemma addn_spec : forall n p t, t <> Null -> shape n t -> Forall (fun i => i < n) p ->
  shape n (add_norefine n t p) /\
  (forall r, r <> [] -> forall q, p = q ++ r -> kind (sub (add_norefine n t p) q) = KNode) /\
  (norm (kind (sub (add_norefine n t p) p)) = match kind (sub t p) with KNull => KLeaf 0 | k => norm k end) /\
  (forall q, (forall r, p <> q ++ r) -> kind (sub (add_norefine n t p) q) = kind (sub t q)).
Proof.
  intros n p. induction p as [|i p IH]; intros t Ht S F.
  - cbn [add_norefine]. split; [exact S|]. split; [|split].
    + intros r Hr q E. symmetry in E. apply app_eq_nil in E as [_ E]. contradiction.
    + cbn [sub]. destruct t; [contradiction|reflexivity|reflexivity].
    + intros q _. reflexivity.
  - inversion F as [|? ? Hi F']; subst. cbn [add_norefine]. set (gid := match t with Leaf g => g | Node g _ => g | Null => 0%Z end).
    set (ch := match t with Node _ ch => ch | _ => repeat Null n end). set (c := match nth i ch Null with Null => Leaf gid | c => c end).
    assert (Lch : length ch = n). { unfold ch. destruct t as [|z|z ch0]; [apply repeat_length|apply repeat_length|exact (S [] z ch0 eq_refl)]. }
    assert (Sch : forall j, shape n (nth j ch Null)). { intros j. unfold ch. destruct t as [|z|z ch0]; [rewrite nth_repeat_null; apply shape_null|rewrite nth_repeat_null; apply shape_null|apply (shape_nth n z ch0 j S)]. }
    assert (Hsub : forall j q, sub t (j :: q) = sub (nth j ch Null) q). { intros j q. unfold ch. destruct t as [|z|z ch0]; [contradiction|cbn [sub]; rewrite nth_repeat_null, sub_null; reflexivity|reflexivity]. }
    assert (Hc : c <> Null) by (unfold c; destruct (nth i ch Null); discriminate).
    assert (Sc : shape n c). { unfold c. specialize (Sch i). destruct (nth i ch Null); [apply shape_leaf|exact Sch|exact Sch]. }
    destruct (IH c Hc Sc F') as (S' & HN & HP & HO). set (c' := add_norefine n c p) in *.
    assert (Hnth : nth i (set_nth i ch c') Null = c') by (unfold set_nth; rewrite nth_upd_same by lia; reflexivity).
    assert (Hnth' : forall j, j <> i -> nth j (set_nth i ch c') Null = nth j ch Null) by (intros j Hj; unfold set_nth; apply nth_upd_other, Hj).
    split; [|split; [|split]].
    + apply shape_node; [unfold set_nth; rewrite upd_nth_length; exact Lch|]. intros j Hj. destruct (Nat.eq_dec j i) as [->|Hne]; [rewrite Hnth; exact S'|rewrite Hnth' by exact Hne; apply Sch].
    + intros r Hr q E. destruct q as [|j q]; [reflexivity|]. injection E as <- E. cbn [sub]. rewrite Hnth. apply (HN r Hr q E).
    + cbn [sub]. rewrite Hnth, HP. change (match t with Node _ ch0 => sub (nth i ch0 Null) p | _ => Null end) with (sub t (i :: p)). rewrite Hsub. unfold c.
      destruct (nth i ch Null) as [|z|z ch0]; [|reflexivity|reflexivity]. rewrite sub_null. destruct p; reflexivity.
    + intros q Hq. destruct q as [|j q]; [exfalso; apply (Hq (i :: p)); reflexivity|]. rewrite Hsub. cbn [sub]. destruct (Nat.eq_dec j i) as [->|Hne]; [|rewrite Hnth' by exact Hne; reflexivity].
      rewrite Hnth, HO by (intros r E; apply (Hq r); cbn [app]; rewrite E; reflexivity). unfold c. destruct (nth i ch Null) as [|z|z ch0] eqn:Ec; [|reflexivity|reflexivity].
      rewrite sub_null. destruct q as [|j q]; [|reflexivity]. exfalso. apply (Hq p). reflexivity.
Qed.
Lemma addn_nonnull : forall n p t, t <> Null -> add_norefine n t p <> Null.
Proof. intros n p t H. destruct p; [exact H|discriminate]. Qed.
Section Fold.
Variable n : nat.
Lemma addn_node : forall p t q, t <> Null -> shape n t -> Forall (fun i => i < n) p -> kind (sub t q) = KNode -> kind (sub (add_norefine n t p) q) = KNode.
Proof.
  intros p t q Ht S F Hk. destruct (addn_spec n p t Ht S F) as (_ & HN & HP & HO). destruct (prefix_dec q p) as [(r & E)|Hn]; [|rewrite HO by exact Hn; exact Hk].
  destruct r as [|i r]; [|apply (HN (i :: r)); [discriminate|exact E]]. rewrite app_nil_r in E. subst q. rewrite Hk in HP. destruct (kind (sub (add_norefine n t p) p)); [discriminate HP|discriminate HP|reflexivity].
Qed.
Lemma addn_leaf : forall p t q, t <> Null -> shape n t -> Forall (fun i => i < n) p -> norm (kind (sub t q)) = KLeaf 0 -> (forall r, p = q ++ r -> r = []) -> norm (kind (sub (add_norefine n t p) q)) = KLeaf 0.
Proof.
  intros p t q Ht S F Hk Hr. destruct (addn_spec n p t Ht S F) as (_ & HN & HP & HO). destruct (prefix_dec q p) as [(r & E)|Hn]; [|rewrite HO by exact Hn; exact Hk].
  pose proof (Hr r E) as ->. rewrite app_nil_r in E. subst q. rewrite HP. destruct (kind (sub t p)); [discriminate Hk|exact Hk|exact Hk].
Qed.
Lemma fold_spec : forall ps t, t <> Null -> shape n t -> Forall (fun p => Forall (fun i => i < n) p) ps -> let t' := fold_left (add_norefine n) ps t in
  shape n t' /\
  (forall q, kind (sub t q) = KNode -> kind (sub t' q) = KNode) /\
  (forall p r q, In p ps -> r <> [] -> p = q ++ r -> kind (sub t' q) = KNode) /\
  (forall q, (forall p r, In p ps -> p <> q ++ r) -> kind (sub t' q) = kind (sub t q)) /\
  (forall q, (forall p r, In p ps -> p = q ++ r -> r = []) -> norm (kind (sub t q)) = KLeaf 0 -> norm (kind (sub t' q)) = KLeaf 0) /\
  (forall q, In q ps -> (forall p r, In p ps -> p = q ++ r -> r = []) -> kind (sub t q) <> KNode -> norm (kind (sub t' q)) = KLeaf 0).
Proof.
  induction ps as [|p ps IH]; intros t Ht S F; cbn [fold_left].
  - split; [exact S|]. split; [intros q H; exact H|]. split; [intros p r q []|]. split; [reflexivity|]. split; [intros q _ H; exact H|]. intros q [].
  - inversion F as [|? ? Fp F']; subst. destruct (addn_spec n p t Ht S Fp) as (S1 & HN & HP & HO). pose proof (addn_nonnull n p t Ht) as Ht1.
    destruct (IH (add_norefine n t p) Ht1 S1 F') as (A1 & A2 & A3 & A4 & A5 & A6). split; [exact A1|]. split; [|split; [|split; [|split]]].
    + intros q Hq. apply A2, addn_node; assumption.
    + intros p' r q [<-|Hin] Hr E; [apply A2, (HN r Hr q E)|apply (A3 p' r q Hin Hr E)].
    + intros q Hq. rewrite A4 by (intros p' r Hp'; apply Hq; right; exact Hp'). apply HO. intros r. apply Hq. left. reflexivity.
    + intros q Hq Hk. apply A5; [intros p' r Hp'; apply Hq; right; exact Hp'|]. apply addn_leaf; try assumption. intros r. apply Hq. left. reflexivity.
    + intros q [->|Hin] Hq Hk.
      * apply A5; [intros p' r Hp'; apply Hq; right; exact Hp'|]. rewrite HP. destruct (kind (sub t q)); [reflexivity|reflexivity|contradiction].
      * destruct (prefix_dec q p) as [(r & E)|Hn].
        -- pose proof (Hq p r (or_introl eq_refl) E) as ->. rewrite app_nil_r in E. subst q. apply A5; [intros p' r' Hp'; apply Hq; right; exact Hp'|]. rewrite HP. destruct (kind (sub t p)); [reflexivity|reflexivity|contradiction].
        -- apply A6; [exact Hin|intros p' r' Hp'; apply Hq; right; exact Hp'|]. rewrite HO by exact Hn. exact Hk.
Qed.
End Fold.
Lemma fold_paths : forall n bs t, fold_left (fun t l => add_norefine n t (path l)) bs t = fold_left (add_norefine n) (map path bs) t.
Proof. intros n bs. induction bs as [|b bs IH]; intros t; [reflexivity|]. cbn. apply IH. Qed.

(** ** Trees of the same form have the same block lists *)
Lemma same_leaves : forall n t t' l, shape n t -> shape n t' -> same t t' -> map fst (leaves t' l) = map fst (leaves t l).
Proof.
  intros n. induction t as [|z|z ch IH] using tree_ind'; intros t' l S S' E.
  - specialize (E []). cbn in E. destruct t'; try discriminate E. reflexivity.
  - specialize (E []). cbn in E. destruct t'; try discriminate E. reflexivity.
  - pose proof (E []) as E0. cbn in E0. destruct t' as [|z'|z' ch']; try discriminate E0. rewrite !leaves_node.
    assert (L : length ch' = length ch) by (rewrite (S [] z ch eq_refl); exact (S' [] z' ch' eq_refl)).
    assert (H : forall i, i < length ch -> forall l', map fst (leaves (nth i ch' Null) l') = map fst (leaves (nth i ch Null) l')).
    { intros i Hi l'. rewrite Forall_forall in IH. apply IH; [apply nth_In, Hi|apply (shape_nth n z ch i S)|apply (shape_nth n z' ch' i S')|]. intros p. apply (E (i :: p)). }
    clear - L H. generalize 0 as k. revert ch' L H. induction ch as [|c ch IH]; intros ch' L H k; destruct ch' as [|c' ch']; try discriminate L; [reflexivity|]. cbn [golv]. fold (golv l). rewrite !map_app. f_equal.
    + apply (H 0). cbn. lia.
    + apply IH; [cbn in L; lia|]. intros i Hi l'. apply (H (S i)). cbn. lia.
Qed.
Section Restart.
Variable g : grid.
Hypothesis Vg : valid_grid g.
Let nl := nleaf (gdim g).
Lemma leaf_prefix : forall t a b r, wf g t -> canon a -> canon b -> (exists z, K t a = KLeaf z) -> (exists z, K t b = KLeaf z) -> path a = path b ++ r -> r = [].
Proof.
  intros t a b r W Ca Cb (za & Ea) (zb & Eb) E. assert (b = a). { apply (wf_contains_leaf t b a zb Eb); [|congruence]. apply (prefix_contains b a r Cb Ca E). }
  subst b. destruct r; [reflexivity|]. exfalso. apply (f_equal (@length nat)) in E. rewrite app_length in E. cbn in E. lia.
Qed.
Theorem restart_same : forall t, wf g t -> shape nl (restart_tree g (blocks t)) /\ same t (restart_tree g (blocks t)).
Proof.
  intros t W. unfold restart_tree. change (AddMeshBlockWithoutRefine g) with (fun (t : tree) l => add_norefine nl t (path l)). rewrite fold_paths.
  pose proof (root_wf g Vg) as W0. pose proof (wf_shape g _ W0) as S0. fold nl in S0.
  assert (H0 : CreateRootGrid g <> Null). { pose proof (wf_root g _ W0 rootloc (dom_root g Vg) ltac:(cbn; lia)) as Hr. apply K_nonnull_sub in Hr. exact Hr. }
  assert (FP : Forall (fun p => Forall (fun i => i < nl) p) (map path (blocks t))).
  { apply Forall_forall. intros p Hp. apply in_map_iff in Hp as (b & <- & Hb). apply (in_blocks g t b W) in Hb as [Cb (z & Ez)]. apply (shape_path nl t); [apply (wf_shape g t W)|]. apply K_nonnull_sub. congruence. }
  destruct (fold_spec nl (map path (blocks t)) (CreateRootGrid g) H0 S0 FP) as (A1 & A2 & A3 & A4 & A5 & A6). set (t' := fold_left (add_norefine nl) (map path (blocks t)) (CreateRootGrid g)) in *. clearbody t'.
  split; [exact A1|]. intros q.
  assert (Hleafp : forall p, In p (map path (blocks t)) -> exists b, canon b /\ path b = p /\ exists z, K t b = KLeaf z). { intros p Hp. apply in_map_iff in Hp as (b & <- & Hb). apply (in_blocks g t b W) in Hb as [Cb Hz]. exists b. split; [exact Cb|]. split; [reflexivity|exact Hz]. }
  assert (Hloc : forall tt, shape nl tt -> sub tt q <> Null -> exists x, canon x /\ path x = q).
  { intros tt St Hs. exists (descend rootloc q). split; [apply canon_descend, canon_root|]. rewrite path_descend; [reflexivity|]. apply (Forall_lt8 nl); [apply nleaf_le|]. apply (shape_path nl tt q St Hs). }
  destruct (sub t q) as [|z|z ch] eqn:Eq.
  - assert (Hno : forall p r, In p (map path (blocks t)) -> p <> q ++ r). { intros p r Hp E. destruct (Hleafp p Hp) as (b & Cb & <- & (z & Ez)). unfold K in Ez. rewrite E, sub_app, Eq, sub_null in Ez. discriminate Ez. }
    rewrite (A4 q Hno). destruct (sub (CreateRootGrid g) q) as [|z0|z0 ch0] eqn:E0; [reflexivity| |]; exfalso; (destruct (Hloc (CreateRootGrid g) S0) as (x & Cx & <-); [congruence|]);
      assert (Kx : K (CreateRootGrid g) x <> KNull) by (unfold K; rewrite E0; discriminate); pose proof (wf_dom g _ W0 x Cx Kx) as Dx;
      pose proof (root_flat g Vg x Cx Kx) as Fx; (assert (Lx : level x <= groot g); [rewrite (root_K g Vg x Cx Fx) in Kx; destruct (Nat.leb_spec (level x) (groot g)); [assumption|contradiction Kx; reflexivity]|]);
      pose proof (wf_root g t W x Dx Lx) as Kt; unfold K in Kt; rewrite Eq in Kt; apply Kt; reflexivity.
  - destruct (Hloc t (wf_shape g t W)) as (x & Cx & Ex); [congruence|]. assert (Kx : K t x = KLeaf z) by (unfold K; rewrite Ex, Eq; reflexivity).
    cbn [kind norm]. apply A6.
    + apply in_map_iff. exists x. split; [exact Ex|]. apply (in_blocks g t x W). split; [exact Cx|exists z; exact Kx].
    + intros p r Hp E. destruct (Hleafp p Hp) as (b & Cb & Eb & Hz). apply (leaf_prefix t b x r W Cb Cx Hz); [exists z; exact Kx|]. rewrite Eb, Ex. exact E.
    + intros E0. destruct (leaf_level g t x z W Cx Kx) as [Dx Rx]. rewrite <- Ex in E0. fold (K (CreateRootGrid g) x) in E0.
      pose proof (root_flat g Vg x Cx ltac:(congruence)) as Fx. rewrite (root_K g Vg x Cx Fx) in E0. destruct (Nat.leb_spec (level x) (groot g)); [|discriminate E0]. destruct (condb g x); [|discriminate E0]. destruct (Nat.eqb_spec (level x) (groot g)); [discriminate E0|lia].
  - destruct (Hloc t (wf_shape g t W)) as (x & Cx & Ex); [congruence|]. destruct (leaf_below g t (Node z ch) x W Cx) as (y & zy & Cy & Hc & Ky & Hlv); [rewrite Ex; exact Eq|discriminate|]. specialize (Hlv eq_refl).
    destruct (contains_prefix x y Hc) as (r & Er). cbn [kind norm]. rewrite (A3 (path y) r q); [reflexivity|apply in_map, (in_blocks g t y W); split; [exact Cy|exists zy; exact Ky]| |rewrite <- Ex; exact Er].
    intros ->. apply (f_equal (@length nat)) in Er. rewrite app_length, !path_length in Er. cbn in Er. lia.
Qed.
Theorem restart_blocks : forall t, wf g t -> blocks (restart_tree g (blocks t)) = blocks t /\
  fst (GetMeshBlockList (renumbered (restart_tree g (blocks t)))) = fst (GetMeshBlockList (renumbered t)).
Proof.
  intros t W. destruct (restart_same t W) as [S E]. pose proof (same_leaves nl t _ rootloc (wf_shape g t W) S E) as EB. split; [exact EB|].
  unfold renumbered, GetMeshBlockList. cbn [fst snd]. rewrite !(proj1 (renumber_leaves _ _ _)), EB, <- !(count_leaves _ rootloc). f_equal. f_equal. f_equal. rewrite <- !(map_length fst), EB. reflexivity.
Qed.

End Restart.
