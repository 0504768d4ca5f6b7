(** One update of the tree as a list of pieces; histories. *)
From Coq Require Import List Arith ZArith Bool Lia Permutation.
From Verif Require Import Loc AMR_Spec AMR_Proofs AMR_Proofs2 Tree_Model Tree_Spec Tree_Proofs1 Tree_Proofs2 Tree_Proofs3 Tree_Proofs4 Tree_Proofs5 Tree_Proofs6 Tree_Proofs7.
Import ListNotations.
Local Open Scope nat_scope.

Fixpoint pieces (t0 t : tree) (l : loc) : list piece :=
  match t0, t with
  | Leaf _, Leaf _ => [Keep l]
  | Leaf _, Node _ _ => [Split l]
  | Node _ _, Leaf _ => [Merge l]
  | Node _ ch0, Node _ ch => (fix go ch0 ch n := match ch0, ch with c0 :: ch0, c :: ch => pieces c0 c (child l n) ++ go ch0 ch (S n) | _, _ => [] end) ch0 ch 0
  | _, _ => []
  end.
Definition gopc (l : loc) := fix go ch0 ch n := match ch0, ch with c0 :: ch0, c :: ch => pieces c0 c (child l n) ++ go ch0 ch (S n) | _, _ => [] end.
Lemma pieces_node : forall z0 z ch0 ch l, pieces (Node z0 ch0) (Node z ch) l = gopc l ch0 ch 0.
Proof. reflexivity. Qed.
Lemma golv_map_leaf : forall l zs n, golv l (map Leaf zs) n = combine (map (child l) (seq n (length zs))) zs.
Proof. intros l zs. induction zs as [|z zs IH]; intros n; [reflexivity|]. cbn [map golv leaves app length seq combine]. fold (golv l). rewrite IH. reflexivity. Qed.
Lemma golv_repeat : forall l z k n, golv l (repeat (Leaf z) k) n = map (fun j => (child l j, z)) (seq n k).
Proof. intros l z k. induction k as [|k IH]; intros n; [reflexivity|]. cbn [repeat golv leaves app seq map]. fold (golv l). rewrite IH. reflexivity. Qed.
Lemma map_fst_combine : forall (A B : Type) (l : list A) (m : list B), length l = length m -> map fst (combine l m) = l.
Proof. intros A B0 l. induction l as [|a l IH]; intros m H; [reflexivity|]. destruct m; [discriminate H|]. cbn. rewrite IH by (cbn in H; lia). reflexivity. Qed.
Lemma map_snd_combine : forall (A B : Type) (l : list A) (m : list B), length l = length m -> map snd (combine l m) = m.
Proof. intros A B0 l. induction l as [|a l IH]; intros m H; [destruct m; [reflexivity|discriminate H]|]. destruct m; [discriminate H|]. cbn. rewrite IH by (cbn in H; lia). reflexivity. Qed.

Definition ids_from (o : nat) (xs : list (loc * Z)) : Prop := map snd xs = map Z.of_nat (seq o (length xs)).
Lemma app_inj_len : forall (A : Type) (a b c d : list A), a ++ b = c ++ d -> length a = length c -> a = c /\ b = d.
Proof. intros A a. induction a as [|x a IH]; intros b c d E L; destruct c as [|y c]; try discriminate L; [split; [reflexivity|exact E]|]. cbn in E, L. injection E as -> E. destruct (IH b c d E ltac:(lia)) as [-> ->]. split; reflexivity. Qed.
Lemma ids_app : forall o xs ys, ids_from o (xs ++ ys) -> ids_from o xs /\ ids_from (o + length xs) ys.
Proof.
  intros o xs ys H. unfold ids_from in *. rewrite map_app, app_length, seq_app, map_app in H. apply app_inj_len in H; [exact H|]. rewrite !map_length, seq_length. reflexivity.
Qed.

Definition fits (dim : nat) (t0 t : tree) (l : loc) : Prop :=
  map fst (leaves t0 l) = old_blocks dim (pieces t0 t l) /\ map fst (leaves t l) = new_blocks dim (pieces t0 t l) /\
  forall o, ids_from o (leaves t0 l) -> map snd (leaves t l) = map Z.of_nat (new2old dim o (pieces t0 t l)).
Lemma fits_list : forall dim l ch0 ch n, length ch0 = length ch -> (forall i, i < length ch0 -> forall l', fits dim (nth i ch0 Null) (nth i ch Null) l') ->
  map fst (golv l ch0 n) = old_blocks dim (gopc l ch0 ch n) /\ map fst (golv l ch n) = new_blocks dim (gopc l ch0 ch n) /\
  forall o, ids_from o (golv l ch0 n) -> map snd (golv l ch n) = map Z.of_nat (new2old dim o (gopc l ch0 ch n)).
Proof.
  intros dim l ch0. induction ch0 as [|c0 ch0 IH]; intros ch n L H; destruct ch as [|c ch]; try discriminate L; [repeat split; reflexivity|].
  cbn [golv gopc]. fold (golv l) (gopc l). destruct (IH ch (S n)) as (A1 & A2 & A3); [cbn in L; lia|intros i Hi; apply (H (S i)); cbn; lia|].
  destruct (H 0 ltac:(cbn; lia) (child l n)) as (B1 & B2 & B3). cbn [nth] in B1, B2, B3. rewrite !map_app, (proj1 (blocks_app _ _ _)), (proj2 (blocks_app _ _ _)), A1, A2, B1, B2. split; [reflexivity|]. split; [reflexivity|].
  intros o Ho. apply ids_app in Ho as [Ho1 Ho2]. rewrite (B3 o Ho1), (A3 _ Ho2), new2old_app, map_app. f_equal. f_equal. f_equal. f_equal. rewrite <- B1, map_length. reflexivity.
Qed.
Lemma Rel_fits : forall dim t0 t l, Rel (nleaf dim) t0 t -> fits dim t0 t l.
Proof.
  intros dim t0 t l R. revert l. remember (nleaf dim) as nl eqn:Enl. induction R as [|z|z z'|z0 zs L|z z' ch ch' L L' HR IH]; intros l; unfold fits.
  - repeat split; reflexivity.
  - cbn [leaves pieces]. split; [reflexivity|]. split; [reflexivity|]. intros o Ho. unfold ids_from in Ho. cbn in Ho |- *. exact Ho.
  - cbn [pieces]. rewrite leaves_node, golv_repeat. cbn [leaves old_blocks new_blocks flat_map piece_old piece_new]. rewrite !app_nil_r, !map_map. cbn [fst snd map]. subst nl. split; [reflexivity|]. split; [reflexivity|].
    intros o Ho. unfold ids_from in Ho. cbn in Ho. injection Ho as ->. cbn [new2old]. rewrite app_nil_r. clear. generalize 0. induction (nleaf dim) as [|k IH]; intros n; [reflexivity|]. cbn [seq map repeat]. rewrite IH. reflexivity.
  - cbn [pieces]. rewrite leaves_node, golv_map_leaf. cbn [leaves old_blocks new_blocks flat_map piece_old piece_new]. rewrite !app_nil_r. rewrite map_fst_combine by (rewrite map_length, seq_length; reflexivity). subst nl. split; [unfold children; rewrite L; reflexivity|]. split; [reflexivity|].
    intros o Ho. unfold ids_from in Ho. rewrite map_snd_combine, combine_length, map_length, seq_length, Nat.min_id in Ho by (rewrite map_length, seq_length; reflexivity).
    pose proof (nleaf_pos dim). destruct zs as [|z1 zs]; [cbn in L; lia|]. cbn [length seq map] in Ho. injection Ho as -> _. reflexivity.
  - rewrite pieces_node, !leaves_node. apply fits_list; [lia|]. intros i Hi l'. apply IH. lia.
Qed.
Lemma in_gopc : forall l q ch0 ch n, In q (gopc l ch0 ch n) -> exists i, i < length ch0 /\ In q (pieces (nth i ch0 Null) (nth i ch Null) (child l (n + i))).
Proof.
  intros l q ch0. induction ch0 as [|c0 ch0 IH]; intros ch n H; [destruct H|]. destruct ch as [|c ch]; [destruct H|]. cbn [gopc] in H. fold (gopc l) in H. apply in_app_iff in H as [H|H].
  - exists 0. rewrite Nat.add_0_r. split; [cbn; lia|exact H].
  - destruct (IH ch (S n) H) as (i & Hi & Hin). exists (S i). rewrite Nat.add_succ_r. split; [cbn; lia|exact Hin].
Qed.
Definition piece_at (t0 t : tree) (q : piece) (l : loc) (p : list nat) : Prop :=
  match q with
  | Keep x => x = descend l p /\ (exists z, sub t0 p = Leaf z) /\ (exists z, sub t p = Leaf z)
  | Split x => x = descend l p /\ (exists z, sub t0 p = Leaf z) /\ kind (sub t p) = KNode
  | Merge x => x = descend l p /\ kind (sub t0 p) = KNode /\ (exists z, sub t p = Leaf z)
  end.
Lemma in_pieces : forall t0 t l q, In q (pieces t0 t l) -> exists p, piece_at t0 t q l p.
Proof.
  induction t0 as [|z|z ch IH] using tree_ind'; intros t l q H; [destruct H| |].
  - destruct t as [|z'|z' ch']; [destruct H| |]; destruct H as [<-|[]]; exists []; cbn; repeat split; eexists; reflexivity.
  - destruct t as [|z'|z' ch']; [destruct H| |].
    + destruct H as [<-|[]]. exists []. cbn. repeat split. eexists; reflexivity.
    + rewrite pieces_node in H. apply in_gopc in H as (i & Hi & Hin). cbn [plus] in Hin. rewrite Forall_forall in IH. destruct (IH (nth i ch Null) (nth_In _ _ Hi) _ _ _ Hin) as (p & Hp). exists (i :: p).
      destruct q; exact Hp.
Qed.

Section Step.
Variable g : grid.
Hypothesis Vg : valid_grid g.
Let nl := nleaf (gdim g).
Lemma leaf_level : forall t x z, wf g t -> canon x -> K t x = KLeaf z -> in_domain g x /\ groot g <= level x.
Proof.
  intros t x z W Cx Hk. assert (Dx : in_domain g x) by (apply (wf_dom g t W); [exact Cx|congruence]). split; [exact Dx|].
  destruct (Nat.lt_ge_cases (level x) (groot g)) as [Hlt|]; [|assumption]. rewrite (wf_low g t W x Dx Hlt) in Hk. discriminate Hk.
Qed.
Lemma group_facts : forall t f l, wf g t -> (forall x, f x = true -> groot g < level x) -> In l (groups g (flagged f t)) ->
  in_domain g l /\ groot g <= level l /\ K t l = KNode /\ leaf_children g t l /\ forall c, In c (children (gdim g) l) -> In c (blocks t) /\ f c = true.
Proof.
  intros t f l W Hf H. assert (Hlv : forall n, In n (flagged f t) -> 1 <= level n). { intros n Hn. apply filter_In in Hn as [_ Hn]. specialize (Hf n Hn). lia. }
  assert (Hc : forall c, In c (children (gdim g) l) -> In c (blocks t) /\ f c = true). { intros c Hc. apply (groups_children g _ l Vg Hlv H), filter_In in Hc. exact Hc. }
  assert (HL : leaf_children g t l). { intros j Hj. destruct (Hc (child l j)) as [Hb _]; [apply in_children; exists j; split; [exact Hj|reflexivity]|]. apply (in_blocks g) in Hb; [|exact W]. apply Hb. }
  pose proof (nleaf_pos (gdim g)) as Hp. destruct (Hc (child l 0)) as [Hb Hb']; [apply in_children; exists 0; split; [lia|reflexivity]|]. apply (in_blocks g) in Hb as [Cc (z & Ez)]; [|exact W].
  assert (Hk : K t l = KNode) by (apply (K_child_parent t l 0); [lia|congruence]). specialize (Hf _ Hb'). cbn [child level] in Hf.
  assert (Cl : canon l). { pose proof (canon_anc 1 (child l 0) Cc ltac:(cbn [child level]; lia)) as Ca. rewrite anc_child in Ca. exact Ca. }
  split; [apply (wf_dom g t W); [exact Cl|congruence]|]. split; [lia|]. split; [exact Hk|]. split; [exact HL|exact Hc].
Qed.
Lemma flagged_nodup : forall t f, wf g t -> NoDup (flagged f t).
Proof. intros t f W. apply NoDup_filter, (blocks_nodup g t W). Qed.
Lemma merges_node : forall M a b k x, merges g M a b k -> wf g a -> canon x -> K a x = KNode -> ~ M x -> K b x = KNode.
Proof.
  intros M a b k x H. induction H as [|t a l z k S IH Ml Dl Rl Hk HL Ez]; intros W Cx Hx Hn; [exact Hx|]. specialize (IH W Cx Hx Hn).
  rewrite (collapse_other g); [exact IH|apply (wf_shape g), (merges_wf g Vg M t a k S W)|congruence|exact HL|apply (dom_canon g Vg), Dl|exact Cx|intros ->; contradiction|].
  intros j Hj ->. destruct (HL j Hj) as (z' & E). congruence.
Qed.
(** what the lists handed to the tree contain *)
Definition good_cld (t : tree) (f : loc -> bool) (cld : list loc) : Prop := NoDup cld /\ forall l, In l cld -> In l (groups g (flagged f t)).
Lemma may_update_inv : forall t fr fd r, wf g t -> (forall x, fd x = true -> groot g < level x) -> may_update g t (flagged fr t) (flagged fd t) r ->
  r = Some (t, 0, 0) \/ exists cld, good_cld t fd cld /\ r = update_with g t (flagged fr t) cld.
Proof.
  intros t fr fd r W Hf H. unfold may_update in H. destruct (_ && _) in H; [left; exact H|right]. destruct H as (cld & Hp & ->). exists cld. split; [|reflexivity].
  destruct (Nat.leb _ _).
  - split; [apply (Permutation_NoDup (Permutation_sym Hp)), groups_nodup; [exact Vg| |apply flagged_nodup, W]|intros l Hl; apply (Permutation_in l Hp Hl)].
    intros n Hn. apply filter_In in Hn as [_ Hn]. specialize (Hf n Hn). lia.
  - apply Permutation_sym, Permutation_nil in Hp. subst cld. split; [constructor|intros l []].
Qed.
Lemma lref_facts : forall t f l, wf g t -> In l (flagged f t) -> in_domain g l /\ groot g <= level l /\ (exists z, K t l = KLeaf z) /\ f l = true.
Proof.
  intros t f l W H. apply filter_In in H as [H Hf]. apply (in_blocks g) in H as [Cl (z & Ez)]; [|exact W]. destruct (leaf_level t l z W Cl Ez) as [D R]. split; [exact D|]. split; [exact R|]. split; [exists z; exact Ez|exact Hf].
Qed.
(** for every boundary setting *)
Lemma update_general : forall t fr fd cld t' nnew ndel, wf g t -> (forall x, fd x = true -> groot g < level x) -> good_cld t fd cld -> update_with g t (flagged fr t) cld = Some (t', nnew, ndel) ->
  exists t1 k k', wf g t1 /\ wf g t' /\ splits g (fun x => groot g <= level x) t t1 k /\ newbal g t t1 /\ merges g (fun l => In l cld) t1 t' k' /\ nnew = k * (nl - 1) /\ ndel = k' * (nl - 1) /\
    foldo (Derefine g) (t1, 0) cld = Some (t', ndel).
Proof.
  intros t fr fd cld t' nnew ndel W Hf [Hnd Hg] H. unfold update_with in H.
  destruct (refines_ok g Vg (fun x => groot g <= level x) (fun x Hx => Hx)) with (ls := flagged fr t) (t := t) (n := 0) as (t1 & k & E1 & [S1 N1] & _); [|exact W| |].
  - intros l m k _ _ _ [Hk _]. rewrite ancl_level. exact Hk.
  - intros l Hl. destruct (lref_facts t fr l W Hl) as (D & R & (z & Ez) & _). split; [exact D|]. split; [congruence|exact R].
  - rewrite E1 in H. destruct (foldo (Derefine g) (t1, 0) cld) as [[t2 nd]|] eqn:E2; [|discriminate H]. injection H as -> <- <-.
    assert (W1 : wf g t1) by (apply (splits_wf g Vg _ t t1 k (fun x Hx => Hx) S1 W)).
    destruct (derefs_spec g Vg cld t1 0 t' nd W1) as (k' & -> & M1); [|exact E2|].
    + intros l Hl. destruct (group_facts t fd l W Hf (Hg l Hl)) as (D & R & _). split; assumption.
    + exists t1, k, k'. split; [exact W1|]. split; [exact (merges_wf g Vg _ _ _ _ M1 W1)|]. split; [exact S1|]. split; [exact N1|]. split; [exact M1|]. split; [lia|]. split; [lia|]. exact E2.
Qed.
End Step.
