(** FindNeighbor and Derefine. *)
From Coq Require Import List Arith ZArith Bool Lia.
From Verif Require Import Loc AMR_Spec AMR_Proofs AMR_Proofs2 Tree_Model Tree_Spec Tree_Proofs1 Tree_Proofs2 Tree_Proofs3 Tree_Proofs4 Tree_Proofs5.
Import ListNotations.
Local Open Scope nat_scope.

(** ** Walking down the tree *)
Lemma walk_ex : forall p s nl k, sub s p <> Null -> walk s nl k p = Some nl.
Proof.
  induction p as [|n p IH]; intros s nl k H; cbn [walk sub] in *; [destruct s; try reflexivity; contradiction|].
  destruct s as [|z|z ch]; try contradiction. apply IH, H.
Qed.
Lemma walk_parent : forall q n s nl k z, sub s q = Leaf z -> walk s nl k (q ++ [n]) = Some (ancl (k + length q) nl).
Proof.
  induction q as [|i q IH]; intros n s nl k z H; cbn [app walk sub length] in *.
  - rewrite H, Nat.add_0_r. reflexivity.
  - destruct s as [|z0|z0 ch]; try discriminate H. rewrite (IH n _ nl (S k) z H). f_equal. f_equal. lia.
Qed.

(** ** Removing the children of a node *)
Section Collapse.
Variable g : grid.
Hypothesis Vg : valid_grid g.
Let nl := nleaf (gdim g).
Definition collapse (t : tree) (l : loc) (z : Z) : tree := upd t (path l) (fun _ => Leaf z).
Definition leaf_children (t : tree) (l : loc) : Prop := forall j, j < nl -> exists z, K t (child l j) = KLeaf z.
Lemma collapse_l : forall t l z, K t l <> KNull -> K (collapse t l z) l = KLeaf z.
Proof. intros t l z H. unfold K, collapse. rewrite upd_at by (apply K_nonnull_sub, H). reflexivity. Qed.
Lemma collapse_child : forall t l z j, K t l <> KNull -> j < 8 -> K (collapse t l z) (child l j) = KNull.
Proof. intros t l z j H Hj. unfold K, collapse. rewrite path_child by exact Hj. rewrite upd_below by (apply K_nonnull_sub, H). reflexivity. Qed.
Lemma collapse_other : forall t l z x, shape nl t -> K t l <> KNull -> leaf_children t l -> canon l -> canon x -> x <> l -> (forall j, j < nl -> x <> child l j) ->
  K (collapse t l z) x = K t x.
Proof.
  intros t l z x S Hk HL Hl Hx Hxl Hc. destruct (prefix_dec (path l) (path x)) as [(r & E)|Hn]; [|apply upd_kind, Hn].
  unfold K, collapse. rewrite E, upd_below, sub_app by (apply K_nonnull_sub, Hk).
  destruct r as [|j r]; [rewrite app_nil_r in E; apply path_inj in E; [contradiction|exact Hx|exact Hl]|]. cbn [sub kind].
  pose proof (nleaf_le (gdim g)) as H8. fold nl in H8.
  destruct (Nat.lt_ge_cases j nl) as [Hj|Hj].
  - destruct r as [|i r]; [exfalso; apply (Hc j Hj), path_inj; [exact Hx|apply canon_child, Hl|rewrite path_child by lia; exact E]|].
    destruct (HL j Hj) as (z' & Ez). unfold K in Ez. rewrite path_child, sub_app in Ez by lia. cbn [sub] in Ez.
    destruct (sub t (path l)) as [|z0|z0 ch]; try reflexivity. destruct (nth j ch Null); try discriminate Ez. reflexivity.
  - pose proof (shape_sub _ _ (path l) S) as Sl. destruct (sub t (path l)) as [|z0|z0 ch]; try reflexivity. rewrite nth_overflow, sub_null; [reflexivity|].
    rewrite (Sl [] z0 ch eq_refl). exact Hj.
Qed.
Lemma wf_collapse : forall t l z, wf g t -> canon l -> K t l = KNode -> groot g <= level l -> leaf_children t l -> wf g (collapse t l z).
Proof.
  intros t l z W Hl Hk Hr HL. assert (Hn : K t l <> KNull) by congruence. pose proof (wf_shape g t W) as S. pose proof (nleaf_le (gdim g)) as H8.
  assert (Hsplit : forall x, canon x -> x = l \/ (exists j, j < nl /\ x = child l j) \/ K (collapse t l z) x = K t x).
  { intros x Hx. destruct (loc_eq_dec x l) as [->|Hxl]; [left; reflexivity|right]. destruct (is_child_dec g x l) as [Hc|Hc]; [left; exact Hc|right].
    apply collapse_other; assumption. }
  constructor.
  - apply shape_upd; [exact S|apply K_nonnull_sub, Hn|apply shape_leaf].
  - intros x Hx Hxk. destruct (Hsplit x Hx) as [->|[(j & Hj & ->)|E]]; [apply (wf_dom g t W); assumption|rewrite collapse_child in Hxk by (assumption || (unfold nl in Hj; lia)); contradiction Hxk; reflexivity|].
    rewrite E in Hxk. apply (wf_dom g t W); assumption.
  - intros x Hx Hlv. pose proof (dom_canon g Vg x Hx) as Cx. destruct (Hsplit x Cx) as [->|[(j & Hj & ->)|E]]; [lia|cbn [child level] in Hlv; lia|]. rewrite E. apply (wf_low g t W); assumption.
  - intros x Hx Hlv. pose proof (dom_canon g Vg x Hx) as Cx. destruct (Hsplit x Cx) as [->|[(j & Hj & ->)|E]]; [rewrite collapse_l by exact Hn; discriminate|cbn [child level] in Hlv; lia|].
    rewrite E. apply (wf_root g t W); assumption.
  - intros x j Hx Hxk Hlv Hj. destruct (Hsplit x Hx) as [->|[(i & Hi & ->)|E]]; [rewrite collapse_l in Hxk by exact Hn; discriminate Hxk|rewrite collapse_child in Hxk by (assumption || (unfold nl in Hi; lia)); discriminate Hxk|].
    rewrite E in Hxk. pose proof (wf_child g t W x j Hx Hxk Hlv Hj) as Hc. destruct (Hsplit (child x j)) as [E2|[(i & Hi & E2)|E2]]; [apply canon_child, Hx|rewrite E2, collapse_l by exact Hn; discriminate| |rewrite E2; exact Hc].
    exfalso. assert (x = l) by (rewrite <- (anc_child x j), E2; apply anc_child). subst x. rewrite collapse_l in E by exact Hn. congruence.
Qed.
Lemma count_collapse : forall t l z, wf g t -> K t l = KNode -> leaf_children t l -> count (collapse t l z) + (nl - 1) = count t.
Proof.
  intros t l z W Hk HL. assert (Hn : sub t (path l) <> Null) by (apply K_nonnull_sub; congruence).
  pose proof (count_upd (path l) t (fun _ => Leaf z) Hn) as E. fold (collapse t l z) in E.
  assert (Ec : count (sub t (path l)) = nl).
  { unfold K in Hk. pose proof (nleaf_le (gdim g)) as H8. assert (HLs : forall j, j < nl -> exists z', kind (sub (sub t (path l)) [j]) = KLeaf z').
    { intros j Hj. destruct (HL j Hj) as (z' & Ez). exists z'. unfold K in Ez. rewrite path_child, sub_app in Ez by (unfold nl in Hj; lia). exact Ez. }
    pose proof (shape_sub _ _ (path l) (wf_shape g t W)) as Sl. destruct (sub t (path l)) as [|z0|z0 ch]; try discriminate Hk.
    rewrite count_node. assert (Hlen : length ch = nl) by exact (Sl [] z0 ch eq_refl). rewrite <- Hlen in *. clear Hlen Sl Hk E Hn H8.
    induction ch as [|c ch IH]; [reflexivity|]. cbn [gocnt length]. fold gocnt. rewrite IH.
    - destruct (HLs 0) as (z' & Ez); [cbn; lia|]. cbn [sub nth] in Ez. destruct c; try discriminate Ez. reflexivity.
    - intros j Hj. destruct (HLs (S j)) as (z' & Ez); [cbn; lia|]. exists z'. exact Ez. }
  cbn [count] in E. rewrite Ec in E. pose proof (nleaf_pos (gdim g)). fold nl in H. lia.
Qed.
End Collapse.

(** ** FindNeighbor *)
Section FindNb.
Variable g : grid.
Hypothesis Vg : valid_grid g.
Lemma fnl_self : forall l, in_domain g l -> groot g <= level l -> FindNeighborLoc g l 0 0 0 = Some l.
Proof.
  intros l Hl Hr. assert (H : forall d, d < 3 -> (0 <= coord d l < fmax g d (level l))%Z).
  { intros d Hd. pose proof (dom_inr g l d Hr Hl Hd) as Hi. unfold inr, nmax, fmax in *. destruct (Nat.ltb_spec d (gdim g)) as [Hdd|Hdd]; [exact Hi|].
    destruct Vg as (_ & _ & H1 & _). rewrite (H1 d Hdd). pose proof (pow2_pos (level l - groot g)). lia. }
  assert (W : forall d x, (0 <= x < fmax g d (level l))%Z -> wrap_f g d (fmax g d (level l)) x = Some (x, false)).
  { intros d x Hx. unfold wrap_f. destruct (Z.ltb_spec x 0); [lia|]. destruct (Z.leb_spec (fmax g d (level l)) x); [lia|]. reflexivity. }
  unfold FindNeighborLoc. rewrite !Z.add_0_r. rewrite (W 0) by (apply (H 0); lia). rewrite (W 1) by (apply (H 1); lia). rewrite (W 2) by (apply (H 2); lia). destruct l; reflexivity.
Qed.
Lemma find_same : forall t l o1 o2 o3 m, canon m -> level m = level l -> FindNeighborLoc g l o1 o2 o3 = Some m -> K t m <> KNull ->
  (forall z ch, sub t (path m) = Node z ch -> nth ((if Z.ltb o1 0 then 1 else 0) + (if Z.ltb o2 0 then 2 else 0) + (if Z.ltb o3 0 then 4 else 0)) ch Null <> Null) ->
  FindNeighbor g t l o1 o2 o3 true = Some (Some m).
Proof.
  intros t l o1 o2 o3 m Cm Hlv HL Hk Hc. unfold FindNeighbor. rewrite HL. destruct (Nat.ltb_spec (level l) 1) as [H0|H0].
  - rewrite (canon_level0 m Cm) by lia. reflexivity.
  - pose proof (K_nonnull_sub t m Hk) as Hn. rewrite walk_ex by exact Hn. rewrite Nat.ltb_irrefl. unfold FindMeshBlock.
    destruct (sub t (path m)) as [|z|z ch]; [contradiction|reflexivity|]. specialize (Hc z ch eq_refl). destruct (nth _ ch Null); [contradiction|reflexivity|reflexivity].
Qed.

(** ** Derefine, for every boundary setting *)
Definition facing_ns (o1 o2 o3 : Z) : list nat :=
  flat_map (fun lk => flat_map (fun lj => map (fun li => li + 2 * lj + 4 * lk) (facing g 0 o1)) (facing g 1 o2)) (facing g 2 o3).
Definition check_ok (t : tree) (l : loc) (o : Z * Z * Z) : Prop :=
  let '(o1, o2, o3) := o in
  match FindNeighbor g t l o1 o2 o3 true with
  | None => False
  | Some None => True
  | Some (Some bl) => match FindMeshBlock t bl with
                      | Null => False
                      | Leaf _ => True
                      | Node _ ch => forall n, In n (facing_ns o1 o2 o3) -> exists z, nth n ch Null = Leaf z
                      end
  end.
Lemma deref_ok_true : forall t l os, deref_ok g t l os = Some true -> forall o, In o os -> check_ok t l o.
Proof.
  intros t l. induction os as [|[[o1 o2] o3] os IH]; intros H o Ho; [destruct Ho|]. cbn [deref_ok] in H.
  destruct Ho as [<-|Ho].
  - unfold check_ok. destruct (FindNeighbor g t l o1 o2 o3 true) as [[bl|]|]; [|exact I|discriminate H].
    destruct (FindMeshBlock t bl) as [|z|z ch]; [discriminate H|exact I|]. fold (facing_ns o1 o2 o3) in H. intros n Hn.
    destruct (existsb _ (facing_ns o1 o2 o3)) eqn:E1 in H; [discriminate H|]. destruct (existsb _ (facing_ns o1 o2 o3)) eqn:E2 in H; [discriminate H|].
    destruct (nth n ch Null) as [|z'|z' ch'] eqn:En.
    + exfalso. assert (T : existsb (fun n => match nth n ch Null with Null => true | _ => false end) (facing_ns o1 o2 o3) = true) by (apply existsb_exists; exists n; split; [exact Hn|rewrite En; reflexivity]). congruence.
    + exists z'. reflexivity.
    + exfalso. assert (T : existsb (fun n => match nth n ch Null with Node _ _ => true | _ => false end) (facing_ns o1 o2 o3) = true) by (apply existsb_exists; exists n; split; [exact Hn|rewrite En; reflexivity]). congruence.
  - apply IH; [|exact Ho]. destruct (FindNeighbor g t l o1 o2 o3 true) as [[bl|]|]; [|exact H|discriminate H].
    destruct (FindMeshBlock t bl) as [|z|z ch]; [discriminate H|exact H|]. destruct (existsb _ _) in H; [discriminate H|]. destruct (existsb _ _) in H; [discriminate H|exact H].
Qed.
Lemma offsets_spec : forall o1 o2 o3, In (o1, o2, o3) (offsets g) <-> (-1 <= o1 <= 1)%Z /\ In o2 (offs g 1) /\ In o3 (offs g 2).
Proof.
  intros o1 o2 o3. unfold offsets. rewrite in_flat_map. split.
  - intros (a3 & H3 & H). apply in_flat_map in H as (a2 & H2 & H). apply in_map_iff in H as (a1 & E & H1). injection E as -> -> ->. split; [|split; assumption]. cbn in H1. lia.
  - intros (H1 & H2 & H3). exists o3. split; [exact H3|]. apply in_flat_map. exists o2. split; [exact H2|]. apply in_map_iff. exists o1. split; [reflexivity|]. cbn. lia.
Qed.
Lemma facing_all : forall j, j < nleaf (gdim g) -> In j (facing_ns 0 0 0).
Proof.
  intros j Hj. unfold facing_ns, facing. cbn [Z.eqb Z.compare]. destruct Vg as (Hd & _). destruct (gdim g) as [|[|[|[|n]]]]; try lia; cbn [nleaf] in Hj; cbn [Nat.ltb Nat.leb flat_map map app plus mult].
  - destruct j as [|[|j]]; try lia; cbn; auto.
  - destruct j as [|[|[|[|j]]]]; try lia; cbn; auto.
  - destruct j as [|[|[|[|[|[|[|[|j]]]]]]]]; try lia; cbn; tauto.
Qed.
Lemma find_self : forall t l, in_domain g l -> groot g <= level l -> wf g t -> K t l <> KNull -> FindNeighbor g t l 0 0 0 true = Some (Some l).
Proof.
  intros t l Hl Hr W Hk. apply find_same; [apply (dom_canon g Vg), Hl|reflexivity|apply fnl_self; assumption|exact Hk|].
  intros z ch E. cbn [Z.ltb Z.compare plus]. pose proof (nleaf_pos (gdim g)). assert (Hc : K t (child l 0) <> KNull).
  { apply (wf_child g t W); [apply (dom_canon g Vg), Hl|unfold K; rewrite E; reflexivity|exact Hr|lia]. }
  rewrite K_child, E in Hc by lia. intros E0. rewrite E0 in Hc. contradiction Hc. reflexivity.
Qed.
(** A derefinement changes nothing, or it replaces a full set of leaf children. *)
Lemma Derefine_cases : forall t n l t' n', wf g t -> in_domain g l -> groot g <= level l -> Derefine g (t, n) l = Some (t', n') ->
  K t l = KNode /\ ((t' = t /\ n' = n) \/
   (leaf_children g t l /\ exists z, K t (child l 0) = KLeaf z /\ t' = collapse t l z /\ n' = n + (nleaf (gdim g) - 1))).
Proof.
  intros t n l t' n' W Hl Hr H. unfold Derefine, FindMeshBlock in H. cbn [fst snd] in H. destruct (sub t (path l)) as [|z0|z0 ch] eqn:E; try discriminate H.
  assert (Hk : K t l = KNode) by (unfold K; rewrite E; reflexivity). split; [exact Hk|].
  destruct (deref_ok g t l (offsets g)) as [[|]|] eqn:Ed; [|left; injection H as <- <-; split; reflexivity|discriminate H]. right.
  assert (Hself : check_ok t l (0, 0, 0)%Z).
  { apply (deref_ok_true t l _ Ed). apply offsets_spec. split; [lia|]. split; apply offs0. }
  unfold check_ok in Hself. rewrite find_self in Hself by (assumption || congruence). unfold FindMeshBlock in Hself. rewrite E in Hself.
  assert (HL : leaf_children g t l).
  { intros j Hj. destruct (Hself j (facing_all j Hj)) as (z & Ez). exists z. rewrite K_child, E, Ez by (pose proof (nleaf_le (gdim g)); lia). reflexivity. }
  split; [exact HL|]. pose proof (nleaf_pos (gdim g)) as Hp. destruct (Hself 0 (facing_all 0 ltac:(lia))) as (z & Ez). exists z.
  split; [rewrite K_child, E, Ez by lia; reflexivity|]. rewrite Ez in H. cbn [gid_of] in H. injection H as <- <-. split; reflexivity.
Qed.

(** ** Without poles *)
Hypothesis NP : no_pole g.
Lemma wrap_f_of : forall d n x y, d < 3 -> wrap_per g d n x = Some y -> wrap_f g d n x = Some (y, false).
Proof.
  intros d n x y Hd. unfold wrap_f, wrap_per.
  destruct (Nat.eqb d 0), (Nat.eqb d 1), (gbc g d false), (gbc g d true), (Z.ltb x 0); cbn [is_per is_per_or_shear is_polar andb];
    try destruct (Z.leb n (n - 1)); try destruct (Z.leb n x); intros E; try discriminate E; injection E as <-; reflexivity.
Qed.
Lemma fmax_wrap : forall l d o, in_domain g l -> groot g <= level l -> d < 3 -> In o (offs g d) ->
  wrap_per g d (fmax g d (level l)) (coord d l + o) = wrap_per g d (nmax g d (level l)) (coord d l + o).
Proof.
  intros l d o Hl Hr Hd Ho. unfold fmax, nmax, offs in *. destruct (Nat.ltb_spec d (gdim g)) as [Hdd|Hdd]; [reflexivity|].
  destruct Ho as [<-|[]]. destruct (Hl d Hd) as (_ & _ & H0). rewrite (H0 Hdd). destruct Vg as (_ & _ & H1 & _). rewrite (H1 d Hdd). pose proof (pow2_pos (level l - groot g)).
  rewrite !wrap_in by lia. reflexivity.
Qed.
Lemma fnl_of_nb : forall l o1 o2 o3 m, in_domain g l -> groot g <= level l -> nb g l (off3 o1 o2 o3) m -> FindNeighborLoc g l o1 o2 o3 = Some m.
Proof.
  intros l o1 o2 o3 m Hl Hr [Hv H]. unfold FindNeighborLoc.
  destruct (H 0 ltac:(lia)) as [H1 E1]. destruct (H 1 ltac:(lia)) as [H2 E2]. destruct (H 2 ltac:(lia)) as [H3 E3]. cbn [off3] in *.
  rewrite <- fmax_wrap in E1, E2, E3 by (assumption || lia).
  change (lx1 l) with (coord 0 l). change (lx2 l) with (coord 1 l). change (lx3 l) with (coord 2 l).
  rewrite (wrap_f_of 0 _ _ _ ltac:(lia) E1), (wrap_f_of 1 _ _ _ ltac:(lia) E2), (wrap_f_of 2 _ _ _ ltac:(lia) E3). f_equal.
  destruct m as [v x y z]. cbn [level coord lx1 lx2 lx3] in *. congruence.
Qed.
(** the child indices facing an offset *)
Lemma facing_spec : forall o1 o2 o3 n, In o1 (offs g 0) -> In o2 (offs g 1) -> In o3 (offs g 2) ->
  (In n (facing_ns o1 o2 o3) <-> n < nleaf (gdim g) /\ forall d, d < 3 -> ((off3 o1 o2 o3 d = -1)%Z -> bit n d = 1%Z) /\ ((off3 o1 o2 o3 d = 1)%Z -> bit n d = 0%Z)).
Proof.
  intros o1 o2 o3 n H1 H2 H3. unfold facing_ns, facing, offs in *. destruct Vg as (Hd & _).
  assert (T : forall P : nat -> Prop, (forall d, d < 3 -> P d) <-> P 0 /\ P 1 /\ P 2).
  { intros P. split; [intros H; repeat split; apply H; lia|]. intros (A0 & A1 & A2) d Hdd. destruct d as [|[|[|d]]]; assumption || lia. }
  rewrite T. cbn [off3]. clear T.
  assert (A1 : (o1 = -1 \/ o1 = 0 \/ o1 = 1)%Z) by (destruct (Nat.ltb 0 (gdim g)); cbn in H1; lia).
  destruct (gdim g) as [|[|[|[|dm]]]]; try lia; cbn [Nat.ltb Nat.leb nleaf] in *.
  - assert (o2 = 0%Z) by (cbn in H2; lia). assert (o3 = 0%Z) by (cbn in H3; lia). subst o2 o3. clear H1 H2 H3.
    split.
    + destruct A1 as [->|[->| ->]]; cbn; intros H; repeat (destruct H as [<-|H]; [cbn; repeat split; intros; lia || discriminate|]); destruct H.
    + intros (Hn & (B1 & B2) & _). destruct A1 as [->|[->| ->]]; destruct n as [|[|n]]; try lia; cbn in *; try tauto; exfalso;
      first [discriminate (B1 eq_refl)|discriminate (B2 eq_refl)].
  - assert (A2 : (o2 = -1 \/ o2 = 0 \/ o2 = 1)%Z) by (cbn in H2; lia). assert (o3 = 0%Z) by (cbn in H3; lia). subst o3. clear H1 H2 H3.
    split.
    + destruct A1 as [->|[->| ->]], A2 as [->|[->| ->]]; cbn; intros H; repeat (destruct H as [<-|H]; [cbn; repeat split; intros; lia || discriminate|]); destruct H.
    + intros (Hn & (B1 & B2) & (B3 & B4) & _). destruct A1 as [->|[->| ->]], A2 as [->|[->| ->]]; destruct n as [|[|[|[|n]]]]; try lia; cbn in *; try tauto; exfalso;
      first [discriminate (B1 eq_refl)|discriminate (B2 eq_refl)|discriminate (B3 eq_refl)|discriminate (B4 eq_refl)].
  - assert (A2 : (o2 = -1 \/ o2 = 0 \/ o2 = 1)%Z) by (cbn in H2; lia). assert (A3 : (o3 = -1 \/ o3 = 0 \/ o3 = 1)%Z) by (cbn in H3; lia). clear H1 H2 H3.
    split.
    + destruct A1 as [->|[->| ->]], A2 as [->|[->| ->]], A3 as [->|[->| ->]]; cbn; intros H; repeat (destruct H as [<-|H]; [cbn; repeat split; intros; lia || discriminate|]); destruct H.
    + intros (Hn & (B1 & B2) & (B3 & B4) & B5 & B6). destruct A1 as [->|[->| ->]], A2 as [->|[->| ->]], A3 as [->|[->| ->]]; destruct n as [|[|[|[|[|[|[|[|n]]]]]]]]; try lia; cbn in *; try tauto; exfalso;
      first [discriminate (B1 eq_refl)|discriminate (B2 eq_refl)|discriminate (B3 eq_refl)|discriminate (B4 eq_refl)|discriminate (B5 eq_refl)|discriminate (B6 eq_refl)].
Qed.
(** the child tested by FindNeighbor *)
Definition sgn (o1 o2 o3 : Z) : nat := (if Z.ltb o1 0 then 1 else 0) + (if Z.ltb o2 0 then 2 else 0) + (if Z.ltb o3 0 then 4 else 0).
Lemma sgn_bit : forall o1 o2 o3 d, d < 3 -> bit (sgn o1 o2 o3) d = if Z.ltb (off3 o1 o2 o3 d) 0 then 1%Z else 0%Z.
Proof. intros o1 o2 o3 d Hd. unfold sgn. destruct d as [|[|[|d]]]; try lia; cbn [off3]; destruct (Z.ltb o1 0), (Z.ltb o2 0), (Z.ltb o3 0); reflexivity. Qed.
Lemma offs_out : forall d o, gdim g <= d -> In o (offs g d) -> o = 0%Z.
Proof. intros d o Hd Ho. unfold offs in Ho. destruct (Nat.ltb_spec d (gdim g)); [lia|]. destruct Ho as [<-|[]]. reflexivity. Qed.
Lemma sgn_lt : forall o1 o2 o3, In o1 (offs g 0) -> In o2 (offs g 1) -> In o3 (offs g 2) -> sgn o1 o2 o3 < nleaf (gdim g).
Proof.
  intros o1 o2 o3 H1 H2 H3. unfold sgn. destruct Vg as (Hd & _). pose proof (offs_out 1 o2) as O2. pose proof (offs_out 2 o3) as O3.
  destruct (gdim g) as [|[|[|[|dm]]]]; try lia; cbn [nleaf].
  - rewrite O2, O3 by (assumption || lia). destruct (Z.ltb o1 0); cbn; lia.
  - rewrite O3 by (assumption || lia). destruct (Z.ltb o1 0), (Z.ltb o2 0); cbn; lia.
  - destruct (Z.ltb o1 0), (Z.ltb o2 0), (Z.ltb o3 0); cbn; lia.
Qed.
Lemma sgn_child : forall t m o1 o2 o3 z ch, wf g t -> canon m -> groot g <= level m -> In o1 (offs g 0) -> In o2 (offs g 1) -> In o3 (offs g 2) ->
  sub t (path m) = Node z ch -> nth (sgn o1 o2 o3) ch Null <> Null /\ kind (nth (sgn o1 o2 o3) ch Null) = K t (child m (sgn o1 o2 o3)).
Proof.
  intros t m o1 o2 o3 z ch W Cm Hr H1 H2 H3 E. pose proof (sgn_lt o1 o2 o3 H1 H2 H3) as Hl. pose proof (nleaf_le (gdim g)) as H8.
  pose proof (wf_child g t W m (sgn o1 o2 o3) Cm) as Hc. unfold K at 1 in Hc. rewrite E in Hc. specialize (Hc eq_refl Hr Hl).
  rewrite K_child, E in * by lia. split; [|reflexivity]. intros E0. rewrite E0 in Hc. apply Hc. reflexivity.
Qed.
Lemma nb_offs : forall l o m, nb g l o m -> In (o 0) (offs g 0) /\ In (o 1) (offs g 1) /\ In (o 2) (offs g 2).
Proof. intros l o m [_ H]. split; [apply (H 0)|split; [apply (H 1)|apply (H 2)]]; lia. Qed.
Lemma find_exact : forall t l o1 o2 o3 m, wf g t -> in_domain g l -> groot g <= level l -> nb g l (off3 o1 o2 o3) m -> K t m <> KNull ->
  FindNeighbor g t l o1 o2 o3 true = Some (Some m).
Proof.
  intros t l o1 o2 o3 m W Hl Hr Hnb Hk. pose proof (nb_dom g Vg l _ m Hl Hr Hnb) as Dm. pose proof (dom_canon g Vg m Dm) as Cm.
  destruct (nb_offs _ _ _ Hnb) as (H1 & H2 & H3). cbn [off3] in *. destruct Hnb as [Hv Hnb'].
  apply find_same; [exact Cm|exact Hv|apply fnl_of_nb; try assumption; split; assumption|exact Hk|].
  intros z ch E. apply (sgn_child t m o1 o2 o3 z ch W Cm ltac:(lia) H1 H2 H3 E).
Qed.
Lemma offs_all : forall o1, (-1 <= o1 <= 1)%Z <-> In o1 (offs g 0).
Proof. intros o1. unfold offs. destruct Vg as (Hd & _). destruct (Nat.ltb_spec 0 (gdim g)); [cbn; lia|lia]. Qed.
(** Derefine keeps the balance *)
Lemma collapse_B : forall t l z, wf g t -> B g t -> in_domain g l -> groot g <= level l -> K t l = KNode -> deref_ok g t l (offsets g) = Some true ->
  leaf_children g t l -> B g (collapse t l z).
Proof.
  intros t l z W Bt Dl Hr Hk Hok HL x m Cx Hx Hxr Hm. pose proof (dom_canon g Vg l Dl) as Cl. pose proof (nleaf_le (gdim g)) as H8.
  assert (Hn : K t l <> KNull) by congruence. pose proof (wf_shape g t W) as S.
  destruct (loc_eq_dec x l) as [->|Hxl]; [rewrite collapse_l in Hx by exact Hn; discriminate Hx|].
  destruct (is_child_dec g x l) as [(j & Hj & ->)|Hxc]; [rewrite collapse_child in Hx by (assumption || lia); discriminate Hx|].
  rewrite (collapse_other g) in Hx by assumption. pose proof (wf_dom g t W x Cx ltac:(congruence)) as Dx.
  destruct (nlocs_dom g Vg x m Dx Hxr Hm) as [Dm Lm]. pose proof (dom_canon g Vg m Dm) as Cm. pose proof (Bt x m Cx Hx Hxr Hm) as Em.
  destruct (loc_eq_dec m l) as [->|Hml]; [rewrite collapse_l by exact Hn; discriminate|].
  destruct (is_child_dec g m l) as [(j & Hj & E)|Hmc]; [|rewrite (collapse_other g) by assumption; exact Em].
  exfalso. apply (nlocs_spec g NP) in Hm. destruct Hm as (o & Hnb & _). pose proof (nb_sym g Vg x o m Dx Hxr Hnb) as Hs.
  assert (Hlm : groot g < level m) by (rewrite E; cbn [child level]; lia).
  destruct (nb_parent g Vg m _ x Dm Hlm Hs) as [Hp Hpar]. set (o' := fun d => poff (coord d m) (- o d)) in *. rewrite E, anc_child in Hp.
  set (p := anc 1 x) in *.
  assert (Hx1 : 1 <= level x) by lia. assert (Ep : K t p <> KNull). { unfold p. rewrite (K_parent t x Hx1) by congruence. discriminate. }
  assert (Hp3 : nb g l (off3 (o' 0) (o' 1) (o' 2)) p).
  { destruct Hp as [Hp1 Hp2]. split; [exact Hp1|]. intros d Hd. specialize (Hp2 d Hd). destruct d as [|[|[|d]]]; try lia; exact Hp2. }
  destruct (nb_offs _ _ _ Hp) as (O1 & O2 & O3).
  assert (Hchk : check_ok t l (o' 0, o' 1, o' 2)) by (apply (deref_ok_true t l _ Hok), offsets_spec; split; [apply offs_all, O1|split; assumption]).
  unfold check_ok in Hchk. rewrite (find_exact t l _ _ _ p W Dl Hr Hp3 Ep) in Hchk. unfold FindMeshBlock in Hchk.
  destruct (dom_child_of g x Dx Hx1) as (i & Hi & Ei). fold p in Ei. pose proof Hx as Hxn. rewrite Ei, K_child in Hx by lia.
  destruct (sub t (path p)) as [|z0|z0 ch]; [discriminate Hx|discriminate Hx|].
  destruct (Hchk i) as (z' & Ez); [|rewrite Ez in Hx; discriminate Hx].
  apply facing_spec; try assumption. split; [exact Hi|]. intros d Hd.
  assert (Eo : off3 (o' 0) (o' 1) (o' 2) d = o' d) by (destruct d as [|[|[|d]]]; reflexivity || lia). rewrite Eo.
  assert (Ec : coord d x = (2 * (coord d x / 2) + bit i d)%Z).
  { pose proof (coord_child d p i) as Ec. rewrite <- Ei in Ec. assert (Ed : (if Nat.ltb d 2 then d else 2) = d) by (destruct d as [|[|[|d]]]; reflexivity || lia). rewrite Ed in Ec.
    assert (Ea : coord d p = (coord d x / 2)%Z) by (unfold p; rewrite coord_anc; reflexivity). rewrite Ea in Ec. exact Ec. }
  destruct (Hpar d Hd) as [P1 P2]. fold (o' d) in P1, P2. split; intros Eod; [specialize (P1 Eod)|specialize (P2 Eod)]; lia.
Qed.
Lemma Derefine_B : forall t n l t' n', wf g t -> B g t -> in_domain g l -> groot g <= level l -> Derefine g (t, n) l = Some (t', n') -> B g t'.
Proof.
  intros t n l t' n' W Bt Dl Hr H. pose proof H as H0. destruct (Derefine_cases t n l t' n' W Dl Hr H) as [Hk [[-> _]|(HL & z & Ez & -> & _)]]; [exact Bt|].
  unfold Derefine, FindMeshBlock in H0. cbn [fst snd] in H0. destruct (sub t (path l)) as [|z0|z0 ch] eqn:E; try discriminate H0.
  destruct (deref_ok g t l (offsets g)) as [[|]|] eqn:Ed; [|exfalso|discriminate H0].
  - apply collapse_B; assumption.
  - assert (E1 : K t l = K (collapse t l z) l) by (injection H0 as H0 _; rewrite <- H0; reflexivity). rewrite collapse_l, Hk in E1 by congruence. discriminate E1.
Qed.

(** ** The lookup on a balanced tree *)
Lemma wrap_child : forall d n x o y, d < gdim g -> (1 <= n)%Z -> (0 <= x < n)%Z -> (-1 <= o <= 1)%Z -> wrap_per g d n (x + o) = Some y ->
  wrap_per g d (2 * n) (2 * y + (if Z.ltb o 0 then 1 else 0) + - o) = Some (2 * x + (if Z.ltb 0 o then 1 else 0))%Z.
Proof.
  intros d n x o y Hd Hn Hx Ho H. destruct Vg as (_ & _ & _ & Hp). specialize (Hp d Hd).
  assert (Hpp : is_per (gbc g d false) = is_per (gbc g d true)).
  { destruct (gbc g d false), (gbc g d true); try reflexivity; exfalso; try (destruct Hp as [Hp _]; specialize (Hp eq_refl); discriminate Hp); destruct Hp as [_ Hp]; specialize (Hp eq_refl); discriminate Hp. }
  unfold wrap_per in *. destruct (Z.ltb_spec o 0), (Z.ltb_spec 0 o); try lia; destruct (Z.ltb_spec (x + o) 0).
  - destruct (is_per (gbc g d false)) eqn:E; [|discriminate H]. destruct (Z.leb_spec n (n - 1)); [lia|]. injection H as <-.
    destruct (Z.ltb_spec (2 * (n - 1) + 1 + - o) 0); [lia|]. destruct (Z.leb_spec (2 * n) (2 * (n - 1) + 1 + - o)); [|lia]. rewrite <- Hpp. f_equal. lia.
  - destruct (Z.leb_spec n (x + o)); [lia|]. injection H as <-. destruct (Z.ltb_spec (2 * (x + o) + 1 + - o) 0); [lia|]. destruct (Z.leb_spec (2 * n) (2 * (x + o) + 1 + - o)); [lia|]. f_equal. lia.
  - lia.
  - destruct (Z.leb_spec n (x + o)).
    + destruct (is_per (gbc g d true)) eqn:E; [|discriminate H]. injection H as <-. destruct (Z.ltb_spec (2 * 0 + 0 + - o) 0); [|lia]. rewrite Hpp. destruct (Z.leb_spec (2 * n) (2 * n - 1)); [lia|]. f_equal. lia.
    + injection H as <-. destruct (Z.ltb_spec (2 * (x + o) + 0 + - o) 0); [lia|]. destruct (Z.leb_spec (2 * n) (2 * (x + o) + 0 + - o)); [lia|]. f_equal. lia.
  - lia.
  - destruct (Z.leb_spec n (x + o)); [lia|]. injection H as <-. destruct (Z.ltb_spec (2 * (x + o) + 0 + - o) 0); [lia|]. destruct (Z.leb_spec (2 * n) (2 * (x + o) + 0 + - o)); [lia|]. f_equal. lia.
Qed.
Lemma offs_neg : forall d o, In o (offs g d) -> In (- o)%Z (offs g d).
Proof. intros d o. unfold offs. destruct (Nat.ltb d (gdim g)); cbn; lia. Qed.
(** the child of the neighbour that faces a block has a neighbour inside the block *)
Lemma facing_child : forall l o1 o2 o3 m, in_domain g l -> groot g <= level l -> nb g l (off3 o1 o2 o3) m ->
  nb g (child m (sgn o1 o2 o3)) (fun d => (- off3 o1 o2 o3 d)%Z) (child l (sgn (- o1) (- o2) (- o3))).
Proof.
  intros l o1 o2 o3 m Dl Hr [Hv H]. split; [cbn [child level]; lia|]. intros d Hd. destruct (H d Hd) as [Ho Hw]. split; [apply offs_neg, Ho|].
  assert (Ed : (if Nat.ltb d 2 then d else 2) = d) by (destruct d as [|[|[|d]]]; reflexivity || lia).
  rewrite !coord_child, Ed, !sgn_bit by exact Hd.
  assert (En : off3 (- o1) (- o2) (- o3) d = (- off3 o1 o2 o3 d)%Z) by (destruct d as [|[|[|d]]]; reflexivity). rewrite En.
  assert (Eb : (- off3 o1 o2 o3 d <? 0)%Z = (0 <? off3 o1 o2 o3 d)%Z) by (destruct (Z.ltb_spec (- off3 o1 o2 o3 d) 0), (Z.ltb_spec 0 (off3 o1 o2 o3 d)); reflexivity || lia). rewrite Eb.
  cbn [child level]. rewrite Hv. pose proof (dom_inr g l d Hr Dl Hd) as Hi. pose proof (nmax_pos g Vg d (level l) Hd) as Hn.
  destruct (Nat.lt_ge_cases d (gdim g)) as [Hdd|Hdd].
  - rewrite nmax_S by assumption. apply wrap_child; try assumption. apply (offs_range g d _ Ho).
  - rewrite (offs_out d _ Hdd Ho) in *. destruct (Dl d Hd) as (_ & _ & D0). rewrite (D0 Hdd) in *. unfold nmax in *. destruct (Nat.ltb_spec d (gdim g)); [lia|].
    rewrite wrap_in in Hw by lia. injection Hw as Hw. rewrite <- Hw. cbn. unfold wrap_per. cbn. reflexivity.
Qed.
Lemma find_leaf : forall t l z o1 o2 o3 m amr, wf g t -> B g t -> canon l -> K t l = KLeaf z -> nb g l (off3 o1 o2 o3) m ->
  exists r, FindNeighbor g t l o1 o2 o3 amr = Some (Some r) /\ ((r = m /\ K t m <> KNull) \/ (groot g < level m /\ r = anc 1 m /\ exists z', K t r = KLeaf z')).
Proof.
  intros t l z o1 o2 o3 m amr W Bt Cl Hk Hnb. pose proof (wf_dom g t W l Cl ltac:(congruence)) as Dl.
  assert (Hr : groot g <= level l). { destruct (Nat.lt_ge_cases (level l) (groot g)) as [Hlt|]; [|assumption]. rewrite (wf_low g t W l Dl Hlt) in Hk. discriminate Hk. }
  pose proof (nb_dom g Vg l _ m Dl Hr Hnb) as Dm. pose proof (dom_canon g Vg m Dm) as Cm. pose proof (fnl_of_nb l o1 o2 o3 m Dl Hr Hnb) as EL.
  destruct (nb_offs _ _ _ Hnb) as (O1 & O2 & O3). cbn [off3] in *. assert (Hv : level m = level l) by apply Hnb.
  destruct (K t m) as [|zm|] eqn:Em.
  - assert (Hgm : groot g < level m). { destruct (Nat.lt_ge_cases (groot g) (level m)); [assumption|]. contradiction (wf_root g t W m Dm ltac:(assumption)). }
    pose proof (B_parent g Vg NP t l _ m W Bt Cl ltac:(congruence) ltac:(lia) Hnb) as Hp.
    assert (Hpl : exists z', K t (anc 1 m) = KLeaf z').
    { destruct (K t (anc 1 m)) as [|z'|] eqn:Ep; [contradiction Hp; reflexivity|exists z'; reflexivity|]. exfalso.
      destruct (dom_child_of g m Dm ltac:(lia)) as (j & Hj & Ej). rewrite Ej in Em. revert Em. apply (wf_child g t W); [apply canon_anc; [exact Cm|lia]|exact Ep|cbn [anc level]; lia|exact Hj]. }
    exists (anc 1 m). split; [|right; split; [exact Hgm|split; [reflexivity|exact Hpl]]].
    unfold FindNeighbor. rewrite EL. destruct (Nat.ltb_spec (level l) 1); [lia|]. destruct Hpl as (z' & Ez). unfold K in Ez.
    destruct (sub t (path (anc 1 m))) as [|zz|zz ch] eqn:Es; try discriminate Ez.
    assert (Ew : walk t m 0 (path m) = Some (anc 1 m)).
    { rewrite (path_anc1 m) by lia. rewrite (walk_parent _ _ _ _ _ _ Es), path_length. f_equal. cbn [anc level plus]. rewrite ancl_anc by lia. f_equal. lia. }
    rewrite Ew. cbn [anc level]. destruct (Nat.ltb_spec (level m - 1) (level m)); [reflexivity|lia].
  - exists m. split; [|left; split; [reflexivity|congruence]]. unfold FindNeighbor. rewrite EL. destruct (Nat.ltb_spec (level l) 1); [rewrite (canon_level0 m Cm) by lia; reflexivity|].
    rewrite walk_ex by (apply K_nonnull_sub; congruence). rewrite Nat.ltb_irrefl. unfold FindMeshBlock. unfold K in Em. destruct (sub t (path m)); try discriminate Em. reflexivity.
  - exists m. split; [|left; split; [reflexivity|congruence]]. unfold FindNeighbor. rewrite EL. destruct (Nat.ltb_spec (level l) 1); [rewrite (canon_level0 m Cm) by lia; reflexivity|].
    rewrite walk_ex by (apply K_nonnull_sub; congruence). rewrite Nat.ltb_irrefl. unfold FindMeshBlock. pose proof Em as Em'. unfold K in Em. destruct (sub t (path m)) as [|zz|zz ch] eqn:Es; try discriminate Em.
    destruct (sgn_child t m o1 o2 o3 zz ch W Cm ltac:(lia) O1 O2 O3 Es) as [Hc1 Hc2]. fold (sgn o1 o2 o3).
    destruct (nth (sgn o1 o2 o3) ch Null) as [|zc|zc chc] eqn:Ec; [contradiction|reflexivity|]. destruct amr; [reflexivity|]. exfalso.
    cbn [kind] in Hc2. pose proof (facing_child l o1 o2 o3 m Dl Hr Hnb) as Hf.
    assert (Hcc : K t (child l (sgn (- o1) (- o2) (- o3))) <> KNull).
    { apply (B_nb g NP t (child m (sgn o1 o2 o3)) _ _ W Bt (canon_child _ _ Cm) (eq_sym Hc2) ltac:(cbn [child level]; lia) Hf). }
    pose proof (sgn_lt (- o1) (- o2) (- o3) (offs_neg _ _ O1) (offs_neg _ _ O2) (offs_neg _ _ O3)). pose proof (nleaf_le (gdim g)).
    apply K_child_parent in Hcc; [|lia]. congruence.
Qed.

(** ** Without shear *)
Hypothesis NS : no_shear g.
Lemma shear_false : forall b, is_per_or_shear (gbc g 0 b) = is_per (gbc g 0 b).
Proof. destruct NS as [H1 H2]. intros []; [destruct (gbc g 0 true)|destruct (gbc g 0 false)]; reflexivity || contradiction. Qed.
Lemma wrap_f_eq : forall d n x, d < 3 -> wrap_f g d n x = match wrap_per g d n x with Some y => Some (y, false) | None => None end.
Proof.
  intros d n x Hd. unfold wrap_f, wrap_per. destruct (polar_false g NP) as [P1 P2].
  assert (Hok : forall b, (if Nat.eqb d 0 then is_per_or_shear (gbc g d b) else is_per (gbc g d b)) = is_per (gbc g d b)).
  { intros b. destruct (Nat.eqb_spec d 0) as [->|]; [apply shear_false|reflexivity]. }
  assert (Hpl : forall b, Nat.eqb d 1 && is_polar (gbc g d b) = false).
  { intros b. destruct (Nat.eqb_spec d 1) as [->|]; [|reflexivity]. destruct b; assumption. }
  rewrite !Hok, !Hpl. destruct (Z.ltb x 0).
  - destruct (is_per (gbc g d false)); [|reflexivity]. destruct (Z.leb n (n - 1)); [|reflexivity]. destruct (is_per (gbc g d true)); reflexivity.
  - destruct (Z.leb n x); [|reflexivity]. destruct (is_per (gbc g d true)); reflexivity.
Qed.
Lemma fnl_nb : forall l o1 o2 o3 m, in_domain g l -> groot g <= level l -> In o1 (offs g 0) -> In o2 (offs g 1) -> In o3 (offs g 2) ->
  FindNeighborLoc g l o1 o2 o3 = Some m -> nb g l (off3 o1 o2 o3) m.
Proof.
  intros l o1 o2 o3 m Hl Hr H1 H2 H3. unfold FindNeighborLoc.
  change (lx1 l) with (coord 0 l). change (lx2 l) with (coord 1 l). change (lx3 l) with (coord 2 l).
  rewrite !wrap_f_eq by lia. rewrite !fmax_wrap by (assumption || lia).
  destruct (wrap_per g 0 (nmax g 0 (level l)) (coord 0 l + o1)) as [x|] eqn:E1; [|discriminate]. destruct (wrap_per g 1 (nmax g 1 (level l)) (coord 1 l + o2)) as [y|] eqn:E2; [|discriminate].
  destruct (wrap_per g 2 (nmax g 2 (level l)) (coord 2 l + o3)) as [z|] eqn:E3; [|discriminate]. intros E. injection E as <-. split; [reflexivity|].
  intros d Hd. destruct d as [|[|[|d]]]; [split; [exact H1|exact E1]|split; [exact H2|exact E2]|split; [exact H3|exact E3]|lia].
Qed.
Lemma deref_ok_total : forall t l os, wf g t -> B g t -> in_domain g l -> groot g <= level l -> K t l = KNode -> (forall o, In o os -> In o (offsets g)) ->
  exists b, deref_ok g t l os = Some b.
Proof.
  intros t l os W Bt Dl Hr Hk. induction os as [|[[o1 o2] o3] os IH]; intros Hos; [exists true; reflexivity|]. cbn [deref_ok].
  destruct IH as (b & IH); [intros o Ho; apply Hos; right; exact Ho|]. rewrite IH.
  specialize (Hos (o1, o2, o3) (or_introl eq_refl)). apply offsets_spec in Hos. destruct Hos as (O1 & O2 & O3). apply offs_all in O1.
  destruct (FindNeighborLoc g l o1 o2 o3) as [m|] eqn:E.
  - apply fnl_nb in E; try assumption. pose proof (B_nb g NP t l _ m W Bt (dom_canon g Vg l Dl) Hk Hr E) as Hm.
    rewrite (find_exact t l o1 o2 o3 m W Dl Hr E Hm). unfold FindMeshBlock. pose proof (nb_dom g Vg l _ m Dl Hr E) as Dm. pose proof (dom_canon g Vg m Dm) as Cm.
    pose proof (K_nonnull_sub t m Hm) as Hs. destruct (sub t (path m)) as [|zz|zz ch] eqn:Es; [contradiction|exists b; reflexivity|].
    fold (facing_ns o1 o2 o3). destruct (existsb _ (facing_ns o1 o2 o3)) eqn:E1.
    + exfalso. apply existsb_exists in E1 as (n & Hn & E1). apply facing_spec in Hn; try assumption. destruct Hn as [Hn _].
      assert (Hc : K t (child m n) <> KNull). { apply (wf_child g t W); [exact Cm|unfold K; rewrite Es; reflexivity|destruct E as [E _]; lia|exact Hn]. }
      rewrite K_child, Es in Hc by (pose proof (nleaf_le (gdim g)); lia). destruct (nth n ch Null); [apply Hc; reflexivity|discriminate E1|discriminate E1].
    + clear E1. destruct (existsb _ (facing_ns o1 o2 o3)); [exists false; reflexivity|exists b; reflexivity].
  - unfold FindNeighbor. rewrite E. exists b. reflexivity.
Qed.
Lemma Derefine_total : forall t n l, wf g t -> B g t -> in_domain g l -> groot g <= level l -> K t l = KNode -> exists t' n', Derefine g (t, n) l = Some (t', n').
Proof.
  intros t n l W Bt Dl Hr Hk. destruct (deref_ok_total t l (offsets g) W Bt Dl Hr Hk (fun o H => H)) as (b & E). pose proof Hk as Hk'. unfold K in Hk.
  unfold Derefine, FindMeshBlock. cbn [fst snd]. destruct (sub t (path l)) as [|zz|zz ch] eqn:Es; try discriminate Hk. rewrite E. destruct b; [|exists t, n; reflexivity].
  pose proof (nleaf_pos (gdim g)). assert (Hc : K t (child l 0) <> KNull). { apply (wf_child g t W); [apply (dom_canon g Vg), Dl|exact Hk'|exact Hr|lia]. }
  rewrite K_child, Es in Hc by lia. destruct (nth 0 ch Null) as [|zc|zc chc]; [contradiction Hc; reflexivity| |]; eexists; eexists; reflexivity.
Qed.
End FindNb.
