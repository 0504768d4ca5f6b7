(** Boundary messages match; refinement decisions. *)
From Coq Require Import List Arith NArith ZArith Bool Lia Permutation.
From Verif Require Import Loc LB_Spec Tags_Model Tags_Spec Tags_Proofs AMR_Model AMR_Spec AMR_Proofs AMR_Proofs2 Tree_Model Tree_Spec Tree_Proofs1 Tree_Proofs2 Tree_Proofs3 Tree_Proofs4 Tree_Proofs5 Tree_Proofs6 Tree_Proofs7 Tree_Proofs8 Tree_Restart Tree_Proofs9 Tree_Proofs10 Nbr_Model Nbr_Spec Nbr_Proofs Nbr_Proofs2.
Import ListNotations.
Local Open Scope nat_scope.

Lemma NoDup_map_inj : forall (A B : Type) (f : A -> B) l, NoDup l -> (forall x y, In x l -> In y l -> f x = f y -> x = y) -> NoDup (map f l).
Proof.
  intros A B' f l H. induction H as [|x l Hx Hl IH]; intros Hf; [constructor|]. cbn [map]. constructor.
  - intros Hin. apply in_map_iff in Hin as (y & E & Hy). apply Hx. rewrite (Hf x y (or_introl eq_refl) (or_intror Hy) (eq_sym E)). exact Hy.
  - apply IH. intros a b Ha Hb. apply Hf; right; assumption.
Qed.
Lemma NoDup_pairs : forall (A B : Type) (f : A -> list B) l, NoDup l -> (forall x, In x l -> NoDup (f x)) -> NoDup (flat_map (fun x => map (pair x) (f x)) l).
Proof.
  intros A B' f l H. induction H as [|x l Hx Hl IH]; intros Hf; [constructor|]. cbn [flat_map]. apply NoDup_app2.
  - apply NoDup_map_inj; [apply Hf; left; reflexivity|]. intros a b _ _ E. congruence.
  - apply IH. intros y Hy. apply Hf. right. exact Hy.
  - intros [a b] H1 H2. apply in_map_iff in H1 as (b1 & E1 & _). apply in_flat_map in H2 as (a2 & Ha2 & H2). apply in_map_iff in H2 as (b2 & E2 & _). apply Hx. congruence.
Qed.
Definition emap {A B} (f : A -> option B) (l : list A) : list B := flat_map (fun x => match f x with Some y => [y] | None => [] end) l.
Lemma in_emap : forall (A B : Type) (f : A -> option B) l y, In y (emap f l) <-> exists x, In x l /\ f x = Some y.
Proof.
  intros A B' f l y. unfold emap. rewrite in_flat_map. split; intros (x & Hx & H); exists x; (split; [exact Hx|]).
  - destruct (f x); [destruct H as [->|[]]; reflexivity|destruct H].
  - rewrite H. left. reflexivity.
Qed.
Lemma NoDup_emap : forall (A B C : Type) (f : A -> option B) (h : B -> C) l, NoDup l -> (forall x y u v, In x l -> In y l -> f x = Some u -> f y = Some v -> h u = h v -> x = y) -> NoDup (map h (emap f l)).
Proof.
  intros A B' C f h l H. induction H as [|x l Hx Hl IH]; intros Hf; [constructor|]. unfold emap. cbn [flat_map]. assert (IH' : NoDup (map h (emap f l))) by (apply IH; intros a b u v Ha Hb; apply Hf; right; assumption).
  destruct (f x) as [u|] eqn:Eu; [|exact IH']. cbn [app map]. constructor; [|exact IH']. intros Hin. apply in_map_iff in Hin as (v & Ev & Hv). apply in_emap in Hv as (y & Hy & Ey). apply Hx.
  rewrite (Hf x y u v (or_introl eq_refl) (or_intror Hy) Eu Ey (eq_sym Ev)). exact Hy.
Qed.
Lemma flat_emap : forall (A B C : Type) (f : A -> list B) (G : A -> B -> option C) l,
  flat_map (fun i => flat_map (fun e => match G i e with Some y => [y] | None => [] end) (f i)) l = emap (fun p => G (fst p) (snd p)) (flat_map (fun x => map (pair x) (f x)) l).
Proof.
  intros A B' C f G l. unfold emap. induction l as [|x l IH]; [reflexivity|]. cbn [flat_map]. rewrite flat_map_app, <- IH. f_equal. generalize (f x). intros m. induction m as [|e m IHm]; [reflexivity|]. cbn [flat_map map fst snd]. rewrite IHm. reflexivity.
Qed.
Lemma filter_emap : forall (A B : Type) (f : A -> option B) (p : B -> bool) l, filter p (emap f l) = emap (fun x => match f x with Some y => if p y then Some y else None | None => None end) l.
Proof.
  intros A B' f p l. unfold emap. induction l as [|x l IH]; [reflexivity|]. cbn [flat_map]. rewrite filter_app, IH. f_equal. destruct (f x) as [y|]; [|reflexivity]. cbn [filter]. destruct (p y); reflexivity.
Qed.

Section M.
Variable g : grid.
Hypothesis Vg : valid_grid g.
Hypothesis NP : no_pole g.
Hypothesis NS : no_shear g.
Variable t0 : tree.
Hypothesis W0 : wf g t0.
Hypothesis B0 : B g t0.
Local Notation t := (renumbered t0).
Local Notation dim := (gdim g).
Variable ml : bool.
Hypothesis ML : declared g ml (blocks t0).
Variable nr : nat.
Variable rl : list nat.
Variable tbl : list (nat * nat).
Hypothesis GP : good_partition nr (length (blocks t0)) rl tbl.
Variables ssz rsz : nat -> nblock -> option nat.
Hypothesis SZ : forall a b e e', reciprocal a b e e' -> ssz (level a) e = rsz (level b) e'.
Variable phys : N.
Hypothesis PH : (phys < 32)%N.
Local Notation E := (E g t ml).

Lemma Wt : wf g t.
Proof. apply renumbered_wf; assumption. Qed.
Lemma Btt : B g t.
Proof. apply (same_B g t0); [|exact B0]. unfold renumbered, GetMeshBlockList. cbn [snd]. apply renumber_same. Qed.
Lemma blocks_t : blocks t = blocks t0.
Proof. unfold blocks, renumbered, GetMeshBlockList. cbn [fst snd]. rewrite (proj1 (renumber_leaves _ _ _)). apply map_fst_combine. rewrite map_length, map_length, seq_length. apply count_leaves. Qed.
Lemma MLt : declared g ml (blocks t).
Proof. rewrite blocks_t. exact ML. Qed.
Definition bl (i : nat) : loc := nth i (blocks t) rootloc.
Lemma bl_in : forall i, i < length (blocks t0) -> In (bl i) (blocks t).
Proof. intros i H. unfold bl. apply nth_In. rewrite blocks_t. exact H. Qed.
Lemma bl_K : forall i, i < length (blocks t0) -> canon (bl i) /\ K t (bl i) = KLeaf (Z.of_nat i).
Proof.
  intros i Hi. destruct (list_ids g Vg t0 W0) as (_ & _ & _ & _ & H). specialize (H i (bl i)). rewrite (nth_error_nth' (blocks t0) rootloc Hi) in H. unfold bl in *. rewrite blocks_t in *. specialize (H eq_refl).
  apply nth_error_In in H. change (fst (GetMeshBlockList t)) with (leaves t rootloc) in H. apply (in_blist g t _ _ Wt). exact H.
Qed.
Lemma K_bl : forall x z, canon x -> K t x = KLeaf z -> exists i, i < length (blocks t0) /\ x = bl i /\ z = Z.of_nat i.
Proof.
  intros x z Cx Hk. assert (Hin : In x (blocks t)) by (apply (in_blocks g t x Wt); split; [exact Cx|exists z; exact Hk]). apply (In_nth _ _ rootloc) in Hin as (i & Hi & Ei). rewrite blocks_t in Hi. exists i. split; [exact Hi|]. fold (bl i) in Ei. split; [symmetry; exact Ei|].
  destruct (bl_K i Hi) as [_ H]. rewrite Ei in H. congruence.
Qed.
Lemma bl_inj : forall i j, i < length (blocks t0) -> j < length (blocks t0) -> bl i = bl j -> i = j.
Proof. intros i j Hi Hj E. destruct (bl_K i Hi) as [_ H1]. destruct (bl_K j Hj) as [_ H2]. rewrite E, H2 in H1. injection H1 as H1. lia. Qed.
Lemma nbrs_spec : forall i, i < length (blocks t0) -> (forall e, In e (nbrs g ml t (bl i)) <-> E (bl i) e) /\ NoDup (map n_bufid (nbrs g ml t (bl i))).
Proof. intros i Hi. destruct (lists g Vg NP NS t Wt Btt ml MLt (bl i) (bl_in i Hi)) as (za & ns & _ & _ & E1 & E2 & E3). unfold nbrs. rewrite E1. split; assumption. Qed.
(** the partner of an entry *)
Lemma partner : forall i e, i < length (blocks t0) -> E (bl i) e -> exists j e', j < length (blocks t0) /\ n_loc e = bl j /\ n_gid e = Z.of_nat j /\ E (bl j) e' /\ reciprocal (bl i) (bl j) e e' /\ n_gid e' = Z.of_nat i.
Proof.
  intros i e Hi He. destruct (bl_K i Hi) as [Ci Ki]. destruct (recip_ex g Vg NP t Wt Btt ml MLt (bl i) (Z.of_nat i) e Ci Ki He) as (Cn & Kn & e' & He' & (R1 & R2 & R3 & R4 & R5 & R6)).
  destruct (K_bl _ _ Cn Kn) as (j & Hj & Ej & Gj). exists j, e'. split; [exact Hj|]. split; [exact Ej|]. split; [exact Gj|]. rewrite Ej in He'. split; [exact He'|]. split; [|exact R2].
  split; [exact Ej|]. split; [exact R1|]. split; [exact R3|]. split; [exact R4|]. split; [|exact R6]. intros d. rewrite (off_dir e' d), R5, od_opp, (off_dir e d). reflexivity.
Qed.
Lemma recip_sym : forall a b e e', reciprocal a b e e' -> reciprocal b a e' e.
Proof. intros a b e e' (R1 & R2 & R3 & R4 & R5 & R6). repeat split; try assumption; [|symmetry; exact R6]. intros d. rewrite R5. lia. Qed.
Lemma bufid_eq : forall i e1 e2, i < length (blocks t0) -> E (bl i) e1 -> E (bl i) e2 -> n_bufid e1 = n_bufid e2 -> e1 = e2.
Proof.
  intros i e1 e2 Hi H1 H2 Eb. destruct (nbrs_spec i Hi) as [N1 N2]. apply N1 in H1, H2. revert N2 H1 H2. generalize (nbrs g ml t (bl i)). intros l. induction l as [|x l IH]; intros N2 H1 H2; [destruct H1|]. cbn [map] in N2. inversion N2 as [|? ? Hx Hl]; subst.
  destruct H1 as [->|H1], H2 as [->|H2]; [reflexivity| | |apply IH; assumption]; exfalso; apply Hx; [rewrite Eb|rewrite <- Eb]; apply in_map; assumption.
Qed.

Definition sendf (me : nat) (i : nat) (e : nblock) : option bmsg :=
  let gid := Z.to_nat (n_gid e) in let r := at_ rl gid in
  if Nat.eqb r me then None else match ssz (level (bl i)) e, n_target e with
    | Some n, Some s => Some (mkBM r gid s (CreateBvalsMPITag (N.of_nat (gid - nslist tbl r)) (N.of_nat s) phys) n) | _, _ => None end.
Definition recvf (me : nat) (i : nat) (e : nblock) : option bmsg :=
  let r := at_ rl (Z.to_nat (n_gid e)) in
  if Nat.eqb r me then None else match rsz (level (bl i)) e with
    | Some n => Some (mkBM r i (n_bufid e) (CreateBvalsMPITag (N.of_nat (i - nslist tbl me)) (N.of_nat (n_bufid e)) phys) n) | None => None end.
Definition pairs (me : nat) : list (nat * nblock) := flat_map (fun i => map (pair i) (nbrs g ml t (bl i))) (owned tbl me).
Lemma flat_map_ext_in : forall (A B : Type) (f h : A -> list B) l, (forall x, In x l -> f x = h x) -> flat_map f l = flat_map h l.
Proof. intros A B' f h l H. induction l as [|x l IH]; [reflexivity|]. cbn [flat_map]. rewrite (H x (or_introl eq_refl)), IH by (intros y Hy; apply H; right; exact Hy). reflexivity. Qed.
Lemma sends_emap : forall me, bv_sends g ml t rl tbl ssz phys me = emap (fun p => sendf me (fst p) (snd p)) (pairs me).
Proof.
  intros me. unfold bv_sends, pairs. rewrite <- flat_emap. apply flat_map_ext_in. intros i _. change (nth i (map fst (leaves t rootloc)) rootloc) with (bl i). cbv zeta. apply flat_map_ext_in. intros e _. unfold sendf. cbv zeta.
  destruct (Nat.eqb _ me); [reflexivity|]. destruct (ssz (level (bl i)) e), (n_target e); reflexivity.
Qed.
Lemma recvs_emap : forall me, bv_recvs g ml t rl tbl rsz phys me = emap (fun p => recvf me (fst p) (snd p)) (pairs me).
Proof.
  intros me. unfold bv_recvs, pairs. rewrite <- flat_emap. apply flat_map_ext_in. intros i _. change (nth i (map fst (leaves t rootloc)) rootloc) with (bl i). cbv zeta. apply flat_map_ext_in. intros e _. unfold recvf. cbv zeta.
  destruct (Nat.eqb _ me); [reflexivity|]. destruct (rsz (level (bl i)) e); reflexivity.
Qed.
Lemma owned_iff : forall me i, me < nr -> (In i (owned tbl me) <-> i < length (blocks t0) /\ at_ rl i = me).
Proof. intros me i Hme. rewrite (owned_filter nr _ rl tbl me GP Hme), filter_In, in_seq, Nat.eqb_eq. split; intros [H1 H2]; split; try assumption; lia. Qed.
Lemma pairs_iff : forall me i e, me < nr -> (In (i, e) (pairs me) <-> i < length (blocks t0) /\ at_ rl i = me /\ E (bl i) e).
Proof.
  intros me i e Hme. unfold pairs. rewrite in_flat_map. split.
  - intros (j & Hj & H). apply in_map_iff in H as (e' & Eq & He). injection Eq as -> ->. apply (owned_iff me i Hme) in Hj as [Hi Hr]. split; [exact Hi|]. split; [exact Hr|]. apply (nbrs_spec i Hi). exact He.
  - intros (Hi & Hr & He). exists i. split; [apply owned_iff; auto|]. apply in_map. apply (nbrs_spec i Hi). exact He.
Qed.
Lemma pairs_nodup : forall me, me < nr -> NoDup (pairs me).
Proof.
  intros me Hme. apply NoDup_pairs; [unfold owned; apply seq_NoDup|]. intros i Hi. apply (owned_iff me i Hme) in Hi as [Hi _]. apply (NoDup_map_inv n_bufid). apply (nbrs_spec i Hi).
Qed.
Lemma lid_inj : forall r i j, i < length (blocks t0) -> j < length (blocks t0) -> at_ rl i = r -> at_ rl j = r -> r < nr -> N.of_nat (i - nslist tbl r) = N.of_nat (j - nslist tbl r) -> i = j.
Proof.
  intros r i j Hi Hj Ri Rj Hr H. assert (Oi : In i (owned tbl r)) by (apply owned_iff; auto). assert (Oj : In j (owned tbl r)) by (apply owned_iff; auto). unfold owned in Oi, Oj. unfold nslist in H. apply in_seq in Oi, Oj. lia.
Qed.
Lemma rank_lt : forall i, i < length (blocks t0) -> at_ rl i < nr.
Proof. intros i Hi. destruct GP as (Hl & _ & H & _). specialize (H i Hi). unfold at_. rewrite (nth_indep rl 0 nr) by lia. exact H. Qed.

Lemma sent_iff : forall src dst m, src < nr -> dst < nr -> src <> dst -> (In m (filter (fun m => Nat.eqb (bm_peer m) dst) (bv_sends g ml t rl tbl ssz phys src)) <->
  exists i j e e' n, i < length (blocks t0) /\ j < length (blocks t0) /\ at_ rl i = src /\ at_ rl j = dst /\ E (bl i) e /\ E (bl j) e' /\ reciprocal (bl i) (bl j) e e' /\ n_gid e = Z.of_nat j /\ n_gid e' = Z.of_nat i /\
    ssz (level (bl i)) e = Some n /\ m = mkBM dst j (n_bufid e') (CreateBvalsMPITag (N.of_nat (j - nslist tbl dst)) (N.of_nat (n_bufid e')) phys) n).
Proof.
  intros src dst m Hs Hd Hne. rewrite sends_emap, filter_In, in_emap, Nat.eqb_eq. split.
  - intros (((i & e) & Hin & Hf) & Hp). cbn [fst snd] in Hf. apply (pairs_iff src i e Hs) in Hin as (Hi & Hr & He). destruct (partner i e Hi He) as (j & e' & Hj & Ej & Gj & He' & R & Gi).
    unfold sendf in Hf. rewrite Gj, Nat2Z.id in Hf. destruct (Nat.eqb_spec (at_ rl j) src); [discriminate Hf|]. destruct (ssz (level (bl i)) e) as [n'|] eqn:En; [|discriminate Hf]. pose proof R as (_ & _ & R3 & _). rewrite R3 in Hf. assert (Em : m = mkBM (at_ rl j) j (n_bufid e') (CreateBvalsMPITag (N.of_nat (j - nslist tbl (at_ rl j))) (N.of_nat (n_bufid e')) phys) n') by congruence. subst m. cbn [bm_peer] in Hp.
    exists i, j, e, e', n'. rewrite Hp. repeat split; try assumption; try apply R.
  - intros (i & j & e & e' & n & Hi & Hj & Ri & Rj & He & He' & R & Gj & Gi & En & ->). split; [|reflexivity]. exists (i, e). split; [apply (pairs_iff src i e Hs); auto|]. cbn [fst snd]. unfold sendf. rewrite Gj, Nat2Z.id, Rj. destruct (Nat.eqb_spec dst src); [congruence|]. rewrite En. destruct R as (_ & _ & -> & _). reflexivity.
Qed.
Lemma rcvd_iff : forall src dst m, src < nr -> dst < nr -> src <> dst -> (In m (filter (fun m => Nat.eqb (bm_peer m) src) (bv_recvs g ml t rl tbl rsz phys dst)) <->
  exists i j e e' n, i < length (blocks t0) /\ j < length (blocks t0) /\ at_ rl i = src /\ at_ rl j = dst /\ E (bl i) e /\ E (bl j) e' /\ reciprocal (bl i) (bl j) e e' /\ n_gid e = Z.of_nat j /\ n_gid e' = Z.of_nat i /\
    ssz (level (bl i)) e = Some n /\ m = mkBM src j (n_bufid e') (CreateBvalsMPITag (N.of_nat (j - nslist tbl dst)) (N.of_nat (n_bufid e')) phys) n).
Proof.
  intros src dst m Hs Hd Hne. rewrite recvs_emap, filter_In, in_emap, Nat.eqb_eq. split.
  - intros (((j & e') & Hin & Hf) & Hp). cbn [fst snd] in Hf. apply (pairs_iff dst j e' Hd) in Hin as (Hj & Hr & He'). destruct (partner j e' Hj He') as (i & e & Hi & Ei & Gi & He & R & Gj). apply recip_sym in R.
    unfold recvf in Hf. rewrite Gi, Nat2Z.id in Hf. destruct (Nat.eqb_spec (at_ rl i) dst); [discriminate Hf|]. destruct (rsz (level (bl j)) e') as [n'|] eqn:En; [|discriminate Hf]. assert (Em : m = mkBM (at_ rl i) j (n_bufid e') (CreateBvalsMPITag (N.of_nat (j - nslist tbl dst)) (N.of_nat (n_bufid e')) phys) n') by congruence. subst m. cbn [bm_peer] in Hp.
    exists i, j, e, e', n'. rewrite Hp. repeat split; try assumption; try apply R. rewrite (SZ _ _ _ _ R). exact En.
  - intros (i & j & e & e' & n & Hi & Hj & Ri & Rj & He & He' & R & Gj & Gi & En & ->). split; [|reflexivity]. exists (j, e'). split; [apply (pairs_iff dst j e' Hd); auto|]. cbn [fst snd]. unfold recvf. rewrite Gi, Nat2Z.id, Ri. destruct (Nat.eqb_spec src dst); [congruence|]. rewrite <- (SZ _ _ _ _ R), En. reflexivity.
Qed.
Lemma no_self_s : forall me, bv_sends g ml t rl tbl ssz phys me = filter (fun m => negb (Nat.eqb (bm_peer m) me)) (bv_sends g ml t rl tbl ssz phys me).
Proof.
  intros me. rewrite sends_emap, filter_emap. unfold emap. apply flat_map_ext_in. intros [i e] _. cbn [fst snd]. unfold sendf. cbv zeta. destruct (Nat.eqb (at_ rl (Z.to_nat (n_gid e))) me) eqn:E1; [reflexivity|]. destruct (ssz (level (bl i)) e), (n_target e); try reflexivity. cbn [bm_peer]. rewrite E1. reflexivity.
Qed.
Lemma no_self_r : forall me, bv_recvs g ml t rl tbl rsz phys me = filter (fun m => negb (Nat.eqb (bm_peer m) me)) (bv_recvs g ml t rl tbl rsz phys me).
Proof.
  intros me. rewrite recvs_emap, filter_emap. unfold emap. apply flat_map_ext_in. intros [i e] _. cbn [fst snd]. unfold recvf. cbv zeta. destruct (Nat.eqb (at_ rl (Z.to_nat (n_gid e))) me) eqn:E1; [reflexivity|]. destruct (rsz (level (bl i)) e); try reflexivity. cbn [bm_peer]. rewrite E1. reflexivity.
Qed.
Lemma filter_none2 : forall (me : nat) l, filter (fun m => Nat.eqb (bm_peer m) me) (filter (fun m => negb (Nat.eqb (bm_peer m) me)) l) = [].
Proof. intros me l. induction l as [|x l IH]; [reflexivity|]. cbn [filter]. destruct (Nat.eqb (bm_peer x) me) eqn:E1; cbn [negb filter]; rewrite ?E1; exact IH. Qed.
Lemma slot64 : forall i e, i < length (blocks t0) -> E (bl i) e -> (N.of_nat (n_bufid e) < 64)%N.
Proof. intros i e Hi He. destruct (entry_facts g Vg t Wt ml MLt (bl i) e (bl_in i Hi) He) as (_ & _ & _ & _ & _ & H). lia. Qed.
Lemma send_nodup : forall src dst, src < nr -> dst < nr -> src <> dst -> NoDup (tags_to dst (bv_sends g ml t rl tbl ssz phys src)).
Proof.
  intros src dst Hs Hd Hne. unfold tags_to. rewrite sends_emap, filter_emap. apply NoDup_emap; [apply pairs_nodup, Hs|].
  intros [i1 e1] [i2 e2] u v H1 H2 U V Eh. cbn [fst snd] in U, V. apply (pairs_iff src _ _ Hs) in H1 as (Hi1 & R1 & He1). apply (pairs_iff src _ _ Hs) in H2 as (Hi2 & R2 & He2).
  destruct (partner i1 e1 Hi1 He1) as (j1 & e1' & Hj1 & L1 & G1 & He1' & Q1 & G1'). destruct (partner i2 e2 Hi2 He2) as (j2 & e2' & Hj2 & L2 & G2 & He2' & Q2 & G2').
  unfold sendf in U, V. rewrite G1, Nat2Z.id in U. rewrite G2, Nat2Z.id in V. pose proof Q1 as (_ & _ & T1 & T1' & _). pose proof Q2 as (_ & _ & T2 & T2' & _). rewrite T1 in U. rewrite T2 in V.
  destruct (Nat.eqb (at_ rl j1) src); [discriminate U|]. destruct (Nat.eqb (at_ rl j2) src); [discriminate V|]. destruct (ssz (level (bl i1)) e1); [|discriminate U]. destruct (ssz (level (bl i2)) e2); [|discriminate V]. cbn [bm_peer] in U, V.
  destruct (Nat.eqb_spec (at_ rl j1) dst) as [D1|]; [|discriminate U]. destruct (Nat.eqb_spec (at_ rl j2) dst) as [D2|]; [|discriminate V].
  assert (Tu : bm_tag u = CreateBvalsMPITag (N.of_nat (j1 - nslist tbl dst)) (N.of_nat (n_bufid e1')) phys) by (rewrite <- D1; assert (Eu : u = mkBM (at_ rl j1) j1 (n_bufid e1') (CreateBvalsMPITag (N.of_nat (j1 - nslist tbl (at_ rl j1))) (N.of_nat (n_bufid e1')) phys) n) by congruence; rewrite Eu; reflexivity).
  assert (Tv : bm_tag v = CreateBvalsMPITag (N.of_nat (j2 - nslist tbl dst)) (N.of_nat (n_bufid e2')) phys) by (rewrite <- D2; assert (Ev : v = mkBM (at_ rl j2) j2 (n_bufid e2') (CreateBvalsMPITag (N.of_nat (j2 - nslist tbl (at_ rl j2))) (N.of_nat (n_bufid e2')) phys) n0) by congruence; rewrite Ev; reflexivity).
  rewrite Tu, Tv in Eh. destruct (bvals_tag_inj _ _ _ _ _ _ (slot64 j1 e1' Hj1 He1') (slot64 j2 e2' Hj2 He2') PH PH Eh) as (A1 & A2 & _).
  assert (Ej : j1 = j2) by (apply (lid_inj dst); assumption). subst j2. assert (Ee : e1' = e2') by (apply (bufid_eq j1); try assumption; lia). subst e2'.
  assert (Ei : i1 = i2) by (apply bl_inj; try assumption; destruct Q1 as (_ & Q1 & _); destruct Q2 as (_ & Q2 & _); congruence). subst i2.
  f_equal. apply (bufid_eq i1); try assumption. congruence.
Qed.
Theorem messages_match : matched nr (bv_sends g ml t rl tbl ssz phys) (bv_recvs g ml t rl tbl rsz phys).
Proof.
  intros src dst Hs Hd. destruct (Nat.eq_dec src dst) as [->|Hne].
  - unfold to_rank, tags_to. rewrite no_self_s, no_self_r, !filter_none2. split; [constructor|constructor].
  - split; [|apply send_nodup; assumption]. pose proof (send_nodup src dst Hs Hd Hne) as ND. apply NoDup_Permutation.
    + unfold to_rank. apply (NoDup_map_inv (fun x : nat * nat * N * nat => let '(_, _, tg, _) := x in tg)). rewrite map_map. exact ND.
    + unfold to_rank. rewrite recvs_emap, filter_emap. apply NoDup_emap; [apply pairs_nodup, Hd|]. intros [j1 e1] [j2 e2] u v H1 H2 U V Eh. cbn [fst snd] in U, V.
      apply (pairs_iff dst _ _ Hd) in H1 as (Hj1 & R1 & He1). apply (pairs_iff dst _ _ Hd) in H2 as (Hj2 & R2 & He2). unfold recvf in U, V. cbv zeta in U, V.
      destruct (Nat.eqb _ dst) in U; [discriminate U|]. destruct (Nat.eqb _ dst) in V; [discriminate V|]. destruct (rsz _ e1) in U; [|discriminate U]. destruct (rsz _ e2) in V; [|discriminate V]. cbn [bm_peer] in U, V.
      destruct (Nat.eqb _ src) in U; [|discriminate U]. destruct (Nat.eqb _ src) in V; [|discriminate V]. injection U as <-. injection V as <-. cbn [bm_gid bm_slot] in Eh. assert (Ej : j1 = j2) by congruence. subst j2. f_equal. apply (bufid_eq j1); try assumption. congruence.
    + intros x. unfold to_rank. rewrite !in_map_iff. split; intros (m & <- & Hm).
      * apply sent_iff in Hm; try assumption. destruct Hm as (i & j & e & e' & n & Hi & Hj & Ri & Rj & He & He' & R & Gj & Gi & En & ->).
        exists (mkBM src j (n_bufid e') (CreateBvalsMPITag (N.of_nat (j - nslist tbl dst)) (N.of_nat (n_bufid e')) phys) n). split; [reflexivity|]. apply rcvd_iff; try assumption. exists i, j, e, e', n. repeat split; try assumption; apply R.
      * apply rcvd_iff in Hm; try assumption. destruct Hm as (i & j & e & e' & n & Hi & Hj & Ri & Rj & He & He' & R & Gj & Gi & En & ->).
        exists (mkBM dst j (n_bufid e') (CreateBvalsMPITag (N.of_nat (j - nslist tbl dst)) (N.of_nat (n_bufid e')) phys) n). split; [reflexivity|]. apply sent_iff; try assumption. exists i, j, e, e', n. repeat split; try assumption; apply R.
Qed.
End M.

(** ** Refinement decisions *)
Definition negb_crit (c : option Z) : bool := match c with Some r => Z.ltb r 0 | None => false end.
Lemma negb_crit_ok : forall c, negb_crit c = true <-> wants_derefine c.
Proof. intros [r|]; unfold negb_crit, wants_derefine; [rewrite Z.ltb_lt|]; split; [intros H; exists r; auto|intros (r' & E & H); congruence|discriminate|intros (r' & E & H); discriminate E]. Qed.
Definition tneg (c : Z) (l : list (option Z)) : Z := fold_left (fun c x => if negb_crit x then (c + 1)%Z else 0%Z) l c.
Lemma check_cases : forall lev mx rt fin th crit c, CheckRefinementCondition lev mx rt fin th crit c =
  if negb_crit crit then (if Nat.eqb lev rt then (0, 0) else (c + 1, if fin then 0 else if Z.leb th (c + 1) then -1 else 0))%Z
  else (0%Z, match crit with Some r => if Z.ltb 0 r then if Nat.eqb lev mx then 0 else 1 else 0 | None => 0 end)%Z.
Proof.
  intros lev mx rt fin th crit c. unfold CheckRefinementCondition, negb_crit. destruct crit as [r|]; [|reflexivity].
  destruct (Z.ltb_spec r 0) as [Hr|Hr].
  - replace (Z.max (-1) r) with (-1)%Z by lia. reflexivity.
  - replace (Z.max (-1) r) with r by lia. cbv zeta. destruct (Z.leb_spec 0 r); [|lia]. destruct (Z.ltb_spec 0 r); [reflexivity|]. destruct (Z.ltb_spec r 0); [lia|reflexivity].
Qed.
Lemma checks_nth : forall lev mx rt th obs c i fl, nth_error (checks lev mx rt th c obs) i = Some fl ->
  exists crit fin, nth_error obs i = Some (crit, fin) /\
  fl = if negb_crit crit then (if Nat.eqb lev rt then 0 else if fin then 0 else if Z.leb th (tneg c (firstn (S i) (map fst obs))) then -1 else 0)%Z
       else match crit with Some r => if Z.ltb 0 r then if Nat.eqb lev mx then 0 else 1 else 0 | None => 0 end%Z.
Proof.
  intros lev mx rt th obs. induction obs as [|[cr fn] obs IH]; intros c i fl H; [destruct i; discriminate H|].
  cbn [checks] in H. rewrite check_cases in H. destruct i as [|i].
  - exists cr, fn. split; [reflexivity|]. destruct (negb_crit cr) eqn:En.
    + destruct (Nat.eqb lev rt); cbn [nth_error] in H; injection H as <-; [reflexivity|]. cbn [map firstn fst]. unfold tneg. cbn [fold_left]. rewrite En. reflexivity.
    + cbn [nth_error] in H. injection H as <-. reflexivity.
  - destruct (Nat.eqb_spec lev rt) as [Hr|Hr].
    + assert (H' : exists c', nth_error (checks lev mx rt th c' obs) i = Some fl) by (destruct (negb_crit cr); cbn [nth_error] in H; eexists; exact H). clear H. destruct H' as (c' & H). destruct (IH c' i fl H) as (crit & fin & E & ->). exists crit, fin. split; [exact E|]. reflexivity.
    + destruct (negb_crit cr) eqn:En; cbn [nth_error] in H; destruct (IH _ i fl H) as (crit & fin & E & ->); exists crit, fin; (split; [exact E|]); cbn [map]; rewrite (firstn_cons (S i)); cbn [fst]; unfold tneg; cbn [fold_left]; rewrite En; reflexivity.
Qed.
Lemma tneg_snoc : forall l c x, tneg c (l ++ [x]) = if negb_crit x then (tneg c l + 1)%Z else 0%Z.
Proof. intros l c x. unfold tneg. rewrite fold_left_app. reflexivity. Qed.
Lemma tneg_nonneg : forall l, (0 <= tneg 0 l <= Z.of_nat (length l))%Z.
Proof. intros l. induction l as [|x l IH] using rev_ind; [cbn; lia|]. rewrite tneg_snoc, app_length. cbn [length]. destruct (negb_crit x); lia. Qed.
Lemma tneg_spec : forall l k, (Z.of_nat k <= tneg 0 l)%Z <-> k <= length l /\ forall j, length l <= j + k -> j < length l -> exists c, nth_error l j = Some c /\ negb_crit c = true.
Proof.
  intros l. induction l as [|x l IH] using rev_ind; intros k.
  - change (tneg 0 []) with 0%Z. cbn [length]. split; [intros H; split; [lia|intros j; lia]|lia].
  - rewrite tneg_snoc, app_length. cbn [length]. destruct k as [|k]; [pose proof (tneg_nonneg l); split; [intros _; split; [lia|intros j; lia]|intros _; destruct (negb_crit x); lia]|].
    assert (Hx : nth_error (l ++ [x]) (length l) = Some x) by (rewrite nth_error_app2, Nat.sub_diag by lia; reflexivity).
    destruct (negb_crit x) eqn:En.
    + rewrite Nat2Z.inj_succ. specialize (IH k). split.
      * intros H. destruct (proj1 IH ltac:(lia)) as [H1 H2]. split; [lia|]. intros j J1 J2. destruct (Nat.eq_dec j (length l)) as [->|Hj]; [exists x; split; assumption|]. destruct (H2 j ltac:(lia) ltac:(lia)) as (c & E & N). exists c. split; [rewrite nth_error_app1 by lia; exact E|exact N].
      * intros [H1 H2]. assert ((Z.of_nat k <= tneg 0 l)%Z); [|lia]. apply IH. split; [lia|]. intros j J1 J2. destruct (H2 j ltac:(lia) ltac:(lia)) as (c & E & N). rewrite nth_error_app1 in E by lia. exists c. split; assumption.
    + split; [lia|]. intros [H1 H2]. destruct (H2 (length l) ltac:(lia) ltac:(lia)) as (c & E & N). congruence.
Qed.
Lemma nth_firstn : forall (A : Type) (l : list A) n j, j < n -> nth_error (firstn n l) j = nth_error l j.
Proof. intros A l. induction l as [|x l IH]; intros n j H; destruct n as [|n]; try lia; [reflexivity|]. destruct j as [|j]; [reflexivity|]. cbn. apply IH. lia. Qed.
Theorem decisions : forall lev mx rt th obs i fl, nth_error (checks lev mx rt th 0 obs) i = Some fl ->
  exists crit fin, nth_error obs i = Some (crit, fin) /\ (fl = 1 \/ fl = 0 \/ fl = -1)%Z /\
    (fl = 1%Z <-> lev <> mx /\ wants_refine crit) /\
    (fl = (-1)%Z <-> lev <> rt /\ fin = false /\ asked_repeatedly th (map fst obs) i).
Proof.
  intros lev mx rt th obs i fl H. destruct (checks_nth _ _ _ _ _ _ _ _ H) as (crit & fin & E & ->). exists crit, fin. split; [exact E|].
  assert (Em : nth_error (map fst obs) i = Some crit) by (rewrite nth_error_map, E; reflexivity).
  assert (Hi : S i <= length (map fst obs)) by (apply nth_error_Some; congruence). assert (Hl : length (firstn (S i) (map fst obs)) = S i) by (apply firstn_length_le; exact Hi).
  assert (HA : asked_repeatedly th (map fst obs) i <-> negb_crit crit = true /\ (th <= tneg 0 (firstn (S i) (map fst obs)))%Z).
  { split.
    - intros (k & Hk & Ht & HJ). split; [destruct (HJ i ltac:(lia) ltac:(lia)) as (c & Ec & Hc); apply negb_crit_ok; congruence|]. assert ((Z.of_nat k <= tneg 0 (firstn (S i) (map fst obs)))%Z); [|lia].
      apply tneg_spec. rewrite Hl. split; [lia|]. intros j J1 J2. destruct (HJ j ltac:(lia) ltac:(lia)) as (c & Ec & Hc). exists c. rewrite nth_firstn by lia. split; [exact Ec|apply negb_crit_ok, Hc].
    - intros [Hn Ht]. pose proof (tneg_nonneg (firstn (S i) (map fst obs))) as H0. rewrite Hl in H0. set (T := tneg 0 (firstn (S i) (map fst obs))) in *.
      assert (HT : (1 <= T)%Z). { change (Z.of_nat 1 <= T)%Z. apply tneg_spec. rewrite Hl. split; [lia|]. intros j J1 J2. assert (j = i) by lia. subst j. exists crit. rewrite nth_firstn by lia. split; assumption. }
      exists (Z.to_nat T). split; [lia|]. split; [lia|]. intros j J1 J2. destruct (proj1 (tneg_spec (firstn (S i) (map fst obs)) (Z.to_nat T)) ltac:(fold T; lia)) as [_ HJ]. destruct (HJ j ltac:(rewrite Hl; lia) ltac:(rewrite Hl; lia)) as (c & Ec & Hc). rewrite nth_firstn in Ec by lia. exists c. split; [exact Ec|apply negb_crit_ok, Hc]. }
  destruct (negb_crit crit) eqn:En.
  - assert (HR : ~ wants_refine crit). { intros (r & -> & Hr). unfold negb_crit in En. apply Z.ltb_lt in En. lia. }
    destruct (Nat.eqb_spec lev rt); [repeat split; try tauto; try discriminate; lia|]. destruct fin; [repeat split; try tauto; try discriminate; intros [_ ?]; intuition discriminate|].
    destruct (Z.leb_spec th (tneg 0 (firstn (S i) (map fst obs)))) as [Ht|Ht]; (split; [tauto|]); (split; [split; [discriminate|tauto]|]); [tauto|]. split; [discriminate|]. intros (_ & _ & HH). apply HA in HH. lia.
  - assert (HD : ~ asked_repeatedly th (map fst obs) i) by (rewrite HA; intros [? _]; discriminate).
    destruct crit as [r|]; [destruct (Z.ltb_spec 0 r) as [Hr|Hr]; [destruct (Nat.eqb_spec lev mx)|]|]; (split; [tauto|split; split; try discriminate; try tauto]).
    + intros _. split; [assumption|]. exists r. auto.
    + intros [_ (r' & E' & Hr')]. assert (r' = r) by congruence. lia.
    + intros [_ (r' & E' & Hr')]. discriminate E'.
Qed.

(** ** No block gets deeper than the maximum level *)
Section Max.
Variable g : grid.
Hypothesis Vg : valid_grid g.
Variable mx : nat.
Definition nodes_below (t : tree) : Prop := forall x, canon x -> K t x = KNode -> groot g <= level x -> level x < mx.
Lemma split_below : forall t l z, nodes_below t -> canon l -> K t l = KLeaf z -> (groot g <= level l < mx) -> nodes_below (split_at g t l z).
Proof.
  intros t l z H Cl Kl Hl x Cx Kx Rx. destruct (loc_eq_dec x l) as [->|Hne]; [lia|]. destruct (is_child_dec g x l) as [(j & Hj & ->)|Hc].
  - rewrite (split_child g) in Kx by (assumption || congruence). discriminate Kx.
  - rewrite (split_other g t l z z) in Kx by assumption. apply H; assumption.
Qed.
Lemma merge_below : forall M a b k, merges g M a b k -> wf g a -> nodes_below a -> nodes_below b.
Proof.
  intros M a b k H. induction H as [|t a l z k S IH Ml Dl Rl Hk HL Ez]; intros W Ha; [exact Ha|]. specialize (IH W Ha). intros x Cx Kx Rx.
  destruct (loc_eq_dec x l) as [->|Hne]; [rewrite collapse_l in Kx by congruence; discriminate Kx|]. destruct (is_child_dec g x l) as [(j & Hj & ->)|Hc].
  - pose proof (nleaf8 g) as N8. rewrite collapse_child in Kx by (congruence || lia). discriminate Kx.
  - rewrite (collapse_other g) in Kx; [apply IH; assumption|apply (wf_shape g), (merges_wf g Vg M t a k S W)|congruence|exact HL|apply (dom_canon g Vg), Dl|exact Cx|exact Hne|exact Hc].
Qed.
Lemma below_blocks : forall t, wf g t -> groot g <= mx -> (nodes_below t <-> forall b, In b (blocks t) -> level b <= mx).
Proof.
  intros t W Hm. split.
  - intros H b Hb. apply (in_blocks g t b W) in Hb as [Cb (z & Kb)]. destruct (leaf_level g t b z W Cb Kb) as [Db Rb]. destruct (Nat.eq_dec (level b) (groot g)) as [->|Hne]; [exact Hm|].
    assert (Kp : K t (anc 1 b) = KNode) by (apply K_anc; [lia|lia|congruence]). assert (level (anc 1 b) < mx); [|cbn [anc level] in *; lia]. apply H; [apply canon_anc; [exact Cb|lia]|exact Kp|cbn [anc level]; lia].
  - intros H x Cx Kx Rx. destruct (leaf_below g t (sub t (path x)) x W Cx eq_refl) as (y & z & Cy & Cc & Ky & Hlt); [unfold K in Kx; destruct (sub t (path x)); discriminate|]. specialize (Hlt Kx). assert (level y <= mx); [|lia]. apply H. apply (in_blocks g t y W). split; [exact Cy|exists z; exact Ky].
Qed.
Theorem step_below : forall t fr fd t' nnew ndel, wf g t -> groot g <= mx -> (forall b, In b (blocks t) -> level b <= mx) -> (forall x, fd x = true -> groot g < level x) ->
  (forall x, fr x = true -> level x <> mx) -> may_update g t (flagged fr t) (flagged fd t) (Some (t', nnew, ndel)) -> forall b, In b (blocks t') -> level b <= mx.
Proof.
  intros t fr fd t' nnew ndel W Hm Hb Hf Hr Hu. apply (may_update_inv g Vg) in Hu as [Hu|(cld & Hc & Hu)]; try assumption; [injection Hu as -> _ _; exact Hb|].
  unfold update_with in Hu. set (Q0 := fun x => groot g <= level x < mx). pose proof Hc as [_ Hg].
  destruct (refines_ok g Vg Q0 (fun x Hx => proj1 Hx)) with (ls := flagged fr t) (t := t) (n := 0) as (t1 & k & E1 & [S1 N1] & R1); [|exact W| |].
  { intros l m k D [H1 H2] Hin Hk. destruct (nlocs_dom g Vg l m D H1 Hin) as [_ Lm]. unfold Q0. rewrite ancl_level. lia. }
  { intros l Hl. destruct (lref_facts g t fr l W Hl) as (D & R & (z & Ez) & Hfl). split; [exact D|]. split; [congruence|]. split; [exact R|]. apply filter_In in Hl as [Hl _]. specialize (Hb l Hl). specialize (Hr l Hfl). lia. }
  rewrite E1 in Hu. destruct (foldo (Derefine g) (t1, 0) cld) as [[t2 nd]|] eqn:E2; [|discriminate Hu]. assert (t2 = t') by congruence. subst t2.
  assert (W1 : wf g t1) by (apply (splits_wf g Vg _ t t1 k (fun x Hx => proj1 Hx) S1 W)).
  assert (Hdom : forall l, In l cld -> in_domain g l /\ groot g <= level l). { intros l Hl. destruct (group_facts g Vg t fd l W Hf (Hg l Hl)) as (D & R & _). split; assumption. }
  destruct (derefs_spec g Vg cld t1 0 t' nd W1 Hdom E2) as (k' & _ & M1).
  apply (below_blocks t' (merges_wf g Vg _ _ _ _ M1 W1) Hm). apply (merge_below _ _ _ _ M1 W1).
  apply (splits_inv g nodes_below Q0) in S1; [exact S1| | |apply (below_blocks t W Hm), Hb].
  - intros a l z Ha Cl Kl Hl. apply split_below; assumption.
  - intros a l Ha Kl x Cx Kx Rx. rewrite setgid_K in Kx by exact Kl. apply Ha; assumption.
Qed.
End Max.

(** ** Sizes agree *)
Lemma recip_dir : forall a b e e', reciprocal a b e e' -> n_dir e' = opp3 (n_dir e).
Proof. intros a b e e' (_ & _ & _ & _ & R & _). pose proof (R 0) as R0. pose proof (R 1) as R1. pose proof (R 2) as R2. cbn [off] in *. unfold n_dir, opp3. congruence. Qed.
Lemma dirsize_opp : forall o a b, dirsize (opp3 o) a b = dirsize o a b.
Proof. intros [[o1 o2] o3] [[a1 a2] a3] [[b1 b2] b3]. unfold dirsize, opp3. rewrite !eqb_opp. reflexivity. Qed.
Lemma cc_sizes : forall dim ng cng nx nvar a b e e', reciprocal a b e e' -> cc_ssize dim ng cng nx nvar (level a) e = cc_rsize dim ng cng nx nvar (level b) e'.
Proof.
  intros dim ng cng nx nvar a b e e' R. pose proof (recip_dir _ _ _ _ R) as Ed. destruct R as (R1 & R2 & _). unfold cc_ssize, cc_rsize, sz_same, sz_fc, sz_cf. destruct nx as [[n1 n2] n3]. rewrite R1, R2, Ed, !dirsize_opp.
  destruct (Nat.eqb_spec (level b) (level a)), (Nat.eqb_spec (level a) (level b)), (Nat.ltb_spec (level b) (level a)), (Nat.ltb_spec (level a) (level b)); try lia; reflexivity.
Qed.
Lemma fl_sizes : forall nx nvar a b e e', reciprocal a b e e' -> fl_ssize nx nvar (level a) e = fl_rsize nx nvar (level b) e'.
Proof.
  intros nx nvar a b e e' R. pose proof (recip_dir _ _ _ _ R) as Ed. destruct R as (R1 & R2 & _ & _ & _ & R6). unfold fl_ssize, fl_rsize, fl_size. rewrite R1, R2, R6.
  unfold n_dir, opp3 in Ed. assert (E1 : n_o1 e' = (- n_o1 e)%Z) by congruence. assert (E2 : n_o2 e' = (- n_o2 e)%Z) by congruence. rewrite E1, E2, !eqb_opp. reflexivity.
Qed.
(** ** Directions are covered *)
Section Cover.
Variable g : grid.
Hypothesis Vg : valid_grid g.
Hypothesis NP : no_pole g.
Variable t : tree.
Hypothesis W : wf g t.
Hypothesis Bt : B g t.
Variable ml : bool.
Hypothesis ML : declared g ml (blocks t).
Local Notation dim := (gdim g).
Lemma off_mkn : forall c z o k ts f1 f2 d, off (mkn c z o k ts f1 f2) d = od o d.
Proof. intros c z [[o1 o2] o3] k ts f1 f2 d. destruct d as [|[|d]]; reflexivity. Qed.
Lemma cover_dir : forall a o m, In a (blocks t) -> okdir dim o -> neighbour_position g a (od o) m ->
  (In m (blocks t) -> exists e, E g t ml a e /\ n_loc e = m /\ forall d, off e d = od o d) /\
  (forall c, In c (blocks t) -> In c (children dim m) -> (forall d, d < 3 -> (od o d = (-1)%Z -> Z.odd (coord d c) = true) /\ (od o d = 1%Z -> Z.odd (coord d c) = false)) ->
     exists e, E g t ml a e /\ n_loc e = c /\ forall d, off e d = od o d) /\
  (forall b, In b (blocks t) -> In m (children dim b) -> dtype o = face -> exists e, E g t ml a e /\ n_loc e = b /\ forall d, off e d = od o d).
Proof.
  intros a o m Ha Ho Hnp. pose proof (dim13 g Vg) as D13. pose proof (proj2 (spec_pos g Vg t W a o m Ha Ho) Hnp) as Hnb. pose proof Ha as Ha'. apply (in_blocks g t a W) in Ha' as [Ca (za & Ka)]. destruct (leaf_level g t a za W Ca Ka) as [Da Ra].
  pose proof Ho as Hin. apply (dirs_iff dim o D13) in Hin. destruct Hnp as (Lm & Dm & _). pose proof (dom_canon g Vg m Dm) as Cm. destruct (slot_ex0 g Vg ml o Ho) as (k0 & Ek0).
  split; [|split].
  - intros Hm. apply (in_blocks g t m W) in Hm as [_ (zm & Km)]. exists (mkn m zm o k0 (slot dim ml (opp3 o) 0 0) 0 0). split; [|split; [apply mkn_fields|intros d; apply off_mkn]]. exists o, m. split; [exact Hin|]. split; [exact Hnb|]. left. exists zm, k0. repeat split; assumption.
  - intros c Hc Hch Hf. apply (in_blocks g t c W) in Hc as [Cc (zc & Kc)]. destruct (leaf_level g t c zc W Cc Kc) as [Dc Rc]. apply in_map_iff in Hch as (j & Ej & Hj). apply in_seq in Hj. pose proof (nleaf8 g) as N8.
    assert (Lc : level c = S (level m)) by (rewrite <- Ej; reflexivity). assert (Ea : anc 1 c = m) by (rewrite <- Ej; apply anc_child).
    assert (Hml : ml = true) by (apply (ml_true g t W ml ML c zc Cc Kc); lia). destruct (sub_range g Vg ml o Ho Hml c Dc) as [S1 S2]. cbn [coord] in S1, S2.
    set (p1 := sub1 o (myf (lx1 c)) (myf (lx2 c)) (myf (lx3 c))) in *. set (p2 := sub2 o (myf (lx1 c)) (myf (lx2 c)) (myf (lx3 c))) in *. destruct (slot_ex g Vg ml o p1 p2 Ho S1 S2) as (kk & Ek).
    assert (Ec : c = getleaf m o false p1 p2).
    { rewrite <- Ea at 1. apply (getleaf_self g c o Ho Dc ltac:(lia)). intros d Hd Hnz. pose proof (od_range g o d Ho) as Hr. destruct (Hf d Hd) as [F1 F2]. unfold myo, myf. assert (Hc : (od o d = -1 \/ od o d = 1)%Z) by lia. destruct Hc as [Hc|Hc]; [rewrite (F1 Hc)|rewrite (F2 Hc)]; lia. }
    exists (mkn c zc o kk (slot dim ml (opp3 o) 0 0) p1 p2). split; [|split; [apply mkn_fields|intros d; apply off_mkn]]. exists o, m. split; [exact Hin|]. split; [exact Hnb|]. right. left. split; [rewrite <- Ea; apply K_anc; [lia|lia|congruence]|]. exists p1, p2, zc, kk. rewrite <- Ec. repeat split; assumption.
  - intros b Hb Hch Hface. apply (in_blocks g t b W) in Hb as [Cb (zb & Kb)]. apply in_map_iff in Hch as (j & Ej & Hj). apply in_seq in Hj. pose proof (nleaf8 g) as N8.
    assert (Em : K t m = KNull). { destruct (K t m) eqn:Em; [reflexivity| |]; exfalso; assert (K t b = KNode) by (apply (K_child_parent t b j); [lia|rewrite Ej; congruence]); congruence. }
    assert (Ea : anc 1 m = b) by (rewrite <- Ej; apply anc_child).
    exists (mkn b zb o k0 (slot dim ml (opp3 o) (sub1 o (myf (lx1 a)) (myf (lx2 a)) (myf (lx3 a))) (sub2 o (myf (lx1 a)) (myf (lx2 a)) (myf (lx3 a)))) 0 0). split; [|split; [apply mkn_fields|intros d; apply off_mkn]]. exists o, m. split; [exact Hin|]. split; [exact Hnb|]. right. right. split; [exact Em|].
    split; [apply (face_listed g Vg t W a za o m); assumption|]. exists zb, k0. rewrite Ea. repeat split; assumption.
Qed.
End Cover.
