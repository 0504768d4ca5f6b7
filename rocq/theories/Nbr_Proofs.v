(** Neighbour lists: slots, form of the entries, reciprocity. *)
From Coq Require Import List Arith NArith ZArith Bool Lia.
From Verif Require Import Loc Tags_Model Tags_Spec Tags_Proofs AMR_Spec AMR_Proofs AMR_Proofs2 Tree_Model Tree_Spec Tree_Proofs1 Tree_Proofs2 Tree_Proofs3 Tree_Proofs4 Tree_Proofs5 Tree_Proofs6 Tree_Proofs7 Tree_Proofs8 Tree_Restart Tree_Proofs9 Tree_Proofs10 Nbr_Model.
Import ListNotations.
Local Open Scope nat_scope.

(** ** Slots: the running counter is the index in the slot table *)
Fixpoint starts (dim : nat) (ml : bool) (bid : nat) (os : list dirt) : list (dirt * nat) :=
  match os with [] => [] | o :: os => (o, bid) :: starts dim ml (bid + cnt1 dim ml o * cnt2 dim ml o) os end.
Definition slot (dim : nat) (ml : bool) (o : dirt) (f1 f2 : Z) : option nat := let '(o1, o2, o3) := o in FindBufferID dim ml o1 o2 o3 f1 f2.
Definition okslot (dim : nat) (ml : bool) (ob : dirt * nat) : bool :=
  let '(o, bid) := ob in
  forallb (fun f2 => forallb (fun f1 => match slot dim ml o f1 f2 with Some k => Nat.eqb k (bid + Z.to_nat f2 * cnt1 dim ml o + Z.to_nat f1) | None => false end) (upto (cnt1 dim ml o))) (upto (cnt2 dim ml o)).
Lemma slots_ok : forall dim ml, 1 <= dim <= 3 -> forallb (okslot dim ml) (starts dim ml 0 (dirs dim)) = true.
Proof. intros dim ml H. destruct (dims dim H) as [->|[->| ->]]; destruct ml; vm_compute; reflexivity. Qed.
Lemma slot_start : forall dim ml o bid f1 f2, 1 <= dim <= 3 -> In (o, bid) (starts dim ml 0 (dirs dim)) -> In f1 (upto (cnt1 dim ml o)) -> In f2 (upto (cnt2 dim ml o)) ->
  slot dim ml o f1 f2 = Some (bid + Z.to_nat f2 * cnt1 dim ml o + Z.to_nat f1).
Proof.
  intros dim ml o bid f1 f2 H Hin H1 H2. pose proof (slots_ok dim ml H) as A. rewrite forallb_forall in A. specialize (A _ Hin). unfold okslot in A.
  rewrite forallb_forall in A. specialize (A f2 H2). rewrite forallb_forall in A. specialize (A f1 H1). destruct (slot dim ml o f1 f2) as [k|]; [|discriminate A]. apply Nat.eqb_eq in A. congruence.
Qed.
Lemma upto0 : forall n, 1 <= n -> In 0%Z (upto n).
Proof. intros n Hn. apply in_map_iff. exists 0. split; [reflexivity|]. apply in_seq. lia. Qed.
Lemma cnt_pos : forall dim ml o, 1 <= cnt1 dim ml o <= 2 /\ 1 <= cnt2 dim ml o <= 2.
Proof. intros dim ml [[o1 o2] o3]. unfold cnt1, cnt2, nf1, nf2. destruct (dtype (o1, o2, o3)), ml, (Nat.leb 2 dim), (Nat.leb 3 dim), (Z.eqb o3 0); cbn; lia. Qed.
Lemma starts_in : forall dim ml os bid o, In o os -> exists b, In (o, b) (starts dim ml bid os).
Proof.
  intros dim ml os. induction os as [|x os IH]; intros bid o []; cbn [starts]; [subst; exists bid; left; reflexivity|]. destruct (IH (bid + cnt1 dim ml x * cnt2 dim ml x) o H) as (b & Hb). exists b. right. exact Hb.
Qed.
Lemma starts_dir : forall dim ml os bid o b, In (o, b) (starts dim ml bid os) -> In o os.
Proof. intros dim ml os. induction os as [|x os IH]; intros bid o b H; [destruct H|]. cbn [starts] in H. destruct H as [E|H]; [left; congruence|right; apply (IH _ _ _ H)]. Qed.

(** ** Directions *)
Definition okdir (dim : nat) (o : dirt) : Prop := let '(o1, o2, o3) := o in
  (-1 <= o1 <= 1)%Z /\ (-1 <= o2 <= 1)%Z /\ (-1 <= o3 <= 1)%Z /\ (dim < 2 -> o2 = 0%Z) /\ (dim < 3 -> o3 = 0%Z) /\ (o1 <> 0 \/ o2 <> 0 \/ o3 <> 0)%Z.
Definition okdirb (dim : nat) (o : dirt) : bool := let '(o1, o2, o3) := o in
  Z.leb (-1) o1 && Z.leb o1 1 && Z.leb (-1) o2 && Z.leb o2 1 && Z.leb (-1) o3 && Z.leb o3 1 && (Nat.leb 2 dim || Z.eqb o2 0) && (Nat.leb 3 dim || Z.eqb o3 0) && negb (Z.eqb o1 0 && Z.eqb o2 0 && Z.eqb o3 0).
Lemma okdirb_ok : forall dim o, okdirb dim o = true <-> okdir dim o.
Proof.
  intros dim [[o1 o2] o3]. unfold okdirb, okdir. rewrite !andb_true_iff, !orb_true_iff, !Z.leb_le, !Nat.leb_le, !Z.eqb_eq, negb_true_iff, !andb_false_iff, !Z.eqb_neq. split; intros H; intuition lia.
Qed.
Lemma three : forall x : Z, (-1 <= x <= 1)%Z -> x = (-1)%Z \/ x = 0%Z \/ x = 1%Z.
Proof. lia. Qed.
Definition dirt_eqb (a b : dirt) : bool := let '(a1, a2, a3) := a in let '(b1, b2, b3) := b in Z.eqb a1 b1 && Z.eqb a2 b2 && Z.eqb a3 b3.
Lemma dirs_iff : forall dim o, 1 <= dim <= 3 -> (In o (dirs dim) <-> okdir dim o).
Proof.
  intros dim o H. split.
  - intros Hin. apply okdirb_ok. assert (A : forallb (okdirb dim) (dirs dim) = true) by (destruct (dims dim H) as [->|[->| ->]]; reflexivity). rewrite forallb_forall in A. apply A, Hin.
  - intros Ho. destruct o as [[o1 o2] o3]. destruct Ho as (H1 & H2 & H3 & H4 & H5 & H6).
    assert (A : existsb (dirt_eqb (o1, o2, o3)) (dirs dim) = true).
    { destruct (three o1 H1) as [->|[->| ->]]; destruct (three o2 H2) as [->|[->| ->]]; destruct (three o3 H3) as [->|[->| ->]]; destruct (dims dim H) as [->|[->| ->]]; try reflexivity; exfalso; try (specialize (H4 ltac:(lia)); lia); try (specialize (H5 ltac:(lia)); lia); lia. }
    apply existsb_exists in A as ([[p1 p2] p3] & Hin & E). cbn in E. apply andb_true_iff in E as [E E3]. apply andb_true_iff in E as [E1 E2]. apply Z.eqb_eq in E1, E2, E3. subst. exact Hin.
Qed.
Definition opp3 (o : dirt) : dirt := let '(o1, o2, o3) := o in (- o1, - o2, - o3)%Z.
Lemma okdir_opp : forall dim o, okdir dim o -> okdir dim (opp3 o).
Proof. intros dim [[o1 o2] o3] H. unfold okdir, opp3 in *. intuition lia. Qed.
Lemma nz_opp : forall x, nz (- x) = nz x.
Proof. intros x. unfold nz. destruct (Z.eqb_spec x 0), (Z.eqb_spec (- x) 0); lia. Qed.
Lemma dtype_opp : forall o, dtype (opp3 o) = dtype o.
Proof. intros [[o1 o2] o3]. unfold dtype, opp3. rewrite !nz_opp. reflexivity. Qed.
Lemma opp_opp : forall o, opp3 (opp3 o) = o.
Proof. intros [[o1 o2] o3]. unfold opp3. rewrite !Z.opp_involutive. reflexivity. Qed.
Lemma eqb_opp : forall x, Z.eqb (- x) 0 = Z.eqb x 0.
Proof. intros x. destruct (Z.eqb_spec x 0), (Z.eqb_spec (- x) 0); lia. Qed.
Lemma sub1_opp : forall o a b c, sub1 (opp3 o) a b c = sub1 o a b c.
Proof. intros [[o1 o2] o3] a b c. unfold sub1, opp3. rewrite !eqb_opp. reflexivity. Qed.
Lemma sub2_opp : forall o a b c, sub2 (opp3 o) a b c = sub2 o a b c.
Proof. intros o a b c. unfold sub2. rewrite dtype_opp. destruct o as [[o1 o2] o3]. unfold opp3. rewrite !eqb_opp. reflexivity. Qed.
Lemma cnt1_opp : forall dim ml o, cnt1 dim ml (opp3 o) = cnt1 dim ml o.
Proof. intros dim ml o. unfold cnt1. rewrite dtype_opp. destruct o as [[o1 o2] o3]. cbn [opp3]. rewrite eqb_opp. reflexivity. Qed.
Lemma cnt2_opp : forall dim ml o, cnt2 dim ml (opp3 o) = cnt2 dim ml o.
Proof. intros dim ml o. unfold cnt2. rewrite dtype_opp. reflexivity. Qed.

(** ** Lists of optional entries *)
Lemma seqo_spec : forall (A : Type) (l : list (option A)), (forall x, In x l -> x <> None) -> exists r, seqo l = Some r /\ l = map Some r.
Proof.
  intros A l. induction l as [|x l IH]; intros H; [exists []; split; reflexivity|]. destruct x as [x|]; [|contradiction (H None (or_introl eq_refl)); reflexivity].
  destruct IH as (r & E & ->); [intros y Hy; apply H; right; exact Hy|]. exists (x :: r). cbn [seqo]. rewrite E. split; reflexivity.
Qed.
Lemma in_map_some : forall (A : Type) (r : list A) x, In (Some x) (map Some r) <-> In x r.
Proof. intros A r x. rewrite in_map_iff. split; [intros (y & E & H); congruence|intros H; exists x; split; [reflexivity|exact H]]. Qed.

Section N.
Variable g : grid.
Hypothesis Vg : valid_grid g.
Hypothesis NP : no_pole g.
Hypothesis NS : no_shear g.
Variable t : tree.
Hypothesis W : wf g t.
Hypothesis Bt : B g t.
Variable ml : bool.
Hypothesis ML : ml = false -> forall b, In b (blocks t) -> level b = groot g.
Local Notation dim := (gdim g).
Let nl := nleaf (gdim g).
Definition od (o : dirt) : nat -> Z := let '(o1, o2, o3) := o in off3 o1 o2 o3.
Lemma dim13 : 1 <= gdim g <= 3.
Proof. apply Vg. Qed.
Lemma bpolar_false : forall l o, bpolar g l o = false.
Proof. intros l o. unfold bpolar. destruct NP as [H1 H2]. destruct (Z.eqb o 1); [destruct (gbc g 1 true) eqn:E|destruct (gbc g 1 false) eqn:E]; try contradiction; apply andb_false_r. Qed.
Lemma bshear_false : forall l o, bshear g l o = false.
Proof. intros l o. unfold bshear. destruct NS as [H1 H2]. destruct (Z.eqb o 1); [destruct (gbc g 0 true) eqn:E|destruct (gbc g 0 false) eqn:E]; try contradiction; apply andb_false_r. Qed.

Definition tang (o : dirt) (f1 f2 : Z) (d : nat) : Z := let '(o1, o2, _) := o in
  match d with 0 => f1 | 1 => if Z.eqb o1 0 then f2 else f1 | _ => if Z.eqb o1 0 || Z.eqb o2 0 then f2 else f1 end.
Lemma coord_getleaf : forall b o f1 f2 d, d < 3 -> (f1 = 0 \/ f1 = 1)%Z -> (f2 = 0 \/ f2 = 1)%Z ->
  coord d (getleaf b o false f1 f2) = (2 * coord d b + (if Z.eqb (od o d) 0 then tang o f1 f2 d else if Z.eqb (od o d) (-1) then 1 else 0))%Z.
Proof.
  intros b [[o1 o2] o3] f1 f2 d Hd H1 H2. destruct d as [|[|[|d]]]; try lia; unfold getleaf, od, off3, leafbit, tang; rewrite ?xorb_false_r;
  destruct (Z.eqb_spec o1 0), (Z.eqb_spec o2 0), (Z.eqb_spec o3 0), (Z.eqb_spec o1 (-1)), (Z.eqb_spec o2 (-1)), (Z.eqb_spec o3 (-1)); try lia;
    destruct H1 as [->| ->], H2 as [->| ->]; reflexivity.
Qed.
Lemma getleaf_level : forall b o p f1 f2, level (getleaf b o p f1 f2) = S (level b).
Proof. intros b [[o1 o2] o3] p f1 f2. reflexivity. Qed.
Lemma coord_ext : forall a b, level a = level b -> (forall d, d < 3 -> coord d a = coord d b) -> a = b.
Proof.
  intros [v a1 a2 a3] [v' b1 b2 b3] Hv H. cbn in Hv. subst v'. pose proof (H 0 ltac:(lia)). pose proof (H 1 ltac:(lia)). pose proof (H 2 ltac:(lia)). cbn in *. congruence.
Qed.
Lemma coord_anc1 : forall a d, coord d (anc 1 a) = (coord d a / 2)%Z.
Proof. intros a [|[|d]]; reflexivity. Qed.
Lemma anc_getleaf : forall b o f1 f2, (f1 = 0 \/ f1 = 1)%Z -> (f2 = 0 \/ f2 = 1)%Z -> anc 1 (getleaf b o false f1 f2) = b.
Proof.
  intros b o f1 f2 H1 H2. apply coord_ext; [unfold anc; cbn [level]; rewrite getleaf_level; lia|]. intros d Hd. rewrite coord_anc1, coord_getleaf by assumption.
  set (c := if Z.eqb (od o d) 0 then _ else _). assert (Hc : (0 <= c <= 1)%Z). { unfold c. destruct o as [[o1 o2] o3]. unfold tang. destruct (Z.eqb (od (o1, o2, o3) d) 0); [destruct d as [|[|d]]; destruct (Z.eqb o1 0), (Z.eqb o2 0); cbn; lia|destruct (Z.eqb _ _); lia]. }
  symmetry. apply (Z.div_unique _ 2 _ c); lia.
Qed.
Lemma myf_div : forall x, x = (2 * (x / 2) + myf x)%Z.
Proof. intros x. unfold myf. rewrite (Z.div_mod x 2) at 1 by lia. f_equal. rewrite Zmod_odd. destruct (Z.odd x); reflexivity. Qed.
Lemma myf_01 : forall x, (myf x = 0 \/ myf x = 1)%Z.
Proof. intros x. unfold myf. destruct (Z.odd x); [right|left]; reflexivity. Qed.
Lemma myf_child : forall x b, (b = 0 \/ b = 1)%Z -> myf (2 * x + b) = b.
Proof. intros x b H. pose proof (myf_div (2 * x + b)). pose proof (myf_01 (2 * x + b)). assert (((2 * x + b) / 2 = x)%Z). { symmetry. apply (Z.div_unique _ 2 _ b); lia. } lia. Qed.
(** the child of its parent that a block is *)
Lemma getleaf_self : forall a o, okdir dim o -> in_domain g a -> 1 <= level a ->
  (forall d, d < 3 -> od o d <> 0%Z -> myo (coord d a) = (- od o d)%Z) ->
  let h d := myf (coord d a) in
  a = getleaf (anc 1 a) o false (sub1 o (h 0) (h 1) (h 2)) (sub2 o (h 0) (h 1) (h 2)).
Proof.
  intros a o Ho Da Hl Hm h. apply coord_ext; [rewrite getleaf_level; unfold anc; cbn [level]; lia|]. intros d Hd.
  assert (H01 : forall e, (h e = 0 \/ h e = 1)%Z) by (intros e; apply myf_01).
  rewrite coord_getleaf; [| exact Hd | |].
  2:{ destruct o as [[o1 o2] o3]. unfold sub1. destruct (Z.eqb o1 0); [apply H01|]. destruct (Z.eqb o2 0); [apply H01|]. destruct (Z.eqb o3 0); [apply H01|left; reflexivity]. }
  2:{ destruct o as [[o1 o2] o3]. unfold sub2. destruct (dtype _); [destruct (Z.eqb o3 0); apply H01|left; reflexivity|left; reflexivity]. }
  rewrite coord_anc1. rewrite (myf_div (coord d a)) at 1. f_equal. fold (h d).
  destruct (Z.eqb_spec (od o d) 0) as [E|Hne].
  - destruct o as [[o1 o2] o3]. unfold sub1, sub2, dtype, nz, od, off3, tang in *. destruct Ho as (R1 & R2 & R3 & _ & _ & Hn). destruct d as [|[|[|d]]]; try lia; rewrite ?E in *; cbn [Z.eqb] in *;
      repeat match goal with |- context [Z.eqb ?x 0] => destruct (Z.eqb_spec x 0) end; cbn; try reflexivity; try lia.
  - specialize (Hm d Hd Hne). unfold myo in Hm. fold (h d) in Hm. destruct o as [[o1 o2] o3]. assert (R : (-1 <= od (o1, o2, o3) d <= 1)%Z). { destruct Ho as (R1 & R2 & R3 & _). unfold od, off3. destruct d as [|[|d]]; assumption. }
    destruct (Z.eqb_spec (od (o1, o2, o3) d) (-1)); lia.
Qed.
(** a block on the finer side has a neighbour position inside the coarser block *)
Lemma facing_gen : forall l o m f1 f2, okdir dim o -> in_domain g l -> groot g <= level l -> nb g l (od o) m ->
  (f1 = 0 \/ f1 = 1)%Z -> (f2 = 0 \/ f2 = 1)%Z -> (forall d, dim <= d -> d < 3 -> coord d (getleaf m o false f1 f2) = 0%Z) ->
  exists m', nb g (getleaf m o false f1 f2) (od (opp3 o)) m' /\ anc 1 m' = l.
Proof.
  intros l o m f1 f2 Ho Dl Hr [Hv H] H1 H2 Hz.
  set (c := getleaf m o false f1 f2) in *.
  set (nc := fun d => (2 * coord d l + (if Z.eqb (od o d) 0 then coord d c - 2 * coord d m else if Z.ltb 0 (od o d) then 1 else 0))%Z).
  exists (mkLoc (S (level l)) (nc 0) (nc 1) (nc 2)).
  assert (Ec : forall d, d < 3 -> coord d (mkLoc (S (level l)) (nc 0) (nc 1) (nc 2)) = nc d) by (intros [|[|[|d]]] Hd; reflexivity || lia).
  assert (Hoo : forall d, od (opp3 o) d = (- od o d)%Z) by (intros d; destruct o as [[o1 o2] o3]; destruct d as [|[|d]]; reflexivity).
  assert (Hr1 : forall d, d < 3 -> (-1 <= od o d <= 1)%Z) by (intros d Hd; destruct o as [[o1 o2] o3]; destruct Ho as (R1 & R2 & R3 & _); destruct d as [|[|d]]; assumption).
  assert (Hbit : forall d, d < 3 -> (od o d = 0 -> 0 <= coord d c - 2 * coord d m <= 1)%Z /\ (od o d <> 0 -> coord d c = 2 * coord d m + (if Z.ltb (od o d) 0 then 1 else 0))%Z).
  { intros d Hd. unfold c. rewrite coord_getleaf by assumption. specialize (Hr1 d Hd). destruct (Z.eqb_spec (od o d) 0); split; intros; try lia.
    - destruct o as [[o1 o2] o3]. unfold tang. destruct d as [|[|d]]; destruct (Z.eqb o1 0), (Z.eqb o2 0); cbn [orb]; lia.
    - destruct (Z.eqb_spec (od o d) (-1)), (Z.ltb_spec (od o d) 0); lia. }
  split.
  - split; [cbn [level]; unfold c; rewrite getleaf_level; lia|]. intros d Hd. rewrite Hoo, Ec by exact Hd. destruct (H d Hd) as [Hin Hw]. split; [apply (offs_neg g), Hin|].
    unfold c at 1. rewrite getleaf_level, Hv. pose proof (dom_inr g l d Hr Dl Hd) as Hi. pose proof (nmax_pos g Vg d (level l) Hd) as Hn. destruct (Hbit d Hd) as [Hb0 Hb1].
    destruct (Nat.lt_ge_cases d (gdim g)) as [Hdd|Hdd].
    + rewrite nmax_S by assumption. unfold inr in Hi. unfold nc. destruct (Z.eqb_spec (od o d) 0) as [E0|Hne].
      * rewrite E0, Z.add_0_r in Hw. rewrite wrap_in in Hw by exact Hi. injection Hw as Hw. rewrite E0, Z.add_0_r. specialize (Hb0 E0). rewrite wrap_in by lia. f_equal. lia.
      * rewrite (Hb1 Hne). apply (wrap_child g Vg d (nmax g d (level l)) (coord d l) (od o d) (coord d m) Hdd Hn Hi (Hr1 d Hd) Hw).
    + assert (E0 : od o d = 0%Z) by (apply (offs_out g d _ Hdd Hin)). rewrite E0. destruct (Dl d Hd) as (_ & _ & D0). unfold nc. rewrite E0, (Hz d Hdd Hd), (D0 Hdd). cbn [Z.eqb]. rewrite E0, Z.add_0_r, (D0 Hdd) in Hw. unfold nmax in *. destruct (Nat.ltb_spec d (gdim g)); [lia|]. rewrite wrap_in in Hw by lia. injection Hw as Hw. rewrite <- Hw. reflexivity.
  - apply coord_ext; [unfold anc; cbn [level]; lia|]. intros d Hd. rewrite coord_anc1, Ec by exact Hd. unfold nc. destruct (Hbit d Hd) as [Hb0 _]. symmetry.
    destruct (Z.eqb_spec (od o d) 0) as [E0|Hne]; [apply (Z.div_unique _ 2 _ (coord d c - 2 * coord d m)); specialize (Hb0 E0); lia|destruct (Z.ltb 0 (od o d)); [apply (Z.div_unique _ 2 _ 1)|apply (Z.div_unique _ 2 _ 0)]; lia].
Qed.

(** ** What a listed entry is *)
Definition mkn (c : loc) (z : Z) (o : dirt) (k : nat) (ts : option nat) (f1 f2 : Z) : nblock := let '(o1, o2, o3) := o in mkNB c z o1 o2 o3 (dtype o) k ts false false f1 f2.
Definition listed (l : loc) (o : dirt) : Prop := forall d, d < 3 -> od o d <> 0%Z -> myo (coord d l) = od o d.
Definition E1 (l : loc) (o : dirt) (m : loc) (e : nblock) : Prop :=
  (exists z k, K t m = KLeaf z /\ slot dim ml o 0 0 = Some k /\ e = mkn m z o k (slot dim ml (opp3 o) 0 0) 0 0) \/
  (K t m = KNode /\ exists f1 f2 z k, In f1 (upto (cnt1 dim ml o)) /\ In f2 (upto (cnt2 dim ml o)) /\ K t (getleaf m o false f1 f2) = KLeaf z /\
     slot dim ml o f1 f2 = Some k /\ e = mkn (getleaf m o false f1 f2) z o k (slot dim ml (opp3 o) 0 0) f1 f2) \/
  (K t m = KNull /\ listed l o /\ exists z k, K t (anc 1 m) = KLeaf z /\ slot dim ml o 0 0 = Some k /\
     e = mkn (anc 1 m) z o k (slot dim ml (opp3 o) (sub1 o (myf (lx1 l)) (myf (lx2 l)) (myf (lx3 l))) (sub2 o (myf (lx1 l)) (myf (lx2 l)) (myf (lx3 l)))) 0 0).
Definition E (l : loc) (e : nblock) : Prop := exists o m, In o (dirs dim) /\ nb g l (od o) m /\ E1 l o m e.

Lemma upto_01 : forall n f, n <= 2 -> In f (upto n) -> (f = 0 \/ f = 1)%Z.
Proof. intros n f Hn H. apply in_map_iff in H as (i & <- & H). apply in_seq in H. lia. Qed.
Lemma in_upto : forall n f, In f (upto n) <-> (0 <= f < Z.of_nat n)%Z.
Proof. intros n f. unfold upto. rewrite in_map_iff. split; [intros (i & <- & H); apply in_seq in H; lia|intros H; exists (Z.to_nat f); split; [lia|apply in_seq; lia]]. Qed.
Lemma f_range : forall o f1 f2, In f1 (upto (cnt1 dim ml o)) -> In f2 (upto (cnt2 dim ml o)) -> (f1 = 0 \/ f1 = 1)%Z /\ (f2 = 0 \/ f2 = 1)%Z.
Proof. intros o f1 f2 H1 H2. pose proof (cnt_pos dim ml o) as [? ?]. split; [apply (upto_01 _ _) in H1|apply (upto_01 _ _) in H2]; auto; lia. Qed.
Lemma tang_out : forall o f1 f2 d, okdir dim o -> In f1 (upto (cnt1 dim ml o)) -> In f2 (upto (cnt2 dim ml o)) -> dim <= d -> d < 3 -> od o d = 0%Z /\ tang o f1 f2 d = 0%Z.
Proof.
  intros [[o1 o2] o3] f1 f2 d Ho H1 H2 Hd Hd3. apply in_upto in H1, H2. destruct Ho as (R1 & R2 & R3 & D2 & D3 & Hn). unfold cnt1, cnt2, nf1, nf2, dtype, nz, od, off3, tang in *.
  destruct (dims dim dim13) as [Ed|[Ed|Ed]]; rewrite Ed in *; destruct d as [|[|[|d]]]; try lia.
  - rewrite (D2 ltac:(lia)), (D3 ltac:(lia)) in *. split; [reflexivity|]. destruct ml; cbn in H1, H2; destruct (Z.eqb_spec o1 0); cbn in *; lia.
  - rewrite (D2 ltac:(lia)), (D3 ltac:(lia)) in *. split; [reflexivity|]. rewrite orb_true_r. destruct ml; cbn in H1, H2; destruct (Z.eqb_spec o1 0); cbn in *; lia.
  - rewrite (D3 ltac:(lia)) in *. split; [reflexivity|]. destruct ml; cbn in H1, H2; destruct (Z.eqb_spec o1 0), (Z.eqb_spec o2 0); cbn in *; lia.
Qed.
Lemma leafbit_01 : forall o p f, leafbit o p f <= 1.
Proof. intros o p f. unfold leafbit. destruct (Z.eqb o 0), (Z.eqb f 0), (xorb (Z.eqb o (-1)) p); lia. Qed.
Lemma getleaf_child : forall b o f1 f2, okdir dim o -> In f1 (upto (cnt1 dim ml o)) -> In f2 (upto (cnt2 dim ml o)) -> exists j, j < nleaf dim /\ getleaf b o false f1 f2 = child b j.
Proof.
  intros b o f1 f2 Ho H1 H2. destruct (f_range o f1 f2 H1 H2) as [F1 F2]. pose proof (fun d => tang_out o f1 f2 d Ho H1 H2) as T. destruct o as [[o1 o2] o3]. unfold getleaf.
  exists (leafbit o1 false f1 + 2 * leafbit o2 false (if Z.eqb o1 0 then f2 else f1) + 4 * leafbit o3 false (if Z.eqb o1 0 || Z.eqb o2 0 then f2 else f1)). split; [|reflexivity].
  pose proof (leafbit_01 o1 false f1). pose proof (leafbit_01 o2 false (if Z.eqb o1 0 then f2 else f1)). pose proof (leafbit_01 o3 false (if Z.eqb o1 0 || Z.eqb o2 0 then f2 else f1)).
  destruct (dims dim dim13) as [Ed|[Ed|Ed]]; rewrite Ed in *; [change (nleaf 1) with 2|change (nleaf 2) with 4|change (nleaf 3) with 8].
  - destruct (T 1 ltac:(lia) ltac:(lia)) as [T1 T1']. destruct (T 2 ltac:(lia) ltac:(lia)) as [T2 T2']. cbn [od off3 tang] in *. rewrite T1', T2', T1, T2. cbn. lia.
  - destruct (T 2 ltac:(lia) ltac:(lia)) as [T2 T2']. cbn [od off3 tang] in *. rewrite T2', T2. cbn. lia.
  - lia.
Qed.
(** the finer blocks facing a leaf are leaves *)
Lemma finer_leaf : forall l z o m f1 f2, okdir dim o -> canon l -> K t l = KLeaf z -> nb g l (od o) m -> K t m = KNode -> In f1 (upto (cnt1 dim ml o)) -> In f2 (upto (cnt2 dim ml o)) ->
  canon (getleaf m o false f1 f2) /\ (exists zc, K t (getleaf m o false f1 f2) = KLeaf zc) /\ exists m', nb g (getleaf m o false f1 f2) (od (opp3 o)) m' /\ anc 1 m' = l.
Proof.
  intros l z o m f1 f2 Ho Cl Hk Hnb Hm H1 H2. destruct (leaf_level g t l z W Cl Hk) as [Dl Rl]. pose proof (nb_dom g Vg l _ m Dl Rl Hnb) as Dm. pose proof (dom_canon g Vg m Dm) as Cm.
  destruct (f_range o f1 f2 H1 H2) as [F1 F2]. assert (Lm : level m = level l) by apply Hnb.
  destruct (getleaf_child m o f1 f2 Ho H1 H2) as (j & Hj & Ej). assert (Cc : canon (getleaf m o false f1 f2)) by (rewrite Ej; apply canon_child, Cm).
  assert (Hc : K t (getleaf m o false f1 f2) <> KNull) by (rewrite Ej; apply (wf_child g t W); [exact Cm|exact Hm|lia|exact Hj]).
  assert (Hf : exists m', nb g (getleaf m o false f1 f2) (od (opp3 o)) m' /\ anc 1 m' = l).
  { apply (facing_gen l o m f1 f2 Ho Dl Rl Hnb F1 F2). intros d Hd Hd3. destruct (tang_out o f1 f2 d Ho H1 H2 Hd Hd3) as [T1 T2]. rewrite coord_getleaf by assumption. rewrite T1, T2. destruct (Dm d Hd3) as (_ & _ & D0). rewrite (D0 Hd). reflexivity. }
  split; [exact Cc|]. split; [|exact Hf]. destruct (K t (getleaf m o false f1 f2)) as [|zc|] eqn:Ek; [contradiction Hc; reflexivity|exists zc; reflexivity|]. exfalso.
  destruct Hf as (m' & Hnb' & Ea). assert (Hm' : K t m' <> KNull). { apply (B_nb g NP t _ _ _ W Bt Cc Ek ltac:(rewrite getleaf_level; lia) Hnb'). }
  assert (Lm' : level m' = S (level l)) by (destruct Hnb' as [-> _]; rewrite getleaf_level; lia). apply (K_anc t 1 m') in Hm'; [|lia|lia]. rewrite Ea, Hk in Hm'. discriminate Hm'.
Qed.
Lemma myo_pm : forall x, (myo x = 1 \/ myo x = -1)%Z.
Proof. intros x. unfold myo. pose proof (myf_01 x). lia. Qed.
Lemma poff_listed : forall x o, (-1 <= o <= 1)%Z -> (o <> 0 -> myo x = o)%Z -> poff x o = o.
Proof.
  intros x o Ho H. unfold poff, myo in *. pose proof (myf_div x) as E0. pose proof (myf_01 x) as H01. assert (Hx : (o = 0 \/ o = 2 * myf x - 1)%Z) by lia. destruct Hx as [->| ->]; [rewrite Z.add_0_r; lia|].
  assert (((x + (2 * myf x - 1)) / 2 = x / 2 + (2 * myf x - 1))%Z); [|lia]. symmetry. apply (Z.div_unique _ 2 _ (1 - myf x)); lia.
Qed.
Lemma poff_unlisted : forall x o, (-1 <= o <= 1)%Z -> (o <> 0 -> myo x <> o)%Z -> poff x o = 0%Z.
Proof.
  intros x o Ho H. unfold poff, myo in *. pose proof (myf_div x) as E0. pose proof (myf_01 x) as H01. assert (Hx : (o = 0 \/ o = 1 - 2 * myf x)%Z) by lia. destruct Hx as [->| ->]; [rewrite Z.add_0_r; lia|].
  assert (((x + (1 - 2 * myf x)) / 2 = x / 2)%Z); [|lia]. symmetry. apply (Z.div_unique _ 2 _ (1 - myf x)); lia.
Qed.
Lemma od_range : forall o d, okdir dim o -> (-1 <= od o d <= 1)%Z.
Proof. intros [[o1 o2] o3] d (R1 & R2 & R3 & _). destruct d as [|[|d]]; assumption. Qed.
(** a coarser neighbour across a face lies outside the parent *)
Lemma face_listed : forall l z o m, okdir dim o -> canon l -> K t l = KLeaf z -> nb g l (od o) m -> K t m = KNull -> dtype o = face -> listed l o.
Proof.
  intros l z o m Ho Cl Hk Hnb Hm Hf d Hd Hne. destruct (leaf_level g t l z W Cl Hk) as [Dl Rl]. pose proof (nb_dom g Vg l _ m Dl Rl Hnb) as Dm. assert (Lm : level m = level l) by apply Hnb.
  assert (Hgm : groot g < level m). { destruct (Nat.lt_ge_cases (groot g) (level m)); [assumption|]. contradiction (wf_root g t W m Dm ltac:(assumption)). }
  destruct (Z.eq_dec (myo (coord d l)) (od o d)) as [E|E0]; [exact E|exfalso]. destruct (nb_parent g Vg l _ m Dl ltac:(lia) Hnb) as [Hp _].
  assert (Hz : forall d', d' < 3 -> poff (coord d' l) (od o d') = 0%Z).
  { intros d' Hd'. apply poff_unlisted; [apply od_range, Ho|]. intros Hne'. assert (d' = d); [|subst; exact E0]. destruct o as [[o1 o2] o3]. unfold dtype, nz in Hf.
    destruct d as [|[|[|d]]]; try lia; destruct d' as [|[|[|d']]]; try lia; cbn [od off3] in *; exfalso;
      repeat match goal with H : ?x <> 0%Z |- _ => apply Z.eqb_neq in H end; repeat match goal with H : Z.eqb ?x 0 = false |- _ => rewrite H in Hf; clear H end;
      destruct (Z.eqb _ 0) in Hf; discriminate Hf. }
  assert (Dp : in_domain g (anc 1 l)). { apply (wf_dom g t W); [apply canon_anc; [exact Cl|lia]|]. rewrite (K_anc t 1 l) by (lia || congruence). discriminate. }
  assert (Ep : anc 1 m = anc 1 l). { apply (nb_zero g (anc 1 l) (fun d => poff (coord d l) (od o d)) (anc 1 m)); [exact Dp|cbn [anc level]; lia|exact Hz|exact Hp]. }
  destruct (dom_child_of g m Dm ltac:(lia)) as (j & Hj & Ej). rewrite Ej, Ep in Hm. revert Hm. apply (wf_child g t W); [apply canon_anc; [exact Cl|lia]|apply K_anc; [lia|lia|congruence]|cbn [anc level]; lia|exact Hj].
Qed.

Lemma dir_offs3 : forall o1 o2 o3, okdir dim (o1, o2, o3) -> In o1 (offs g 0) /\ In o2 (offs g 1) /\ In o3 (offs g 2).
Proof.
  intros o1 o2 o3 (R1 & R2 & R3 & D2 & D3 & _). pose proof dim13. unfold offs. destruct (Nat.ltb_spec 0 dim); [|lia]. destruct (Nat.ltb_spec 1 dim), (Nat.ltb_spec 2 dim); cbn; repeat split; lia.
Qed.
Lemma find_kind : forall x z, K t x = KLeaf z -> FindMeshBlock t x = Leaf z.
Proof. intros x z H. unfold K in H. unfold FindMeshBlock. destruct (sub t (path x)); cbn in H; congruence. Qed.
Lemma find_node : forall x, K t x = KNode -> exists z ch, FindMeshBlock t x = Node z ch.
Proof. intros x H. unfold K in H. unfold FindMeshBlock. destruct (sub t (path x)) as [| |z ch]; cbn in H; try discriminate H. exists z, ch. reflexivity. Qed.
Lemma listed_iff : forall l o, ((Z.eqb (od o 0) 0 || Z.eqb (myo (lx1 l)) (od o 0)) && (Z.eqb (od o 1) 0 || Z.eqb (myo (lx2 l)) (od o 1)) && (Z.eqb (od o 2) 0 || Z.eqb (myo (lx3 l)) (od o 2)) = true) <-> listed l o.
Proof.
  intros l o. rewrite !andb_true_iff, !orb_true_iff, !Z.eqb_eq. unfold listed. split.
  - intros [[H0 H1] H2] d Hd Hne. destruct d as [|[|[|d]]]; cbn [coord]; try lia.
  - intros H. pose proof (H 0 ltac:(lia)) as H0. pose proof (H 1 ltac:(lia)) as H1. pose proof (H 2 ltac:(lia)) as H2. cbn [coord] in *.
    repeat split; [destruct (Z.eq_dec (od o 0) 0)|destruct (Z.eq_dec (od o 1) 0)|destruct (Z.eq_dec (od o 2) 0)]; auto.
Qed.
Lemma nb_det : forall l o m m', nb g l o m -> nb g l o m' -> m = m'.
Proof. intros l o m m' [L H] [L' H']. apply coord_ext; [congruence|]. intros d Hd. destruct (H d Hd) as [_ A]. destruct (H' d Hd) as [_ A']. congruence. Qed.
Lemma mkn_bufid : forall c z o k ts f1 f2, n_bufid (mkn c z o k ts f1 f2) = k.
Proof. intros c z [[o1 o2] o3] k ts f1 f2. reflexivity. Qed.

Definition good_dir (l : loc) (o : dirt) (bid : nat) (r : list nblock) : Prop :=
  (forall e, In e r <-> exists m, nb g l (od o) m /\ E1 l o m e) /\ NoDup (map n_bufid r) /\ forall e, In e r -> bid <= n_bufid e < bid + cnt1 dim ml o * cnt2 dim ml o.
Lemma NoDup_1 : forall (A : Type) (x : A), NoDup [x].
Proof. intros A x. constructor; [intros []|constructor]. Qed.
Lemma flat_some : forall (A B C : Type) (F : A -> B -> C) xs ys, flat_map (fun y => map (fun x => Some (F x y)) xs) ys = map Some (flat_map (fun y => map (fun x => F x y) xs) ys).
Proof. intros A B' C F xs ys. induction ys as [|y ys IH]; [reflexivity|]. cbn [flat_map]. rewrite map_app, IH, map_map. reflexivity. Qed.
Lemma seqo_some : forall (A : Type) (l : list A), seqo (map Some l) = Some l.
Proof. intros A l. induction l as [|x l IH]; [reflexivity|]. cbn [map seqo]. rewrite IH. reflexivity. Qed.
Lemma flat_ext : forall (A B C : Type) (F G : A -> B -> C) xs ys, (forall x y, In x xs -> In y ys -> F x y = G x y) -> flat_map (fun y => map (fun x => F x y) xs) ys = flat_map (fun y => map (fun x => G x y) xs) ys.
Proof. intros A B' C F G xs ys H. induction ys as [|y ys IH]; [reflexivity|]. cbn [flat_map]. f_equal; [apply map_ext_in; intros x Hx; apply H; [exact Hx|left; reflexivity]|apply IH; intros x y' Hx Hy; apply H; [exact Hx|right; exact Hy]]. Qed.
Lemma grid_nodup : forall c1 c2 bid, 1 <= c1 <= 2 -> 1 <= c2 <= 2 -> NoDup (flat_map (fun f2 => map (fun f1 => bid + Z.to_nat f2 * c1 + Z.to_nat f1) (upto c1)) (upto c2)).
Proof.
  intros c1 c2 bid H1 H2. assert (E1 : c1 = 1 \/ c1 = 2) by lia. assert (E2 : c2 = 1 \/ c2 = 2) by lia. destruct E1 as [->| ->], E2 as [->| ->]; cbn; repeat constructor; cbn; lia.
Qed.
Lemma direction_spec : forall l z o bid, canon l -> K t l = KLeaf z -> In (o, bid) (starts dim ml 0 (dirs dim)) -> exists r, direction g ml t l bid o = Some r /\ good_dir l o bid r.
Proof.
  intros l z o bid Cl Hk Hin. pose proof (starts_dir _ _ _ _ _ _ Hin) as Hd. apply (dirs_iff dim o dim13) in Hd. destruct (leaf_level g t l z W Cl Hk) as [Dl Rl].
  pose proof (cnt_pos dim ml o) as [P1 P2]. assert (Pm : 1 <= cnt1 dim ml o * cnt2 dim ml o) by nia.
  pose proof (fun f1 f2 => slot_start dim ml o bid f1 f2 dim13 Hin) as SS. pose proof (SS 0%Z 0%Z (upto0 _ (proj1 P1)) (upto0 _ (proj1 P2))) as S0. rewrite Z2Nat.inj_0, Nat.mul_0_l, !Nat.add_0_r in S0.
  destruct o as [[o1 o2] o3] eqn:Eo. rewrite <- Eo in *. destruct (dir_offs3 o1 o2 o3 ltac:(rewrite <- Eo; exact Hd)) as (O1 & O2 & O3).
  assert (Ed : direction g ml t l bid o = match FindNeighbor g t l o1 o2 o3 false with
    | None => None | Some None => Some []
    | Some (Some b) => match FindMeshBlock t b with
       | Null => None
       | Node _ _ => seqo (flat_map (fun f2 => map (fun f1 => match FindMeshBlock t (getleaf b o false f1 f2) with
              | Leaf gid => Some (mkn (getleaf b o false f1 f2) gid o (bid + Z.to_nat f2 * cnt1 dim ml o + Z.to_nat f1) (slot dim ml (opp3 o) 0 0) f1 f2) | _ => None end) (upto (cnt1 dim ml o))) (upto (cnt2 dim ml o)))
       | Leaf gid => if Nat.eqb (level b) (level l) then Some [mkn b gid o bid (slot dim ml (opp3 o) 0 0) 0 0]
           else if match dtype o with face => true | _ => false end || ((Z.eqb (od o 0) 0 || Z.eqb (myo (lx1 l)) (od o 0)) && (Z.eqb (od o 1) 0 || Z.eqb (myo (lx2 l)) (od o 1)) && (Z.eqb (od o 2) 0 || Z.eqb (myo (lx3 l)) (od o 2)))
           then Some [mkn b gid o bid (slot dim ml (opp3 o) (sub1 o (myf (lx1 l)) (myf (lx2 l)) (myf (lx3 l))) (sub2 o (myf (lx1 l)) (myf (lx2 l)) (myf (lx3 l)))) 0 0] else Some []
       end end).
  { unfold direction. rewrite Eo. rewrite bpolar_false, bshear_false. reflexivity. }
  rewrite Ed. clear Ed.
  destruct (FindNeighborLoc g l o1 o2 o3) as [m|] eqn:EL.
  2:{ exists []. unfold FindNeighbor. rewrite EL. split; [reflexivity|]. split; [|split; [constructor|intros e []]]. intros e. split; [intros []|]. intros (m & Hnb & _). exfalso. rewrite Eo in Hnb. apply (fnl_of_nb g Vg l o1 o2 o3 m Dl Rl) in Hnb. congruence. }
  apply (fnl_nb g Vg NP NS) in EL; try assumption. assert (Hnb : nb g l (od o) m) by (rewrite Eo; exact EL).
  assert (Lm : level m = level l) by apply Hnb.
  assert (OneE : forall e, (exists m0, nb g l (od o) m0 /\ E1 l o m0 e) <-> E1 l o m e). { intros e. split; [intros (m0 & Hm0 & H); rewrite (nb_det _ _ _ _ Hnb Hm0); exact H|intros H; exists m; split; assumption]. }
  destruct (find_leaf g Vg NP t l z o1 o2 o3 m false W Bt Cl Hk EL) as (r & Er & [[-> Hm]|(Hgm & -> & (z' & Ez'))]); rewrite Er; clear Er.
  - destruct (K t m) as [|zm|] eqn:Em; [contradiction Hm; reflexivity| |].
    + rewrite (find_kind m zm Em), Lm, Nat.eqb_refl. eexists. split; [reflexivity|]. split; [|split; [apply NoDup_1|intros e [<-|[]]; rewrite mkn_bufid; lia]]. intros e. rewrite OneE. split.
      * intros [<-|[]]. left. exists zm, bid. split; [exact Em|]. split; [exact S0|reflexivity].
      * intros [(z1 & k & A & B' & ->)|[[A _]|[A _]]]; try congruence. left. assert (z1 = zm) by congruence. assert (k = bid) by congruence. subst. reflexivity.
    + destruct (find_node m Em) as (zz & ch & ->).
      set (G := fun f1 f2 => mkn (getleaf m o false f1 f2) (match FindMeshBlock t (getleaf m o false f1 f2) with Leaf zc => zc | _ => 0%Z end) o (bid + Z.to_nat f2 * cnt1 dim ml o + Z.to_nat f1) (slot dim ml (opp3 o) 0 0) f1 f2).
      exists (flat_map (fun f2 => map (fun f1 => G f1 f2) (upto (cnt1 dim ml o))) (upto (cnt2 dim ml o))). split.
      { rewrite (flat_ext _ _ _ _ (fun f1 f2 => Some (G f1 f2))); [rewrite flat_some; apply seqo_some|]. intros f1 f2 H1 H2. destruct (finer_leaf l z o m f1 f2 Hd Cl Hk Hnb Em H1 H2) as (_ & (zc & Ec) & _). unfold G. rewrite (find_kind _ _ Ec). reflexivity. }
      split; [|split].
      * intros e. rewrite OneE. rewrite in_flat_map. split.
        { intros (f2 & H2 & H). apply in_map_iff in H as (f1 & <- & H1). right. left. split; [exact Em|]. destruct (finer_leaf l z o m f1 f2 Hd Cl Hk Hnb Em H1 H2) as (_ & (zc & Ec) & _).
          exists f1, f2, zc, (bid + Z.to_nat f2 * cnt1 dim ml o + Z.to_nat f1). split; [exact H1|]. split; [exact H2|]. split; [exact Ec|]. split; [apply SS; assumption|]. unfold G. rewrite (find_kind _ _ Ec). reflexivity. }
        { intros [(z1 & k & A & _)|[(_ & f1 & f2 & zc & k & H1 & H2 & Ec & Ek & ->)|[A _]]]; try congruence. exists f2. split; [exact H2|]. apply in_map_iff. exists f1. split; [|exact H1]. unfold G. rewrite (find_kind _ _ Ec). rewrite (SS f1 f2 H1 H2) in Ek. injection Ek as <-. reflexivity. }
      * replace (map n_bufid (flat_map (fun f2 => map (fun f1 => G f1 f2) (upto (cnt1 dim ml o))) (upto (cnt2 dim ml o)))) with (flat_map (fun f2 => map (fun f1 => bid + Z.to_nat f2 * cnt1 dim ml o + Z.to_nat f1) (upto (cnt1 dim ml o))) (upto (cnt2 dim ml o))); [apply grid_nodup; assumption|].
        generalize (upto (cnt2 dim ml o)). intros l2. induction l2 as [|f2 l2 IH]; [reflexivity|]. cbn [flat_map]. rewrite map_app, IH, map_map. f_equal. apply map_ext. intros f1. unfold G. rewrite mkn_bufid. reflexivity.
      * intros e H. apply in_flat_map in H as (f2 & H2 & H). apply in_map_iff in H as (f1 & <- & H1). unfold G. rewrite mkn_bufid. apply in_upto in H1, H2. nia.
  - assert (Em : K t m = KNull). { destruct (K t m) eqn:Em; [reflexivity| |]; exfalso; assert (Hn : K t m <> KNull) by congruence; apply (K_anc t 1 m) in Hn; try lia; congruence. }
    rewrite (find_kind _ _ Ez'). cbn [anc level]. destruct (Nat.eqb_spec (level m - 1) (level l)); [lia|].
    destruct (match dtype o with face => true | _ => false end || _) eqn:Eb.
    + assert (Li : listed l o). { apply orb_true_iff in Eb as [Eb|Eb]; [|apply listed_iff; exact Eb]. apply (face_listed l z o m Hd Cl Hk Hnb Em). destruct (dtype o); [reflexivity|discriminate Eb|discriminate Eb]. }
      eexists. split; [reflexivity|]. split; [|split; [apply NoDup_1|intros e [<-|[]]; rewrite mkn_bufid; lia]]. intros e. rewrite OneE. split.
      * intros [<-|[]]. right. right. split; [exact Em|]. split; [exact Li|]. exists z', bid. split; [exact Ez'|]. split; [exact S0|reflexivity].
      * intros [(z1 & k & A & _)|[[A _]|(_ & _ & z1 & k & A & B' & ->)]]; try congruence. left. assert (z1 = z') by congruence. assert (k = bid) by congruence. subst. reflexivity.
    + apply orb_false_iff in Eb as [_ Eb]. exists []. split; [reflexivity|]. split; [|split; [constructor|intros e []]]. intros e. rewrite OneE. split; [intros []|].
      intros [(z1 & k & A & _)|[[A _]|(_ & Li & _)]]; try congruence. apply listed_iff in Li. congruence.
Qed.
Lemma search_spec : forall l z os bid, canon l -> K t l = KLeaf z -> (forall ob, In ob (starts dim ml bid os) -> In ob (starts dim ml 0 (dirs dim))) ->
  exists r, search g ml t l bid os = Some r /\ (forall e, In e r <-> exists o m, In o os /\ nb g l (od o) m /\ E1 l o m e) /\ NoDup (map n_bufid r) /\ forall e, In e r -> bid <= n_bufid e.
Proof.
  intros l z os. induction os as [|o os IH]; intros bid Cl Hk Hs.
  - exists []. split; [reflexivity|]. split; [|split; [constructor|intros e []]]. intros e. split; [intros []|intros (o & m & [] & _)].
  - cbn [search]. destruct (direction_spec l z o bid Cl Hk (Hs _ (or_introl eq_refl))) as (r & Er & R1 & R2 & R3). rewrite Er.
    destruct (IH (bid + cnt1 dim ml o * cnt2 dim ml o) Cl Hk (fun ob Hob => Hs ob (or_intror Hob))) as (r' & Er' & Q1 & Q2 & Q3). rewrite Er'. exists (r ++ r'). split; [reflexivity|]. split; [|split].
    + intros e. rewrite in_app_iff, R1, Q1. split.
      * intros [(m & H)|(o' & m & H1 & H2)]; [exists o, m; split; [left; reflexivity|exact H]|exists o', m; split; [right; exact H1|exact H2]].
      * intros (o' & m & [<-|H1] & H2); [left; exists m; exact H2|right; exists o', m; split; assumption].
    + rewrite map_app. apply NoDup_app2; [exact R2|exact Q2|]. intros k Hk1 Hk2. apply in_map_iff in Hk1 as (e1 & <- & He1). apply in_map_iff in Hk2 as (e2 & E2 & He2). specialize (R3 e1 He1). specialize (Q3 e2 He2). lia.
    + intros e H. apply in_app_iff in H as [H|H]; [apply R3 in H; lia|apply Q3 in H; lia].
Qed.
Lemma search_all : forall l z, canon l -> K t l = KLeaf z -> exists r, SearchAndSetNeighbors g ml t l = Some r /\ (forall e, In e r <-> E l e) /\ NoDup (map n_bufid r).
Proof. intros l z Cl Hk. destruct (search_spec l z (dirs dim) 0 Cl Hk (fun ob H => H)) as (r & Er & R1 & R2 & _). exists r. split; [exact Er|]. split; [exact R1|exact R2]. Qed.

(** ** Reciprocity *)
Lemma slot_ex : forall o f1 f2, okdir dim o -> In f1 (upto (cnt1 dim ml o)) -> In f2 (upto (cnt2 dim ml o)) -> exists k, slot dim ml o f1 f2 = Some k.
Proof. intros o f1 f2 Ho H1 H2. apply (dirs_iff dim o dim13) in Ho. destruct (starts_in dim ml (dirs dim) 0 o Ho) as (b & Hb). eexists. apply (slot_start dim ml o b f1 f2 dim13 Hb H1 H2). Qed.
Lemma slot_ex0 : forall o, okdir dim o -> exists k, slot dim ml o 0 0 = Some k.
Proof. intros o Ho. pose proof (cnt_pos dim ml o) as [P1 P2]. apply slot_ex; [exact Ho|apply upto0, P1|apply upto0, P2]. Qed.
Definition edir (e : nblock) : dirt := (n_o1 e, n_o2 e, n_o3 e).
Lemma mkn_fields : forall c z o k ts f1 f2, n_loc (mkn c z o k ts f1 f2) = c /\ n_gid (mkn c z o k ts f1 f2) = z /\ edir (mkn c z o k ts f1 f2) = o /\ n_bufid (mkn c z o k ts f1 f2) = k /\ n_target (mkn c z o k ts f1 f2) = ts /\ n_type (mkn c z o k ts f1 f2) = dtype o.
Proof. intros c z [[o1 o2] o3] k ts f1 f2. repeat split. Qed.
Lemma od_opp : forall o d, od (opp3 o) d = (- od o d)%Z.
Proof. intros [[o1 o2] o3] d. destruct d as [|[|d]]; reflexivity. Qed.
Lemma nb_ext : forall l o o' m, (forall d, d < 3 -> o d = o' d) -> nb g l o m -> nb g l o' m.
Proof. intros l o o' m H [L N]. split; [exact L|]. intros d Hd. rewrite <- (H d Hd). apply N, Hd. Qed.
Definition recip (a : loc) (za : Z) (e e' : nblock) : Prop :=
  n_loc e' = a /\ n_gid e' = za /\ n_target e = Some (n_bufid e') /\ n_target e' = Some (n_bufid e) /\ edir e' = opp3 (edir e) /\ n_type e' = n_type e.
Lemma sub_range : forall o, okdir dim o -> ml = true -> forall x, in_domain g x -> let h d := myf (coord d x) in
  In (sub1 o (h 0) (h 1) (h 2)) (upto (cnt1 dim ml o)) /\ In (sub2 o (h 0) (h 1) (h 2)) (upto (cnt2 dim ml o)).
Proof.
  intros [[o1 o2] o3] (R1 & R2 & R3 & D2 & D3 & Hn) Hml x Dx h. assert (H01 : forall d, (h d = 0 \/ h d = 1)%Z) by (intros d; apply myf_01).
  assert (H0 : forall d, dim <= d -> d < 3 -> h d = 0%Z) by (intros d Hd Hd3; unfold h; destruct (Dx d Hd3) as (_ & _ & D0); rewrite (D0 Hd); reflexivity).
  rewrite !in_upto. unfold sub1, sub2, cnt1, cnt2, nf1, nf2, dtype, nz. rewrite Hml. cbn [andb]. pose proof dim13 as D13.
  pose proof (H01 0). pose proof (H01 1). pose proof (H01 2). pose proof (H0 1) as Z1. pose proof (H0 2) as Z2. clearbody h.
  destruct (Nat.leb_spec 2 dim), (Nat.leb_spec 3 dim); destruct (Z.eqb_spec o1 0), (Z.eqb_spec o2 0), (Z.eqb_spec o3 0); cbn [plus Z.of_nat]; lia.
Qed.
Lemma ml_true : forall x z, canon x -> K t x = KLeaf z -> groot g < level x -> ml = true.
Proof. intros x z Cx Hk Hl. destruct ml; [reflexivity|]. assert (level x = groot g); [|lia]. apply (ML eq_refl). apply (in_blocks g t x W). split; [exact Cx|exists z; exact Hk]. Qed.
Lemma recip_ex : forall a za e, canon a -> K t a = KLeaf za -> E a e -> canon (n_loc e) /\ K t (n_loc e) = KLeaf (n_gid e) /\ exists e', E (n_loc e) e' /\ recip a za e e'.
Proof.
  intros a za e Ca Ha (o & m & Hin & Hnb & HE). pose proof Hin as Ho. apply (dirs_iff dim o dim13) in Ho. pose proof (okdir_opp dim o Ho) as Ho'. pose proof Ho' as Hin'. apply (dirs_iff dim _ dim13) in Hin'.
  destruct (leaf_level g t a za W Ca Ha) as [Da Ra]. pose proof (nb_dom g Vg a _ m Da Ra Hnb) as Dm. pose proof (dom_canon g Vg m Dm) as Cm. assert (Lm : level m = level a) by apply Hnb.
  destruct (slot_ex0 (opp3 o) Ho') as (k' & Ek').
  destruct HE as [(z & k & Em & Ek & ->)|[(Em & f1 & f2 & z & k & H1 & H2 & Ec & Ek & ->)|(Em & Li & z & k & Eb & Ek & ->)]].
  - destruct (mkn_fields m z o k (slot dim ml (opp3 o) 0 0) 0 0) as (F1 & F2 & F3 & F4 & F5 & F6). rewrite F1, F2. split; [exact Cm|]. split; [exact Em|].
    exists (mkn a za (opp3 o) k' (slot dim ml (opp3 (opp3 o)) 0 0) 0 0). split.
    + exists (opp3 o), a. split; [exact Hin'|]. split; [apply (nb_ext m (fun d => (- od o d)%Z)); [intros d _; symmetry; apply od_opp|apply (nb_sym g Vg a _ m Da Ra Hnb)]|]. left. exists za, k'. split; [exact Ha|]. split; [exact Ek'|reflexivity].
    + destruct (mkn_fields a za (opp3 o) k' (slot dim ml (opp3 (opp3 o)) 0 0) 0 0) as (G1 & G2 & G3 & G4 & G5 & G6). unfold recip. rewrite G1, G2, G3, G4, G5, G6, F3, F4, F5, F6, opp_opp, dtype_opp. repeat split; assumption.
  - destruct (mkn_fields (getleaf m o false f1 f2) z o k (slot dim ml (opp3 o) 0 0) f1 f2) as (F1 & F2 & F3 & F4 & F5 & F6). rewrite F1, F2. set (c := getleaf m o false f1 f2) in *.
    destruct (finer_leaf a za o m f1 f2 Ho Ca Ha Hnb Em H1 H2) as (Cc & _ & m' & Hnb' & Ea). fold c in Cc, Hnb'. split; [exact Cc|]. split; [exact Ec|].
    destruct (f_range o f1 f2 H1 H2) as [B1 B2]. assert (Lc : level c = S (level m)) by (unfold c; apply getleaf_level).
    destruct (leaf_level g t c z W Cc Ec) as [Dc Rc].
    assert (Hml : ml = true) by (apply (ml_true c z Cc Ec); lia).
    assert (Hcf : forall d, d < 3 -> myf (coord d c) = (if Z.eqb (od o d) 0 then tang o f1 f2 d else if Z.eqb (od o d) (-1) then 1 else 0)%Z).
    { intros d Hd. unfold c. rewrite coord_getleaf by assumption. apply myf_child. destruct o as [[o1 o2] o3]. unfold tang. destruct (Z.eqb (od (o1, o2, o3) d) 0); [destruct d as [|[|d]]; destruct (Z.eqb o1 0), (Z.eqb o2 0); cbn [orb]; assumption|destruct (Z.eqb _ _); lia]. }
    assert (Hsub : sub1 o (myf (lx1 c)) (myf (lx2 c)) (myf (lx3 c)) = f1 /\ sub2 o (myf (lx1 c)) (myf (lx2 c)) (myf (lx3 c)) = f2).
    { change (lx1 c) with (coord 0 c). change (lx2 c) with (coord 1 c). change (lx3 c) with (coord 2 c). rewrite !Hcf by lia. apply in_upto in H1, H2. destruct o as [[o1 o2] o3]. destruct Ho as (_ & _ & _ & _ & _ & Hn).
      unfold sub1, sub2, cnt1, cnt2, dtype, nz, tang, od, off3 in *. destruct (Z.eqb_spec o1 0), (Z.eqb_spec o2 0), (Z.eqb_spec o3 0); cbn [plus orb] in *; split; try reflexivity; try lia. }
    exists (mkn a za (opp3 o) k' (slot dim ml (opp3 (opp3 o)) (sub1 (opp3 o) (myf (lx1 c)) (myf (lx2 c)) (myf (lx3 c))) (sub2 (opp3 o) (myf (lx1 c)) (myf (lx2 c)) (myf (lx3 c)))) 0 0). split.
    + exists (opp3 o), m'. split; [exact Hin'|]. split; [exact Hnb'|]. right. right. split; [|split].
      * destruct (K t m') eqn:Em'; [reflexivity| |]; exfalso; (assert (Hn : K t m' <> KNull) by congruence); destruct Hnb' as [Lm' _]; apply (K_anc t 1 m') in Hn; try lia; rewrite Ea in Hn; congruence.
      * intros d Hd. rewrite od_opp. intros Hne. unfold myo. rewrite (Hcf d Hd). pose proof (od_range o d Ho). destruct (Z.eqb_spec (od o d) 0); [lia|]. destruct (Z.eqb_spec (od o d) (-1)); lia.
      * exists za, k'. rewrite Ea. split; [exact Ha|]. split; [exact Ek'|reflexivity].
    + destruct (mkn_fields a za (opp3 o) k' (slot dim ml (opp3 (opp3 o)) (sub1 (opp3 o) (myf (lx1 c)) (myf (lx2 c)) (myf (lx3 c))) (sub2 (opp3 o) (myf (lx1 c)) (myf (lx2 c)) (myf (lx3 c)))) 0 0) as (G1 & G2 & G3 & G4 & G5 & G6).
      unfold recip. rewrite G1, G2, G3, G4, G5, G6, F3, F4, F5, F6, opp_opp, dtype_opp, sub1_opp, sub2_opp. destruct Hsub as [-> ->]. repeat split; assumption.
  - set (p1 := sub1 o (myf (lx1 a)) (myf (lx2 a)) (myf (lx3 a))) in *. set (p2 := sub2 o (myf (lx1 a)) (myf (lx2 a)) (myf (lx3 a))) in *.
    destruct (mkn_fields (anc 1 m) z o k (slot dim ml (opp3 o) p1 p2) 0 0) as (F1 & F2 & F3 & F4 & F5 & F6). rewrite F1, F2.
    assert (Hgm : groot g < level m). { destruct (Nat.lt_ge_cases (groot g) (level m)); [assumption|]. contradiction (wf_root g t W m Dm ltac:(assumption)). }
    assert (Hml : ml = true) by (apply (ml_true a za Ca Ha); lia).
    split; [apply canon_anc; [exact Cm|lia]|]. split; [exact Eb|].
    destruct (sub_range (opp3 o) Ho' Hml a Da) as [S1 S2]. cbn [coord] in S1, S2. rewrite sub1_opp in S1. rewrite sub2_opp in S2. fold p1 in S1. fold p2 in S2.
    destruct (slot_ex (opp3 o) p1 p2 Ho' S1 S2) as (k2 & Ek2).
    destruct (nb_parent g Vg a _ m Da ltac:(lia) Hnb) as [Hp _].
    assert (Dp : in_domain g (anc 1 a)). { apply (wf_dom g t W); [apply canon_anc; [exact Ca|lia]|]. rewrite (K_anc t 1 a) by (lia || congruence). discriminate. }
    assert (Hnp : nb g (anc 1 m) (od (opp3 o)) (anc 1 a)).
    { apply (nb_ext _ (fun d => (- (poff (coord d a) (od o d)))%Z)); [|apply (nb_sym g Vg (anc 1 a) _ (anc 1 m) Dp ltac:(cbn [anc level]; lia) Hp)]. intros d Hd. rewrite od_opp. f_equal. apply poff_listed; [apply od_range, Ho|apply Li, Hd]. }
    assert (Es : a = getleaf (anc 1 a) (opp3 o) false p1 p2).
    { pose proof (getleaf_self a (opp3 o) Ho' Da ltac:(lia)) as Q. cbn [coord] in Q. rewrite sub1_opp, sub2_opp in Q. fold p1 p2 in Q. apply Q. intros d Hd. rewrite od_opp, Z.opp_involutive. intros Hne. apply Li; [exact Hd|lia]. }
    exists (mkn a za (opp3 o) k2 (slot dim ml (opp3 (opp3 o)) 0 0) p1 p2). split.
    + exists (opp3 o), (anc 1 a). split; [exact Hin'|]. split; [exact Hnp|]. right. left. split; [apply K_anc; [lia|lia|congruence]|].
      exists p1, p2, za, k2. rewrite <- Es. repeat split; assumption.
    + destruct (mkn_fields a za (opp3 o) k2 (slot dim ml (opp3 (opp3 o)) 0 0) p1 p2) as (G1 & G2 & G3 & G4 & G5 & G6). unfold recip. rewrite G1, G2, G3, G4, G5, G6, F3, F4, F5, F6, opp_opp, dtype_opp. repeat split; assumption.
Qed.
End N.
