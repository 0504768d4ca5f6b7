(** Messages with three components, and the ranges of one direction. *)
From Coq Require Import List Arith ZArith Bool Lia.
From Verif Require Import Loc Tags_Model Tree_Model Tree_Spec Nbr_Model Nbr_Spec Buf_Model Gho_Model Gho_Spec Gho_Proofs Gho_Proofs2 Gho_Proofs3 Fgh_Model Fgh_Spec.
Import ListNotations.
Local Open Scope Z_scope.

Definition down (x : cell) (c : nat) : cell := fun d => if Nat.eqb d c then x d - 1 else x d.
Lemma inr_spec : forall r z, inr_ r z = true <-> fst r <= z <= snd r.
Proof. intros r z. unfold inr_. rewrite andb_true_iff, !Z.leb_le. tauto. Qed.

Section V.
Context {A : Type}.
Local Notation arr4 := (arr4 (A := A)).
Lemma value_ext3 : forall (v : arr4) n x y, (forall d, (d < 3)%nat -> x d = y d) -> value v n x = value v n y.
Proof. intros v n x y H. unfold value. rewrite (H 0%nat), (H 1%nat), (H 2%nat) by lia. reflexivity. Qed.
Lemma second_same : forall B c r (v : arr4) x, (c < 3)%nat -> actv B c = false -> inbox r (down x c) -> value (second_face B c r v) (Z.of_nat c) x = value v (Z.of_nat c) (down x c).
Proof.
  intros B c r v x Hc Ha Hx. unfold value, second_face. pose proof (Hx 0%nat ltac:(lia)) as H0. pose proof (Hx 1%nat ltac:(lia)) as H1. pose proof (Hx 2%nat ltac:(lia)) as H2.
  rewrite Ha, Z.eqb_refl. cbn [negb andb]. destruct c as [|[|[|c]]]; [| | |lia]; unfold down in *; cbn [Nat.eqb] in *;
    rewrite (proj2 (inr_spec _ _) H0), (proj2 (inr_spec _ _) H1), (proj2 (inr_spec _ _) H2); reflexivity.
Qed.
Lemma second_other : forall B c r (v : arr4) n x, (c < 3)%nat -> n <> Z.of_nat c \/ (actv B c = false -> ~ inbox r (down x c)) -> value (second_face B c r v) n x = value v n x.
Proof.
  intros B c r v n x Hc H. unfold value, second_face. destruct (actv B c) eqn:Ha; [destruct c as [|[|[|c]]]; reflexivity|]. cbn [negb].
  destruct (Z.eqb_spec n (Z.of_nat c)) as [->|Hn]; [|destruct c as [|[|[|c]]]; reflexivity]. destruct H as [H|H]; [contradiction|]. specialize (H eq_refl).
  destruct c as [|[|[|c]]]; [| | |lia]; cbn [andb];
  match goal with |- context [if ?t then _ else _] => destruct t eqn:E; [|reflexivity] end; exfalso; apply H; rewrite !andb_true_iff in E; destruct E as [[E2 E1] E0]; apply inr_spec in E2; apply inr_spec in E1; apply inr_spec in E0;
  intros [|[|[|d]]] Hd; [exact E0|exact E1|exact E2|lia| | | | | | | |]; try lia; assumption.
Qed.
Lemma unpack_app : forall ps (m m' : list A) (w : arr4), length m = length ps -> Unpack ps (m ++ m') w = Unpack ps m w.
Proof. induction ps as [|p ps IH]; intros [|x m] m' w H; try discriminate H; [destruct m'; reflexivity|]. cbn [app Unpack]. apply IH. injection H as H. exact H. Qed.
Section One.
Variables (B : bsz) (v : arr4) (r q : nat -> nat -> rangez) (dl : nat -> Z).
Hypothesis RG : forall c d, (c < 3)%nat -> (d < 3)%nat -> fst (r c d) = fst (q c d) + dl d /\ snd (r c d) = snd (q c d) + dl d.
Lemma same_length : forall c, (c < 3)%nat -> length (region (Z.of_nat c) (Z.of_nat c) (q c)) = length (region (Z.of_nat c) (Z.of_nat c) (r c)).
Proof using RG. intros c Hc. rewrite (region_move _ _ (r c) (q c) (fun d => - dl d)); [apply map_length|]. intros d Hd. pose proof (RG c d Hc Hd). lia. Qed.
Lemma unpack1_msg : forall c rest w, (c < 3)%nat -> fst (FUnpack1 B q c (Pack v (region (Z.of_nat c) (Z.of_nat c) (r c)) ++ rest, w)) = rest.
Proof using RG.
  intros c rest w Hc. unfold FUnpack1. cbn [fst]. rewrite (same_length c Hc). unfold Pack. rewrite skipn_app, map_length, Nat.sub_diag, skipn_all2 by (rewrite map_length; lia). reflexivity.
Qed.
Lemma unpack1_other : forall c (mv : list A * arr4) n x, (c < 3)%nat -> n <> Z.of_nat c -> value (snd (FUnpack1 B q c mv)) n x = value (snd mv) n x.
Proof using . intros c mv n x Hc Hn. unfold FUnpack1. cbn [snd]. rewrite second_other by auto. apply unwritten. intros [H _]. lia. Qed.
Lemma unpack1_here : forall c rest w x, (c < 3)%nat -> (actv B c = false -> snd (q c c) <= fst (q c c)) -> let out := snd (FUnpack1 B q c (Pack v (region (Z.of_nat c) (Z.of_nat c) (r c)) ++ rest, w)) in
  (inbox (q c) x -> value out (Z.of_nat c) x = value v (Z.of_nat c) (fun d => x d + dl d) /\ (actv B c = false -> value out (Z.of_nat c) (cell_face x c true) = value out (Z.of_nat c) x)) /\
  (~ inbox (q c) x -> (actv B c = false -> ~ inbox (q c) (down x c)) -> value out (Z.of_nat c) x = value w (Z.of_nat c) x).
Proof using RG.
  intros c rest w x Hc Hs out. unfold out, FUnpack1. cbn [fst snd]. rewrite unpack_app by (unfold Pack; rewrite map_length; symmetry; apply same_length, Hc). split.
  - intros Hx.
    assert (Q : value (second_face B c (q c) (Unpack (region (Z.of_nat c) (Z.of_nat c) (q c)) (Pack v (region (Z.of_nat c) (Z.of_nat c) (r c))) w)) (Z.of_nat c) x = value v (Z.of_nat c) (fun d => x d + dl d)).
    { rewrite second_other; [|exact Hc|right; intros Ha Hb; specialize (Hs Ha); pose proof (Hx c Hc) as X1; pose proof (Hb c Hc) as X2; unfold down in X2; rewrite Nat.eqb_refl in X2; lia].
      apply written; [|exact Hx|lia]. intros d Hd. apply RG; assumption. }
    split; [exact Q|]. intros Ha. rewrite Q, second_same; [|exact Hc|exact Ha|].
    + rewrite (value_ext3 _ _ (down (cell_face x c true) c) x); [apply written; [intros d Hd; apply RG; assumption|exact Hx|lia]|]. intros d Hd. unfold down, cell_face. cbn [andb]. destruct (Nat.eqb d c); lia.
    + intros d Hd. specialize (Hx d Hd). unfold down, cell_face. cbn [andb]. destruct (Nat.eqb d c); lia.
  - intros Hx Hd. rewrite second_other by (try exact Hc; right; exact Hd). apply unwritten. intros [_ H]. exact (Hx H).
Qed.
Lemma unpack_all : forall w c x, (c < 3)%nat -> (actv B c = false -> snd (q c c) <= fst (q c c)) -> let out := FUnpack B q (FPack v r) w in
  (inbox (q c) x -> value out (Z.of_nat c) x = value v (Z.of_nat c) (fun d => x d + dl d) /\ (actv B c = false -> value out (Z.of_nat c) (cell_face x c true) = value out (Z.of_nat c) x)) /\
  (~ inbox (q c) x -> (actv B c = false -> ~ inbox (q c) (down x c)) -> value out (Z.of_nat c) x = value w (Z.of_nat c) x).
Proof using RG.
  intros w c x Hc Hs out. unfold out, FUnpack, FPack. cbn [flat_map]. rewrite app_nil_r.
  set (P0 := Pack v (region (Z.of_nat 0) (Z.of_nat 0) (r 0%nat))). set (P1 := Pack v (region (Z.of_nat 1) (Z.of_nat 1) (r 1%nat))). set (P2 := Pack v (region (Z.of_nat 2) (Z.of_nat 2) (r 2%nat))).
  set (u0 := FUnpack1 B q 0 (P0 ++ P1 ++ P2, w)). set (u1 := FUnpack1 B q 1 u0). set (u2 := FUnpack1 B q 2 u1).
  assert (E0 : u0 = (P1 ++ P2, snd u0)). { rewrite (surjective_pairing u0) at 1. f_equal. apply (unpack1_msg 0 (P1 ++ P2) w). lia. }
  assert (E1 : u1 = (P2, snd u1)). { rewrite (surjective_pairing u1) at 1. f_equal. unfold u1. rewrite E0. apply (unpack1_msg 1 P2 (snd u0)). lia. }
  destruct c as [|[|[|c]]]; [| | |lia].
  - pose proof (unpack1_here 0 (P1 ++ P2) w x Hc Hs) as H. cbv zeta in H. fold P0 in H. fold u0 in H. unfold u2. rewrite !(unpack1_other 2) by lia. unfold u1. rewrite !(unpack1_other 1) by lia. exact H.
  - pose proof (unpack1_here 1 P2 (snd u0) x Hc Hs) as H. cbv zeta in H. fold P1 in H. rewrite <- E0 in H. fold u1 in H. unfold u2. rewrite !(unpack1_other 2) by lia.
    destruct H as [H1 H2]. split; [exact H1|]. intros X Y. rewrite (H2 X Y). unfold u0. rewrite unpack1_other by lia. reflexivity.
  - pose proof (unpack1_here 2 [] (snd u1) x Hc Hs) as H. cbv zeta in H. fold P2 in H. rewrite app_nil_r, <- E1 in H. fold u2 in H. destruct H as [H1 H2]. split; [exact H1|]. intros X Y. rewrite (H2 X Y).
    unfold u1. rewrite unpack1_other by lia. unfold u0. rewrite unpack1_other by lia. reflexivity.
Qed.
End One.
End V.

(** ** The ranges of faces and cells *)
(** [drop] leaves out the faces on the boundary of the block. *)
Definition widen (drop act : bool) (o : Z) (r : rangez) : rangez :=
  if act then (fst r + (if drop && Z.ltb 0 o then 1 else 0), snd r + (if drop && Z.ltb o 0 then 0 else 1)) else r.
Definition drops (ml : bool) (e : nblock) : bool := negb (ml && not_face e).
Section Dir.
Variables (g : grid) (B : bsz) (ml : bool).
Hypothesis V13 : (1 <= gdim g <= 3)%nat.
Hypothesis F : fitting g B ml.
Ltac three Ho := match type of Ho with okrange ?o => let C := fresh in assert (C : o = -1 \/ o = 0 \/ o = 1) by (unfold okrange in Ho; lia); destruct C as [C|[C|C]]; rewrite C in * end.
Ltac rg := cbn [negb andb orb Z.opp Z.eqb Z.ltb Z.compare Pos.eqb Pos.compare Pos.compare_cont fst snd]; f_equal; lia.
Lemma fset_same_widen : forall e c d, (d < 3)%nat -> okrange (ox e d) -> ((gdim g <= d)%nat -> ox e d = 0) -> fset_same B ml e c d = if Nat.eqb d c then widen (drops ml e) (actv B d) (ox e d) (set_same B e d) else set_same B e d.
Proof using V13 F.
  intros e c d Hd Ho Z0. unfold fset_same, set_same, widen, drops. destruct (Nat.eqb d c); [|reflexivity]. destruct (Nat.lt_ge_cases d (gdim g)) as [Ha|Hi].
  - destruct (active_facts g B ml V13 F d Ha) as (_ & _ & _ & _ & -> & _). three Ho; destruct (ml && not_face e); rg.
  - destruct (inactive_facts g B ml V13 F d Hi Hd) as (_ & _ & _ & _ & -> & _). rewrite (Z0 Hi). destruct (ml && not_face e); reflexivity.
Qed.
Lemma fset_finer_widen : forall e c d, (d < 3)%nat -> okrange (ox e d) -> ((gdim g <= d)%nat -> ox e d = 0) -> fset_finer B e c d = if Nat.eqb d c then widen (drops true e) (actv B d) (ox e d) (set_finer B e d) else set_finer B e d.
Proof using V13 F.
  intros e c d Hd Ho Z0. unfold fset_finer, set_finer, widen, drops. destruct (Nat.eqb d c); [|reflexivity]. destruct (Nat.lt_ge_cases d (gdim g)) as [Ha|Hi].
  - destruct (active_facts g B ml V13 F d Ha) as (_ & _ & _ & _ & -> & _). three Ho; destruct (not_face e); cbn [negb andb orb Z.eqb]; try destruct (Z.eqb (fsel e d) 1); rg.
  - destruct (inactive_facts g B ml V13 F d Hi Hd) as (_ & _ & _ & _ & -> & _). rewrite (Z0 Hi). destruct (not_face e); reflexivity.
Qed.
Lemma fset_coarser_widen : forall l e c d, (d < 3)%nat -> okrange (ox e d) -> ((gdim g <= d)%nat -> ox e d = 0) -> fset_coarser B l e c d = if Nat.eqb d c then widen false (actv B d) (ox e d) (set_coarser B l e d) else set_coarser B l e d.
Proof using V13 F.
  intros l e c d Hd Ho Z0. unfold fset_coarser, set_coarser, widen. destruct (Nat.eqb d c); [|reflexivity]. destruct (Nat.lt_ge_cases d (gdim g)) as [Ha|Hi].
  - destruct (active_facts g B ml V13 F d Ha) as (_ & _ & _ & _ & -> & _). three Ho; cbn [negb andb orb Z.eqb]; try destruct (Z.even (lx l d)); rg.
  - destruct (inactive_facts g B ml V13 F d Hi Hd) as (_ & _ & _ & _ & -> & _). rewrite (Z0 Hi). reflexivity.
Qed.
(** The loads are the same ranges, displaced as those of cells. *)
Lemma fload_same_move : forall e e' c d dl, (d < 3)%nat -> okrange (ox e d) -> ox e' d = - ox e d -> not_face e' = not_face e -> ((gdim g <= d)%nat -> ox e d = 0) ->
  fst (load_same B e' d) = fst (set_same B e d) + dl /\ snd (load_same B e' d) = snd (set_same B e d) + dl -> fst (fload_same B ml e' c d) = fst (fset_same B ml e c d) + dl /\ snd (fload_same B ml e' c d) = snd (fset_same B ml e c d) + dl.
Proof using V13 F.
  intros e e' c d dl Hd Ho E N Z0 H. unfold fload_same, fset_same. destruct (Nat.eqb d c); [|exact H]. unfold load_same, set_same in H. rewrite E in *. rewrite N. destruct (Nat.lt_ge_cases d (gdim g)) as [Ha|Hi].
  - destruct (active_facts g B ml V13 F d Ha) as (_ & _ & _ & _ & -> & _). three Ho; destruct (ml && not_face e); cbn [negb andb orb Z.opp Z.eqb Z.ltb Z.compare Pos.eqb Pos.compare Pos.compare_cont fst snd] in *; lia.
  - destruct (inactive_facts g B ml V13 F d Hi Hd) as (_ & _ & _ & _ & -> & _). rewrite (Z0 Hi) in *. destruct (ml && not_face e); cbn [negb andb orb Z.opp Z.eqb Z.ltb Z.compare Pos.eqb Pos.compare Pos.compare_cont fst snd] in *; lia.
Qed.
Lemma fload_coarser_move : forall e e' c d dl, (d < 3)%nat -> okrange (ox e d) -> ox e' d = - ox e d -> not_face e' = not_face e -> ((gdim g <= d)%nat -> ox e d = 0) ->
  fst (load_coarser B e' d) = fst (set_finer B e d) + dl /\ snd (load_coarser B e' d) = snd (set_finer B e d) + dl -> fst (fload_coarser B e' c d) = fst (fset_finer B e c d) + dl /\ snd (fload_coarser B e' c d) = snd (fset_finer B e c d) + dl.
Proof using V13 F.
  intros e e' c d dl Hd Ho E N Z0 H. unfold fload_coarser, fset_finer. destruct (Nat.eqb d c); [|exact H]. unfold load_coarser, set_finer in H. rewrite E in *. rewrite N. destruct (Nat.lt_ge_cases d (gdim g)) as [Ha|Hi].
  - destruct (active_facts g B ml V13 F d Ha) as (_ & _ & _ & _ & X & _). rewrite X in *. three Ho; destruct (not_face e), (Z.eqb (fsel e d) 1); cbn [negb andb orb Z.opp Z.eqb Z.ltb Z.compare Pos.eqb Pos.compare Pos.compare_cont fst snd] in *; lia.
  - destruct (inactive_facts g B ml V13 F d Hi Hd) as (_ & _ & _ & _ & X & _). rewrite X in *. rewrite (Z0 Hi) in *. destruct (not_face e); cbn [negb andb orb Z.opp Z.eqb Z.ltb Z.compare Pos.eqb Pos.compare Pos.compare_cont fst snd] in *; lia.
Qed.
Lemma fload_finer_move : forall l e e' c d dl, (d < 3)%nat -> okrange (ox e d) -> ox e' d = - ox e d -> ((gdim g <= d)%nat -> ox e d = 0) ->
  fst (load_finer B e' d) = fst (set_coarser B l e d) + dl /\ snd (load_finer B e' d) = snd (set_coarser B l e d) + dl -> fst (fload_finer B e' c d) = fst (fset_coarser B l e c d) + dl /\ snd (fload_finer B e' c d) = snd (fset_coarser B l e c d) + dl.
Proof using V13 F.
  intros l e e' c d dl Hd Ho E Z0 H. unfold fload_finer, fset_coarser. destruct (Nat.eqb d c); [|exact H]. unfold load_finer, set_coarser in H. rewrite E in *. destruct (Nat.lt_ge_cases d (gdim g)) as [Ha|Hi].
  - destruct (active_facts g B ml V13 F d Ha) as (_ & _ & _ & _ & X & _). rewrite X in *. three Ho; destruct (Z.even (lx l d)), (Z.eqb (fsel e' d) 1); cbn [negb andb orb Z.opp Z.eqb Z.ltb Z.compare Pos.eqb Pos.compare Pos.compare_cont fst snd] in *; lia.
  - destruct (inactive_facts g B ml V13 F d Hi Hd) as (_ & _ & _ & _ & X & _). rewrite X in *. rewrite (Z0 Hi) in *. cbn [negb andb orb Z.opp Z.eqb Z.ltb Z.compare Pos.eqb Pos.compare Pos.compare_cont fst snd] in *; lia.
Qed.
End Dir.
