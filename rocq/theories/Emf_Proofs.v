(** Arrays of EMFs, the positions on faces and edges of a block, and the count of finer blocks around an edge. *)
From Coq Require Import List Arith ZArith Bool Lia Reals Lra.
From Verif Require Import Loc Tags_Model Tree_Model Tree_Spec Nbr_Model Nbr_Spec Buf_Model Gho_Model Gho_Spec Gho_Proofs Con_Model Con_Spec Emf_Model Emf_Spec.
Import ListNotations.
Local Open Scope Z_scope.

Definition at_pos (c : nat) (p : fpos) : epos := let '(k, j, i) := p in (Z.of_nat c, k, j, i).
Lemma at_edge_get : forall E c p, at_edge E c p = get E (at_pos c p).
Proof. intros E c [[k j] i]. reflexivity. Qed.
Lemma epos_dec : forall x y : epos, {x = y} + {x <> y}.
Proof. repeat decide equality. Qed.
Lemma dirt_dec : forall x y : dirt, {x = y} + {x <> y}.
Proof. repeat decide equality. Qed.

(** ** Updates *)
Lemma Add_other : forall ps msg E x, ~ In x ps -> get (Add ps msg E) x = get E x.
Proof. induction ps as [|p ps IH]; intros [|m msg] E x H; try reflexivity. cbn [Add]. rewrite IH by (intro; apply H; right; assumption). apply get_put_other. intro X. apply H. left. symmetry. exact X. Qed.
Lemma Add_get : forall (f : epos -> R) ps E x, NoDup ps -> get (Add ps (map f ps) E) x = (get E x + (if in_dec epos_dec x ps then f x else 0))%R.
Proof.
  intros f ps. induction ps as [|p ps IH]; intros E x ND; [cbn; lra|]. apply NoDup_cons_iff in ND as [N1 N2]. cbn [map Add]. destruct (epos_dec x p) as [->|Hp].
  - rewrite Add_other by exact N1. rewrite get_put_same. destruct (in_dec epos_dec p (p :: ps)) as [_|H]; [reflexivity|]. contradiction H. left. reflexivity.
  - rewrite IH by exact N2. rewrite get_put_other by exact Hp. destruct (in_dec epos_dec x ps) as [H|H], (in_dec epos_dec x (p :: ps)) as [H'|H']; try reflexivity; exfalso; [apply H'; right; exact H|destruct H' as [H'|H']; [congruence|contradiction]].
Qed.
Lemma Zero_get : forall ps E x, get (Zero ps E) x = if in_dec epos_dec x ps then 0%R else get E x.
Proof.
  induction ps as [|p ps IH]; intros E x; [reflexivity|]. unfold Zero in *. cbn [fold_left]. rewrite IH. destruct (in_dec epos_dec x ps) as [H|H], (in_dec epos_dec x (p :: ps)) as [H'|H']; try reflexivity.
  - contradiction H'. right. exact H.
  - destruct H' as [->|H']; [apply get_put_same|contradiction].
  - apply get_put_other. intros ->. apply H'. left. reflexivity.
Qed.
Lemma Scale_get : forall r ps E x, NoDup ps -> get (Scale r ps E) x = (if in_dec epos_dec x ps then get E x * r else get E x)%R.
Proof.
  intros r ps. induction ps as [|p ps IH]; intros E x ND; [reflexivity|]. apply NoDup_cons_iff in ND as [N1 N2]. unfold Scale in *. cbn [fold_left]. rewrite IH by exact N2. destruct (in_dec epos_dec x ps) as [H|H], (in_dec epos_dec x (p :: ps)) as [H'|H'].
  - rewrite get_put_other; [reflexivity|]. intros ->. contradiction.
  - contradiction H'. right. exact H.
  - destruct H' as [->|H']; [apply get_put_same|contradiction].
  - apply get_put_other. intros ->. apply H'. left. reflexivity.
Qed.
(** A loop in which only one step concerns the position. *)
Lemma fold_point : forall (T : Type) (dec : forall x y : T, {x = y} + {x <> y}) (step : emf -> T -> emf) (x : epos) (h : R -> R) (o : T) l E, NoDup l ->
  (forall F o', In o' l -> o' <> o -> get (step F o') x = get F x) -> (In o l -> forall F, get (step F o) x = h (get F x)) -> get (fold_left step l E) x = if in_dec dec o l then h (get E x) else get E x.
Proof.
  intros T dec step x h o l. induction l as [|o' l IH]; intros E ND H1 H2; [reflexivity|]. apply NoDup_cons_iff in ND as [N1 N2]. cbn [fold_left].
  rewrite IH; [|exact N2|intros F o'' Hi; apply H1; right; exact Hi|intros Hi; apply H2; right; exact Hi]. destruct (dec o' o) as [->|Hn].
  - destruct (in_dec dec o l) as [Hi|Hi]; [contradiction|]. destruct (in_dec dec o (o :: l)) as [_|X]; [apply H2; left; reflexivity|contradiction X; left; reflexivity].
  - rewrite (H1 E o' (or_introl eq_refl) Hn). destruct (in_dec dec o l) as [Hi|Hi], (in_dec dec o (o' :: l)) as [Hj|Hj]; try reflexivity; exfalso; [apply Hj; right; exact Hi|destruct Hj as [Hj|Hj]; [congruence|contradiction]].
Qed.

(** ** Positions *)
Lemma in_grid3 : forall c ls n k j i, In (n, k, j, i) (grid3 c ls) <-> n = Z.of_nat c /\ In k (ls 2%nat) /\ In j (ls 1%nat) /\ In i (ls 0%nat).
Proof.
  intros. unfold grid3. rewrite in_flat_map. split.
  - intros (k0 & Hk & H). apply in_flat_map in H as (j0 & Hj & H). apply in_map_iff in H as (i0 & Hp & Hi). injection Hp as <- <- <- <-. repeat (split; [first [reflexivity|assumption]|]). exact Hi.
  - intros (-> & Hk & Hj & Hi). exists k. split; [exact Hk|]. apply in_flat_map. exists j. split; [exact Hj|]. apply in_map_iff. exists i. split; [reflexivity|exact Hi].
Qed.
Lemma NoDup_flat : forall (X Y : Type) (f : X -> list Y) (key : Y -> X) l, NoDup l -> (forall x, In x l -> NoDup (f x)) -> (forall x y, In x l -> In y (f x) -> key y = x) -> NoDup (flat_map f l).
Proof.
  intros X Y f key l. induction l as [|x l IH]; intros ND H1 H2; [constructor|]. apply NoDup_cons_iff in ND as [N1 N2]. cbn [flat_map].
  assert (Hr : NoDup (flat_map f l)) by (apply IH; [exact N2|intros y Hy; apply H1; right; exact Hy|intros y z Hy; apply H2; right; exact Hy]). specialize (H1 x (or_introl eq_refl)) as Hx.
  assert (Hd : forall y, In y (f x) -> ~ In y (flat_map f l)). { intros y Hy Hz. apply in_flat_map in Hz as (x' & Hx' & Hz). apply N1. rewrite <- (H2 x y (or_introl eq_refl) Hy), (H2 x' y (or_intror Hx') Hz). exact Hx'. }
  clear -Hr Hx Hd. induction (f x) as [|y ys IH]; [exact Hr|]. apply NoDup_cons_iff in Hx as [A1 A2]. cbn [app]. constructor; [|apply IH; [exact A2|intros z Hz; apply Hd; right; exact Hz]].
  intros Hi. apply in_app_or in Hi as [Hi|Hi]; [contradiction|]. exact (Hd y (or_introl eq_refl) Hi).
Qed.
Lemma NoDup_inj_map : forall (X Y : Type) (f : X -> Y) l, (forall x y, f x = f y -> x = y) -> NoDup l -> NoDup (map f l).
Proof. intros X Y f l Hf ND. induction ND as [|x l N1 N2 IH]; [constructor|]. cbn [map]. constructor; [|exact IH]. intros H. apply in_map_iff in H as (y & E & Hy). apply Hf in E. subst. contradiction. Qed.
Lemma NoDup_ints : forall r, NoDup (ints r).
Proof. intros [u v]. apply NoDup_inj_map; [intros x y; lia|apply seq_NoDup]. Qed.
Lemma NoDup_grid3 : forall c ls, (forall d, (d < 3)%nat -> NoDup (ls d)) -> NoDup (grid3 c ls).
Proof.
  intros c ls H. unfold grid3. apply (NoDup_flat _ _ _ (fun y : epos => let '(_, k, _, _) := y in k)); [apply H; lia| |].
  - intros k Hk. apply (NoDup_flat _ _ _ (fun y : epos => let '(_, _, j, _) := y in j)); [apply H; lia| |].
    + intros j Hj. apply NoDup_inj_map; [congruence|apply H; lia].
    + intros j y Hj Hy. apply in_map_iff in Hy as (i & <- & _). reflexivity.
  - intros k y Hk Hy. apply in_flat_map in Hy as (j & _ & Hy). apply in_map_iff in Hy as (i & <- & _). reflexivity.
Qed.
Definition via (h : nat -> Z -> Z) (x : epos) : epos := let '(n, k, j, i) := x in (n, h 2%nat k, h 1%nat j, h 0%nat i).
Lemma grid3_map : forall c ls ls' h, (forall d, (d < 3)%nat -> ls' d = map (h d) (ls d)) -> grid3 c ls' = map (via h) (grid3 c ls).
Proof.
  intros c ls ls' h H. unfold grid3. rewrite (H 0%nat), (H 1%nat), (H 2%nat) by lia. rewrite flat_map_map, map_flat_map. apply flat_map_ext. intros k. rewrite flat_map_map, map_flat_map. apply flat_map_ext. intros j. rewrite !map_map. reflexivity.
Qed.
Lemma in_ranges : forall c p (r : nat -> rangez), In (at_pos c p) (grid3 c (fun d => ints (r d))) <-> forall d, (d < 3)%nat -> fst (r d) <= index p d <= snd (r d).
Proof.
  intros c [[k j] i] r. unfold at_pos. rewrite in_grid3, !in_ints. split.
  - intros (_ & H2 & H1 & H0) d Hd. destruct d as [|[|[|d]]]; [exact H0|exact H1|exact H2|lia].
  - intros H. split; [reflexivity|]. split; [apply (H 2%nat); lia|]. split; [apply (H 1%nat); lia|apply (H 0%nat); lia].
Qed.
Lemma other_comp : forall c c' p ls, c <> c' -> ~ In (at_pos c p) (grid3 c' ls).
Proof. intros c c' [[k j] i] ls Hc H. unfold at_pos in H. apply in_grid3 in H as (H & _). lia. Qed.
Lemma in_comps : forall o c, In c (comps o) <-> (c < 3)%nat /\ dd o c = 0.
Proof. intros o c. unfold comps. rewrite filter_In, Z.eqb_eq. cbn. split; [intros [H1 H2]|intros [H1 H2]]; (split; [lia|exact H2]). Qed.
Lemma NoDup_comps : forall o, NoDup (comps o).
Proof. intros o. apply NoDup_filter. repeat constructor; cbn; lia. Qed.
Lemma in_parts : forall c p o (r : nat -> nat -> list Z), In (at_pos c p) (flat_map (fun c => grid3 c (r c)) (comps o)) <-> In c (comps o) /\ In (at_pos c p) (grid3 c (r c)).
Proof.
  intros c p o r. rewrite in_flat_map. split; [intros (c' & H1 & H2)|intros [H1 H2]; exists c; split; assumption]. destruct (Nat.eq_dec c c') as [<-|N]; [split; assumption|]. contradiction (other_comp c c' p (r c') N).
Qed.
Lemma NoDup_parts : forall o (r : nat -> nat -> rangez), NoDup (flat_map (fun c => grid3 c (fun d => ints (r c d))) (comps o)).
Proof.
  intros o r. apply (NoDup_flat _ _ _ (fun y : epos => let '(n, _, _, _) := y in Z.to_nat n)); [apply NoDup_comps| |].
  - intros c _. apply NoDup_grid3. intros d _. apply NoDup_ints.
  - intros c [[[n k] j] i] _ H. apply in_grid3 in H as (-> & _). lia.
Qed.

(** ** The count of CountFineEdges *)
Definition cnt (P : dirt -> bool) (l : list dirt) : nat := length (filter P l).
Lemma cnt_0 : forall P l, existsb P l = false -> cnt P l = 0%nat.
Proof. intros P l H. unfold cnt. induction l as [|o l IH]; [reflexivity|]. cbn [existsb] in H. apply orb_false_elim in H as [H1 H2]. cbn [filter]. rewrite H1. apply IH, H2. Qed.
Lemma count_ok : forall (nl : dirt -> Z) lev l n0 (f0 : bool), (forall o, In o l -> nl o <= Z.of_nat lev + 1) ->
  fold_left (count_step nl) l (n0, if f0 then Z.of_nat lev + 1 else Z.of_nat lev) =
  let fine := existsb (fun o => Z.eqb (nl o) (Z.of_nat lev + 1)) l in
  if f0 then ((n0 + cnt (fun o => Z.eqb (nl o) (Z.of_nat lev + 1)) l)%nat, Z.of_nat lev + 1)
  else if fine then (cnt (fun o => Z.eqb (nl o) (Z.of_nat lev + 1)) l, Z.of_nat lev + 1) else ((n0 + cnt (fun o => Z.eqb (nl o) (Z.of_nat lev)) l)%nat, Z.of_nat lev).
Proof.
  intros nl lev l. induction l as [|o l IH]; intros n0 f0 H.
  - cbn. rewrite !Nat.add_0_r. destruct f0; reflexivity.
  - cbn [fold_left]. assert (Hl : forall o', In o' l -> nl o' <= Z.of_nat lev + 1) by (intros o' Ho'; apply H; right; exact Ho'). specialize (H o (or_introl eq_refl)). unfold count_step at 2. cbn [fst snd].
    destruct f0.
    + rewrite (proj2 (Z.ltb_ge _ _)) by lia. cbn [fst snd]. unfold cnt. cbn [filter]. destruct (Z.eqb_spec (nl o) (Z.of_nat lev + 1)) as [E|E].
      * pose proof (IH (S n0) true Hl) as Q. cbn zeta iota in Q. rewrite Q. cbn [length]. unfold cnt. f_equal. lia.
      * pose proof (IH n0 true Hl) as Q. cbn zeta iota in Q. rewrite Q. reflexivity.
    + destruct (Z.ltb_spec (Z.of_nat lev) (nl o)) as [L|L]; cbn [fst snd].
      * assert (E : nl o = Z.of_nat lev + 1) by lia. rewrite (proj2 (Z.eqb_eq _ _) E). pose proof (IH 1%nat true Hl) as Q. cbn zeta iota in Q. rewrite Q. cbn [existsb]. rewrite (proj2 (Z.eqb_eq _ _) E). cbn [orb]. unfold cnt. cbn [filter]. rewrite (proj2 (Z.eqb_eq _ _) E). reflexivity.
      * cbn [existsb]. unfold cnt. cbn [filter]. destruct (Z.eqb_spec (nl o) (Z.of_nat lev + 1)) as [E|E]; [lia|]. cbn [orb]. destruct (Z.eqb_spec (nl o) (Z.of_nat lev)) as [E'|E'].
        { pose proof (IH (S n0) false Hl) as Q. cbn zeta iota in Q. rewrite Q. destruct (existsb _ l); [reflexivity|]. cbn [length]. unfold cnt. f_equal. lia. }
        { pose proof (IH n0 false Hl) as Q. cbn zeta iota in Q. rewrite Q. reflexivity. }
Qed.
Lemma in_span : forall o x, -1 <= o <= 1 -> (In x (span o) <-> x = 0 \/ x = o).
Proof.
  intros o x H. unfold span. destruct (Z.eqb_spec o 0) as [->|N]; [cbn; lia|]. rewrite in_ints. cbn [fst snd]. lia.
Qed.
Lemma in_around : forall o x, (forall d, -1 <= dd o d <= 1) -> (In x (around o) <-> forall d, (d < 3)%nat -> dd x d = 0 \/ dd x d = dd o d).
Proof.
  intros o [[x1 x2] x3] H. unfold around. rewrite in_flat_map. split.
  - intros (k & Hk & Hx). apply in_flat_map in Hx as (j & Hj & Hx). apply in_map_iff in Hx as (i & E & Hi). injection E as -> -> ->. apply in_span in Hk, Hj, Hi; try apply H. intros d Hd. destruct d as [|[|[|d]]]; [exact Hi|exact Hj|exact Hk|lia].
  - intros Hx. exists x3. split; [apply in_span; [apply H|apply (Hx 2%nat); lia]|]. apply in_flat_map. exists x2. split; [apply in_span; [apply H|apply (Hx 1%nat); lia]|]. apply in_map_iff. exists x1. split; [reflexivity|apply in_span; [apply H|apply (Hx 0%nat); lia]].
Qed.
Lemma NoDup_around : forall o, NoDup (around o).
Proof.
  intros o. assert (HS : forall z, NoDup (span z)) by (intros z; unfold span; destruct (Z.eqb z 0); [repeat constructor; cbn; tauto|apply NoDup_ints]).
  unfold around. apply (NoDup_flat _ _ _ (fun y : dirt => let '(_, _, k) := y in k)); [apply HS| |].
  - intros k Hk. apply (NoDup_flat _ _ _ (fun y : dirt => let '(_, j, _) := y in j)); [apply HS| |].
    + intros j Hj. apply NoDup_inj_map; [congruence|apply HS].
    + intros j y Hj Hy. apply in_map_iff in Hy as (i & <- & _). reflexivity.
  - intros k y Hk Hy. apply in_flat_map in Hy as (j & _ & Hy). apply in_map_iff in Hy as (i & <- & _). reflexivity.
Qed.
Lemma dirt_ext : forall x y : dirt, (forall d, (d < 3)%nat -> dd x d = dd y d) -> x = y.
Proof. intros [[x1 x2] x3] [[y1 y2] y3] H. pose proof (H 0%nat ltac:(lia)). pose proof (H 1%nat ltac:(lia)). pose proof (H 2%nat ltac:(lia)). cbn in *. congruence. Qed.

(** ** On which sides of the block an edge lies *)
Section Dir.
Variables (g : grid) (B : bsz) (ml : bool).
Hypothesis V13 : (1 <= gdim g <= 3)%nat.
Hypothesis F : fitting g B ml.
Local Notation dim := (gdim g).
Local Notation first := (first B dim).
Definition sgd (c : nat) (p : fpos) (d : nat) : Z := if Nat.ltb d dim && negb (Nat.eqb d c) then if Z.eqb (index p d) (first d) then -1 else if Z.eqb (index p d) (first d + cells_in B d) then 1 else 0 else 0.
Definition sg (c : nat) (p : fpos) : dirt := (sgd c p 0%nat, sgd c p 1%nat, sgd c p 2%nat).
Lemma dd_sg : forall c p d, (d < 3)%nat -> dd (sg c p) d = sgd c p d.
Proof using . clear V13 F. intros c p d Hd. destruct d as [|[|[|d]]]; try reflexivity. lia. Qed.
Definition odir (o : dirt) : Prop := (forall d, -1 <= dd o d <= 1) /\ forall d, (dim <= d)%nat -> (d < 3)%nat -> dd o d = 0.
Lemma odir_sg : forall c p, odir (sg c p).
Proof using .
  clear V13 F. intros c p. assert (H : forall d, -1 <= sgd c p d <= 1) by (intros d; unfold sgd; destruct (_ && _)%bool; [|lia]; destruct (Z.eqb (index p d) (first d)); [lia|]; destruct (Z.eqb (index p d) (first d + cells_in B d)); lia). split.
  - intros [|[|d]]; cbn [dd sg]; apply H.
  - intros d H1 H2. rewrite dd_sg by exact H2. unfold sgd. rewrite (proj2 (Nat.ltb_ge _ _) H1). reflexivity.
Qed.
Lemma sg_along : forall c p, (c < 3)%nat -> dd (sg c p) c = 0.
Proof using . intros c p Hc. rewrite dd_sg by exact Hc. unfold sgd. rewrite Nat.eqb_refl, andb_false_r. reflexivity. Qed.
(** The facts about one direction. *)
Lemma dir_facts : forall c p d, edge_of g B c p -> (d < 3)%nat ->
  ((d < dim)%nat /\ actv B d = true /\ s_ B d = first d /\ e_ B d = first d + cells_in B d - 1 /\ nx_ B d = cells_in B d /\ 2 <= cells_in B d /\ first d <= index p d < first d + cells_in B d + (if Nat.eqb d c then 0 else 1) /\ (Nat.eqb d c = true -> sgd c p d = 0) /\
     (Nat.eqb d c = false -> (index p d = first d /\ sgd c p d = -1) \/ (index p d = first d + cells_in B d /\ sgd c p d = 1) \/ (first d < index p d < first d + cells_in B d /\ sgd c p d = 0))) \/
  ((dim <= d)%nat /\ actv B d = false /\ s_ B d = 0 /\ e_ B d = 0 /\ first d = 0 /\ index p d = 0 /\ sgd c p d = 0).
Proof using V13 F.
  intros c p d Hp Hd. specialize (Hp d Hd). destruct (Nat.lt_ge_cases d dim) as [L|L].
  - left. destruct (active_facts g B ml V13 F d L) as (A1 & A2 & _ & _ & A3 & A4 & A5 & A6 & A7 & A8). destruct F as (_ & F2 & _). destruct (proj1 (F2 d Hd) L) as [A9 _]. rewrite (A6 false) in Hp. rewrite (proj2 (Nat.ltb_lt _ _) L) in Hp. cbn [andb] in Hp.
    unfold sgd. rewrite (proj2 (Nat.ltb_lt _ _) L). cbn [andb].
    split; [exact L|]. split; [exact A3|]. split; [congruence|]. split; [lia|]. split; [exact A4|]. split; [lia|]. split; [destruct (Nat.eqb d c); cbn [negb] in Hp; lia|]. split; [intros ->; reflexivity|]. intros X. rewrite X in *. cbn [negb] in *.
    destruct (Z.eqb_spec (index p d) (first d)); [left; split; [assumption|reflexivity]|]. destruct (Z.eqb_spec (index p d) (first d + cells_in B d)); [right; left; split; [assumption|reflexivity]|right; right; split; [lia|reflexivity]].
  - right. destruct (inactive_facts g B ml V13 F d L Hd) as (A1 & A2 & _ & _ & A3 & _ & A5 & A6 & _). rewrite (A6 false), A5 in Hp. rewrite (proj2 (Nat.ltb_ge _ _) L) in Hp. cbn [andb] in Hp. unfold sgd. rewrite (proj2 (Nat.ltb_ge _ _) L). cbn [andb]. repeat (split; [first [assumption|lia]|]). reflexivity.
Qed.
Lemma in_whole : forall o c p, edge_of g B c p -> odir o -> (In (at_pos c p) (whole B o c) <-> forall d, (d < 3)%nat -> dd o d = 0 \/ (dd o d = sgd c p d) \/ (Nat.eqb d c = true /\ index p d = fixed B o d)).
Proof using V13 F.
  intros o c p Hp [O1 O2]. unfold whole. rewrite in_ranges. split; intros H d Hd; specialize (H d Hd); specialize (O1 d); specialize (O2 d); unfold whole_rng, fixed in *;
    destruct (dir_facts c p d Hp Hd) as [(L & A1 & A2 & A3 & A4 & A5 & A6 & A7 & A8)|(L & A1 & A2 & A3 & A4 & A5 & A6)]; rewrite A1, A2, A3 in H || rewrite A1, A2, A3; destruct (Z.eqb_spec (dd o d) 0) as [E|E]; cbn [fst snd] in *.
  - left. exact E.
  - right. destruct (Nat.eqb d c); [right; split; [reflexivity|rewrite A2, A3; lia]|]. left. specialize (A8 eq_refl). destruct (Z.ltb_spec (dd o d) 0); lia.
  - left. exact E.
  - specialize (O2 L Hd). lia.
  - rewrite andb_true_r. destruct (Nat.eqb d c); cbn [negb]; lia.
  - destruct H as [H|[H|[H1 H2]]]; [lia| |rewrite A2, A3 in H2; lia]. destruct (Nat.eqb d c); [specialize (A7 eq_refl); lia|]. specialize (A8 eq_refl). destruct (Z.ltb_spec (dd o d) 0); lia.
  - rewrite andb_false_r. lia.
  - specialize (O2 L Hd). lia.
Qed.
Definition fits (o : dirt) (c : nat) (p : fpos) : Prop := forall d, (d < 3)%nat -> dd o d = 0 \/ dd o d = sgd c p d.
Lemma fits_along : forall o c p, (c < 3)%nat -> fits o c p -> dd o c = 0.
Proof using . intros o c p Hc H. destruct (H c Hc) as [E|E]; [exact E|]. rewrite <- dd_sg in E by exact Hc. rewrite sg_along in E by exact Hc. exact E. Qed.
Lemma fits_around : forall o c p, fits o c p <-> In o (around (sg c p)).
Proof using . intros o c p. rewrite in_around by apply (proj1 (odir_sg c p)). unfold fits. split; intros H d Hd; specialize (H d Hd); rewrite dd_sg in * by exact Hd; exact H. Qed.
Lemma in_message : forall o c p, (c < 3)%nat -> edge_of g B c p -> odir o -> (In (at_pos c p) (flat_map (whole B o) (comps o)) <-> fits o c p).
Proof using V13 F.
  intros o c p Hc Hp Ho. unfold whole. rewrite in_parts. fold (whole B o c). rewrite in_comps, in_whole by assumption. split.
  - intros [[_ H1] H2] d Hd. destruct (H2 d Hd) as [H|[H|[H _]]]; [left; exact H|right; exact H|]. apply Nat.eqb_eq in H. subst d. left. exact H1.
  - intros H. split; [split; [exact Hc|apply (fits_along o c p Hc H)]|]. intros d Hd. destruct (H d Hd); tauto.
Qed.
(** A whole edge of the block, or a face without its edges. *)
Lemma in_inner : forall o c p, (c < 3)%nat -> edge_of g B c p -> odir o -> dd o c = 0 -> (In (at_pos c p) (inner B o c) <-> o = sg c p).
Proof using V13 F.
  intros o c p Hc Hp [O1 O2] Oc. unfold inner. rewrite in_ranges. split.
  - intros H. apply dirt_ext. intros d Hd. rewrite dd_sg by exact Hd. specialize (H d Hd). specialize (O1 d). specialize (O2 d). unfold inner_rng, fixed in H.
    destruct (dir_facts c p d Hp Hd) as [(L & A1 & A2 & A3 & A4 & A5 & A6 & A7 & A8)|(L & A1 & A2 & A3 & A4 & A5 & A6)]; rewrite A1, A2, A3 in H; destruct (Z.eqb_spec (dd o d) 0) as [E|E]; cbn [fst snd] in *.
    + destruct (Nat.eqb d c); [rewrite (A7 eq_refl); exact E|]. cbn [negb andb] in H. specialize (A8 eq_refl). lia.
    + destruct (Nat.eqb_spec d c) as [->|]; [contradiction|]. specialize (A8 eq_refl). destruct (Z.ltb_spec (dd o d) 0); lia.
    + lia.
    + specialize (O2 L Hd). lia.
  - intros -> d Hd. specialize (O1 d). specialize (O2 d). unfold inner_rng, fixed. rewrite !dd_sg in * by exact Hd.
    destruct (dir_facts c p d Hp Hd) as [(L & A1 & A2 & A3 & A4 & A5 & A6 & A7 & A8)|(L & A1 & A2 & A3 & A4 & A5 & A6)]; rewrite A1, A2, A3; destruct (Z.eqb_spec (sgd c p d) 0) as [E|E]; cbn [fst snd].
    + destruct (Nat.eqb d c); cbn [negb andb]; [lia|]. specialize (A8 eq_refl). lia.
    + destruct (Nat.eqb d c); [specialize (A7 eq_refl); lia|]. specialize (A8 eq_refl). destruct (Z.ltb_spec (sgd c p d) 0); lia.
    + rewrite andb_false_r. lia.
    + lia.
Qed.
Lemma in_block_edge : forall o c p, (c < 3)%nat -> edge_of g B c p -> odir o -> dd o c = 0 -> (forall d, (d < 3)%nat -> d <> c -> dd o d <> 0) -> (In (at_pos c p) (whole B o c) <-> o = sg c p).
Proof using V13 F.
  intros o c p Hc Hp Ho Oc Hn. rewrite in_whole by assumption. split.
  - intros H. apply dirt_ext. intros d Hd. rewrite dd_sg by exact Hd. destruct (Nat.eq_dec d c) as [->|N]; [rewrite <- dd_sg by exact Hd; rewrite sg_along by exact Hc; exact Oc|]. destruct (H d Hd) as [E|[E|[E _]]]; [contradiction (Hn d Hd N)|exact E|]. apply Nat.eqb_eq in E. contradiction.
  - intros -> d Hd. right. left. apply dd_sg, Hd.
Qed.
Lemma in_middle : forall o c p, (c < 3)%nat -> edge_of g B c p -> odir o -> dd o c = 0 -> (In (at_pos c p) (middle B o c) <-> (forall d, (d < 3)%nat -> if Z.eqb (dd o d) 0 then d = c \/ index p d = s_ B d + nx_ B d / 2 else dd o d = sgd c p d)).
Proof using V13 F.
  intros o c p Hc Hp [O1 O2] Oc. unfold middle. rewrite in_ranges. split; intros H d Hd; specialize (H d Hd); specialize (O1 d); specialize (O2 d); unfold mid_rng, fixed in *; destruct (Z.eqb_spec (dd o d) 0) as [E|E].
  - destruct (Nat.eqb_spec d c); [left; assumption|]. cbn [fst snd] in H. right. lia.
  - destruct (dir_facts c p d Hp Hd) as [(L & A1 & A2 & A3 & A4 & A5 & A6 & A7 & A8)|(L & A1 & A2 & A3 & A4 & A5 & A6)]; [|specialize (O2 L Hd); lia]. rewrite A2, A3 in H. cbn [fst snd] in H. destruct (Nat.eqb_spec d c) as [->|]; [contradiction|]. specialize (A8 eq_refl). destruct (Z.ltb_spec (dd o d) 0); lia.
  - destruct (Nat.eqb_spec d c) as [->|N]; cbn [fst snd]; [|destruct H; [contradiction|lia]]. destruct (dir_facts c p c Hp Hd) as [(L & A1 & A2 & A3 & A4 & A5 & A6 & A7 & A8)|(L & A1 & A2 & A3 & A4 & A5 & A6)]; [rewrite Nat.eqb_refl in A6; lia|lia].
  - destruct (dir_facts c p d Hp Hd) as [(L & A1 & A2 & A3 & A4 & A5 & A6 & A7 & A8)|(L & A1 & A2 & A3 & A4 & A5 & A6)]; [|specialize (O2 L Hd); lia]. rewrite A2, A3. cbn [fst snd]. destruct (Nat.eqb_spec d c) as [->|]; [contradiction|]. specialize (A8 eq_refl). destruct (Z.ltb_spec (dd o d) 0); lia.
Qed.
(** The half that a finer neighbour covers. *)
Definition in_part (e : nblock) (c : nat) (p : fpos) : Prop := forall d, (d < dim)%nat -> dd (entry_dir e) d = 0 ->
  if Z.eqb (fsel e d) 0 then index p d - first d < cells_in B d / 2 + (if Nat.eqb d c then 0 else 1) else cells_in B d / 2 <= index p d - first d.
Lemma in_fine : forall e c p, (c < 3)%nat -> edge_of g B c p -> odir (entry_dir e) -> (In (at_pos c p) (flat_map (half_of B e) (comps (entry_dir e))) <-> fits (entry_dir e) c p /\ in_part e c p).
Proof using V13 F.
  intros e c p Hc Hp [O1 O2]. unfold half_of. rewrite in_parts, in_comps, in_ranges. set (o := entry_dir e) in *. split.
  - intros [[_ Oc] H]. split.
    + intros d Hd. specialize (H d Hd). specialize (O1 d). specialize (O2 d). unfold half_rng, fixed in H. fold o in H. destruct (Z.eqb_spec (dd o d) 0) as [E|E]; [left; exact E|]. right.
      destruct (dir_facts c p d Hp Hd) as [(L & A1 & A2 & A3 & A4 & A5 & A6 & A7 & A8)|(L & A1 & A2 & A3 & A4 & A5 & A6)]; [|specialize (O2 L Hd); lia]. rewrite A2, A3 in H. cbn [fst snd] in H. destruct (Nat.eqb_spec d c) as [->|]; [contradiction|]. specialize (A8 eq_refl). destruct (Z.ltb_spec (dd o d) 0); lia.
    + intros d Hd E. fold o in E. specialize (H d ltac:(lia)). unfold half_rng in H. fold o in H. rewrite E in H. cbn [Z.eqb] in H. destruct (dir_facts c p d Hp ltac:(lia)) as [(L & A1 & A2 & A3 & A4 & A5 & A6 & A7 & A8)|(L & _)]; [|lia]. rewrite A1, A2, A3, A4 in H. destruct (Z.eqb (fsel e d) 0); cbn [fst snd] in H; destruct (Nat.eqb d c); lia.
  - intros [Hf Hh]. split; [split; [exact Hc|apply (fits_along o c p Hc Hf)]|]. intros d Hd. specialize (O1 d). specialize (O2 d). unfold half_rng, fixed. fold o.
    destruct (dir_facts c p d Hp Hd) as [(L & A1 & A2 & A3 & A4 & A5 & A6 & A7 & A8)|(L & A1 & A2 & A3 & A4 & A5 & A6)]; rewrite A1, A2, A3; destruct (Z.eqb_spec (dd o d) 0) as [E|E].
    + specialize (Hh d L E). rewrite A4. destruct (Z.eqb (fsel e d) 0); cbn [fst snd]; destruct (Nat.eqb d c); lia.
    + destruct (Hf d Hd) as [X|X]; [contradiction|]. cbn [fst snd]. destruct (Nat.eqb_spec d c) as [->|]; [specialize (A7 eq_refl); lia|]. specialize (A8 eq_refl). destruct (Z.ltb_spec (dd o d) 0); lia.
    + cbn [fst snd]. lia.
    + specialize (O2 L Hd). lia.
Qed.
End Dir.
