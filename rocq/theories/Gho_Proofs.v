(** Regions, packing, and the ranges of one direction. *)
From Coq Require Import List Arith ZArith Bool Lia.
From Verif Require Import Loc Tags_Model Tree_Model Tree_Spec Nbr_Model Nbr_Spec Buf_Model Gho_Model Gho_Spec.
Import ListNotations.
Local Open Scope Z_scope.

Definition pos := (Z * Z * Z * Z)%type.
Lemma in_ints : forall r x, In x (ints r) <-> fst r <= x <= snd r.
Proof.
  intros [a b] x. unfold ints. rewrite in_map_iff. cbn [fst snd]. split.
  - intros (n & <- & Hn). apply in_seq in Hn. lia.
  - intros H. exists (Z.to_nat (x - a)). split; [lia|]. apply in_seq. lia.
Qed.
Lemma in_region : forall nl nu r n k j i, In (n, k, j, i) (region nl nu r) <->
  nl <= n <= nu /\ fst (r 2%nat) <= k <= snd (r 2%nat) /\ fst (r 1%nat) <= j <= snd (r 1%nat) /\ fst (r 0%nat) <= i <= snd (r 0%nat).
Proof.
  intros. unfold region. rewrite in_flat_map. split.
  - intros (n0 & Hn & H). apply in_flat_map in H as (k0 & Hk & H). apply in_flat_map in H as (j0 & Hj & H). apply in_map_iff in H as (i0 & Hp & Hi).
    injection Hp as -> -> -> ->. apply in_ints in Hn. apply in_ints in Hk. apply in_ints in Hj. apply in_ints in Hi. cbn [fst snd] in Hn. auto.
  - intros (H1 & H2 & H3 & H4). exists n. split; [apply in_ints; exact H1|]. apply in_flat_map. exists k. split; [apply in_ints; exact H2|].
    apply in_flat_map. exists j. split; [apply in_ints; exact H3|]. apply in_map_iff. exists i. split; [reflexivity|apply in_ints; exact H4].
Qed.
Lemma ints_shift : forall r q dl, fst q = fst r + dl -> snd q = snd r + dl -> ints q = map (fun x => x + dl) (ints r).
Proof. intros [a b] [a' b'] dl E1 E2. cbn [fst snd] in *. subst. unfold ints. cbn [fst snd]. rewrite map_map. replace (b + dl - (a + dl) + 1) with (b - a + 1) by ring. apply map_ext. intros. ring. Qed.
Definition move (dl : nat -> Z) (p : pos) : pos := let '(n, k, j, i) := p in (n, k + dl 2%nat, j + dl 1%nat, i + dl 0%nat).
Lemma flat_map_map : forall (X Y T : Type) (f : X -> Y) (h : Y -> list T) l, flat_map h (map f l) = flat_map (fun x => h (f x)) l.
Proof. intros X Y T f h l. induction l as [|x l IH]; [reflexivity|]. cbn [map flat_map]. rewrite IH. reflexivity. Qed.
Lemma map_flat_map : forall (X Y T : Type) (f : Y -> T) (h : X -> list Y) l, map f (flat_map h l) = flat_map (fun x => map f (h x)) l.
Proof. intros X Y T f h l. induction l as [|x l IH]; [reflexivity|]. cbn [flat_map]. rewrite map_app, IH. reflexivity. Qed.
Lemma region_move : forall nl nu r q dl, (forall d, (d < 3)%nat -> fst (q d) = fst (r d) + dl d /\ snd (q d) = snd (r d) + dl d) -> region nl nu q = map (move dl) (region nl nu r).
Proof.
  intros nl nu r q dl H. unfold region. destruct (H 0%nat ltac:(lia)) as [A0 B0]. destruct (H 1%nat ltac:(lia)) as [A1 B1]. destruct (H 2%nat ltac:(lia)) as [A2 B2].
  rewrite (ints_shift _ _ _ A0 B0), (ints_shift _ _ _ A1 B1), (ints_shift _ _ _ A2 B2). rewrite map_flat_map. apply flat_map_ext. intros n.
  rewrite flat_map_map, map_flat_map. apply flat_map_ext. intros k. rewrite flat_map_map, map_flat_map. apply flat_map_ext. intros j. rewrite !map_map. reflexivity.
Qed.
Lemma move_inj : forall dl p q, move dl p = move dl q -> p = q.
Proof. intros dl [[[n k] j] i] [[[n' k'] j'] i'] H. cbn in H. injection H as -> H1 H2 H3. f_equal; [f_equal; [f_equal|]|]; lia. Qed.

Section V.
Context {A : Type}.
Lemma get_put_same : forall (v : arr4 (A := A)) p x, get (put v p x) p = x.
Proof. intros v [[[n k] j] i] x. cbn. rewrite !Z.eqb_refl. reflexivity. Qed.
Lemma get_put_other : forall (v : arr4 (A := A)) p q x, q <> p -> get (put v p x) q = get v q.
Proof.
  intros v [[[n k] j] i] [[[n' k'] j'] i'] x H. cbn. destruct (Z.eqb_spec n' n), (Z.eqb_spec k' k), (Z.eqb_spec j' j), (Z.eqb_spec i' i); try reflexivity. subst. contradiction H; reflexivity.
Qed.
Lemma unpack_other : forall ps msg (w : arr4 (A := A)) q, ~ In q ps -> get (Unpack ps msg w) q = get w q.
Proof.
  induction ps as [|p ps IH]; intros [|x msg] w q H; try reflexivity. cbn [Unpack]. rewrite IH by (intro; apply H; right; assumption). apply get_put_other. intro E. apply H. left. symmetry. exact E.
Qed.
Lemma unpack_moved : forall (v : arr4 (A := A)) dl ps w p, In p ps -> get (Unpack (map (move dl) ps) (Pack v ps) w) (move dl p) = get v p.
Proof.
  intros v dl ps. induction ps as [|p0 ps IH]; intros w p H; [contradiction H|]. cbn [map Pack Unpack].
  destruct (in_dec (fun a b : pos => ltac:(repeat decide equality; apply Z.eq_dec) : {a = b} + {a <> b}) p ps) as [Hin|Hout]; [apply IH, Hin|].
  destruct H as [->|H]; [|contradiction]. rewrite unpack_other; [apply get_put_same|]. intro Hm. apply in_map_iff in Hm as (p' & E & Hp'). apply move_inj in E. subst. contradiction.
Qed.
(** A message written with displaced ranges. *)
Lemma written : forall (v : arr4 (A := A)) nl nu r q dl w, (forall d, (d < 3)%nat -> fst (r d) = fst (q d) + dl d /\ snd (r d) = snd (q d) + dl d) ->
  forall n (x : cell), (forall d, (d < 3)%nat -> fst (q d) <= x d <= snd (q d)) -> nl <= n <= nu ->
  value (Unpack (region nl nu q) (Pack v (region nl nu r)) w) n x = value v n (fun d => x d + dl d).
Proof.
  intros v nl nu r q dl w H n x Hx Hn.
  rewrite (region_move nl nu r q (fun d => - dl d)) by (intros d Hd; specialize (H d Hd); lia).
  assert (Hp : In (n, x 2%nat + dl 2%nat, x 1%nat + dl 1%nat, x 0%nat + dl 0%nat) (region nl nu r)).
  { apply in_region. split; [exact Hn|]. pose proof (H 0%nat ltac:(lia)). pose proof (H 1%nat ltac:(lia)). pose proof (H 2%nat ltac:(lia)). pose proof (Hx 0%nat ltac:(lia)). pose proof (Hx 1%nat ltac:(lia)). pose proof (Hx 2%nat ltac:(lia)). lia. }
  pose proof (unpack_moved v (fun d => - dl d) (region nl nu r) w _ Hp) as E. cbn [move] in E.
  replace (x 2%nat + dl 2%nat + - dl 2%nat) with (x 2%nat) in E by ring. replace (x 1%nat + dl 1%nat + - dl 1%nat) with (x 1%nat) in E by ring. replace (x 0%nat + dl 0%nat + - dl 0%nat) with (x 0%nat) in E by ring.
  exact E.
Qed.
Lemma unwritten : forall nl nu q msg (w : arr4 (A := A)) n (x : cell), ~ (nl <= n <= nu /\ forall d, (d < 3)%nat -> fst (q d) <= x d <= snd (q d)) ->
  value (Unpack (region nl nu q) msg w) n x = value w n x.
Proof.
  intros nl nu q msg w n x H. apply (unpack_other _ msg w (n, x 2%nat, x 1%nat, x 0%nat)). rewrite in_region. intros (H1 & H2 & H3 & H4). apply H. split; [exact H1|]. intros d Hd. destruct d as [|[|[|d]]]; try assumption; lia.
Qed.
End V.

(** ** One direction *)
Lemma act_true : forall n, 1 < n -> act n = true.
Proof. intros n H. unfold act. apply Z.ltb_lt, H. Qed.
Section Dir.
Variables (g : grid) (B : bsz) (ml : bool).
Hypothesis V13 : (1 <= gdim g <= 3)%nat.
Hypothesis F : fitting g B ml.
Lemma active_facts : forall d, (d < gdim g)%nat -> s_ B d = ng B /\ e_ B d = ng B + cells_in B d - 1 /\ cs_ B d = ng B /\ ce_ B d = ng B + cells_in B d / 2 - 1 /\ actv B d = true /\ nx_ B d = cells_in B d /\
  first B (gdim g) d = ng B /\ (forall h : bool, size B (gdim g) h d = if h then cells_in B d / 2 else cells_in B d) /\ 1 <= ng B /\ ng B <= cells_in B d.
Proof using V13 F.
  intros d Hd. destruct F as (F1 & F2 & F3). destruct (F2 d ltac:(lia)) as [G1 _]. destruct (G1 Hd) as [G2 G3].
  unfold first, size. replace (Nat.ltb d (gdim g)) with true by (symmetry; apply Nat.ltb_lt; exact Hd).
  destruct d as [|[|[|d]]]; try lia; cbn [s_ e_ cs_ ce_ actv nx_ cells_in] in *; unfold is_, ie_, js_, je_, ks_, ke_, cis_, cie_, cjs_, cje_, cks_, cke_, is_; try rewrite (act_true _ G2); unfold cjs_, js_, cks_, ks_; try rewrite (act_true _ G2);
    repeat apply conj; try reflexivity; try assumption; intros [|]; reflexivity.
Qed.
Lemma inactive_facts : forall d, (gdim g <= d)%nat -> (d < 3)%nat -> s_ B d = 0 /\ e_ B d = 0 /\ cs_ B d = 0 /\ ce_ B d = 0 /\ actv B d = false /\ nx_ B d = 1 /\ first B (gdim g) d = 0 /\ (forall h : bool, size B (gdim g) h d = 1) /\ cells_in B d = 1.
Proof using V13 F.
  intros d Hd Hd3. destruct F as (F1 & F2 & F3). destruct (F2 d Hd3) as [_ G1]. specialize (G1 Hd).
  unfold first, size. replace (Nat.ltb d (gdim g)) with false by (symmetry; apply Nat.ltb_ge; exact Hd).
  destruct d as [|[|[|d]]]; try lia; cbn [s_ e_ cs_ ce_ actv nx_ cells_in] in *; unfold js_, je_, ks_, ke_, cjs_, cje_, cks_, cke_; rewrite G1; repeat apply conj; reflexivity.
Qed.
Lemma multi_facts : ml = true -> forall d, (d < gdim g)%nat -> exists h k, cells_in B d = 2 * h /\ cells_in B d / 2 = h /\ ng B = 2 * k /\ cng B = k + 1 /\ 1 <= k /\ 2 * k <= h.
Proof using V13 F.
  intros Hm d Hd. destruct F as (F1 & _ & F3). destruct (F3 Hm) as [G1 G2]. destruct (G2 d Hd) as [G3 G4]. apply Z.even_spec in G1 as (k & Ek). apply Z.even_spec in G3 as (h & Eh).
  exists h, k. rewrite Eh at 1. split; [reflexivity|]. split; [rewrite Eh; rewrite Z.mul_comm; apply Z.div_mul; lia|]. split; [exact Ek|]. split; [|lia].
  unfold cng. rewrite Ek. replace (2 * k + 1) with (1 + k * 2) by ring. rewrite Z.div_add by lia. reflexivity.
Qed.

(** Displacement from the receiver's to the sender's index, and the place. *)
Definition okrange (o : Z) : Prop := -1 <= o <= 1.
Lemma same_range : forall e e' d, (d < 3)%nat -> okrange (ox e d) -> ox e' d = - ox e d -> ((gdim g <= d)%nat -> ox e d = 0) ->
  let dl := - ox e d * cells_in B d in fst (load_same B e' d) = fst (set_same B e d) + dl /\ snd (load_same B e' d) = snd (set_same B e d) + dl.
Proof using V13 F.
  intros e e' d Hd Ho E Z0. unfold load_same, set_same. rewrite E. unfold okrange in Ho.
  destruct (Nat.lt_ge_cases d (gdim g)) as [Ha|Hi].
  - destruct (active_facts d Ha) as (-> & -> & _ & _ & _ & _ & _ & _ & N1 & N2). assert (C : ox e d = -1 \/ ox e d = 0 \/ ox e d = 1) by lia.
    destruct C as [->|[->| ->]]; cbn [Z.opp Z.eqb Z.ltb Z.compare fst snd]; lia.
  - destruct (inactive_facts d Hi Hd) as (-> & -> & _). rewrite (Z0 Hi). cbn [Z.opp Z.eqb Z.ltb Z.compare fst snd]. lia.
Qed.
(** From a finer block: [bit] is the half of the position in which it lies. *)
Lemma finer_range : forall e e' d bit, ml = true -> (d < 3)%nat -> okrange (ox e d) -> ox e' d = - ox e d -> ((gdim g <= d)%nat -> ox e d = 0 /\ bit = 0) ->
  bit = (if Z.eqb (ox e d) 0 then fsel e d else if Z.eqb (ox e d) (-1) then 1 else 0) -> (bit = 0 \/ bit = 1) ->
  let dl := - ox e d * cells_in B d - bit * (cells_in B d / 2) in fst (load_coarser B e' d) = fst (set_finer B e d) + dl /\ snd (load_coarser B e' d) = snd (set_finer B e d) + dl.
Proof using V13 F.
  intros e e' d bit Hm Hd Ho E Z0 Hb B01. unfold load_coarser, set_finer. rewrite E. unfold okrange in Ho.
  destruct (Nat.lt_ge_cases d (gdim g)) as [Ha|Hi].
  - destruct (active_facts d Ha) as (-> & -> & -> & -> & -> & -> & _ & _ & N1 & N2). destruct (multi_facts Hm d Ha) as (h & k & E1 & E2 & E3 & E4 & K1 & K2). rewrite E2, E1.
    assert (C : ox e d = -1 \/ ox e d = 0 \/ ox e d = 1) by lia.
    destruct C as [C|[C|C]]; rewrite C in *; cbn [Z.opp Z.eqb Z.ltb Z.compare Pos.eqb Pos.compare Pos.compare_cont fst snd] in *; [lia| |lia].
    rewrite <- Hb. destruct B01 as [->| ->]; cbn [Z.eqb Pos.eqb fst snd]; lia.
  - destruct (inactive_facts d Hi Hd) as (-> & -> & -> & -> & -> & _ & _ & _ & _). destruct (Z0 Hi) as [-> ->]. cbn [Z.opp Z.eqb Z.ltb Z.compare fst snd]. lia.
Qed.
(** From a coarser block: [bit] is the half of its parent in which the receiver lies. *)
Lemma coarser_range : forall l e e' d bit, ml = true -> (d < 3)%nat -> okrange (ox e d) -> ox e' d = - ox e d -> ((gdim g <= d)%nat -> ox e d = 0 /\ bit = 0) ->
  bit = (if Z.eqb (ox e' d) 0 then fsel e' d else if Z.eqb (ox e' d) (-1) then 1 else 0) -> (bit = 0 \/ bit = 1) -> Z.even (lx l d) = Z.eqb bit 0 ->
  let dl := ox e' d * cells_in B d + bit * (cells_in B d / 2) in fst (load_finer B e' d) = fst (set_coarser B l e d) + dl /\ snd (load_finer B e' d) = snd (set_coarser B l e d) + dl.
Proof using V13 F.
  intros l e e' d bit Hm Hd Ho E Z0 Hb B01 Hp. unfold load_finer, set_coarser. rewrite Hp. rewrite E in *. unfold okrange in Ho.
  destruct (Nat.lt_ge_cases d (gdim g)) as [Ha|Hi].
  - destruct (active_facts d Ha) as (-> & -> & -> & -> & -> & -> & _ & _ & N1 & N2). destruct (multi_facts Hm d Ha) as (h & k & E1 & E2 & E3 & E4 & K1 & K2). rewrite E2, E1, E4.
    assert (C : ox e d = -1 \/ ox e d = 0 \/ ox e d = 1) by lia.
    destruct C as [C|[C|C]]; rewrite C in *; cbn [Z.opp Z.eqb Z.ltb Z.compare Pos.eqb Pos.compare Pos.compare_cont andb fst snd] in *; [lia| |lia].
    rewrite <- Hb. destruct B01 as [->| ->]; cbn [Z.eqb Pos.eqb fst snd]; lia.
  - destruct (inactive_facts d Hi Hd) as (-> & -> & -> & -> & -> & _ & _ & _ & _). destruct (Z0 Hi) as [-> ->]. cbn [Z.opp Z.eqb Z.ltb Z.compare andb fst snd]. lia.
Qed.

(** The loaded cells are own cells. *)
Lemma load_same_own : forall e d x, (d < 3)%nat -> ((gdim g <= d)%nat -> ox e d = 0) -> fst (load_same B e d) <= x <= snd (load_same B e d) -> first B (gdim g) d <= x < first B (gdim g) d + size B (gdim g) false d.
Proof using V13 F.
  intros e d x Hd Z0 H. unfold load_same in H. destruct (Nat.lt_ge_cases d (gdim g)) as [Ha|Hi].
  - destruct (active_facts d Ha) as (E1 & E2 & _ & _ & _ & _ & E3 & E4 & N1 & N2). rewrite E1, E2 in H. rewrite E3, E4. cbn [fst snd] in H. destruct (Z.ltb 0 (ox e d)), (Z.ltb (ox e d) 0); lia.
  - destruct (inactive_facts d Hi Hd) as (E1 & E2 & _ & _ & _ & _ & E3 & E4 & E5). rewrite E1, E2, (Z0 Hi) in H. rewrite E3, E4. cbn [fst snd Z.ltb Z.compare] in H. lia.
Qed.
Lemma load_coarser_own : forall e d x, ml = true -> (d < 3)%nat -> ((gdim g <= d)%nat -> ox e d = 0) -> fst (load_coarser B e d) <= x <= snd (load_coarser B e d) -> first B (gdim g) d <= x < first B (gdim g) d + size B (gdim g) true d.
Proof using V13 F.
  intros e d x Hm Hd Z0 H. unfold load_coarser in H. destruct (Nat.lt_ge_cases d (gdim g)) as [Ha|Hi].
  - destruct (active_facts d Ha) as (_ & _ & E1 & E2 & _ & _ & E3 & E4 & N1 & N2). destruct (multi_facts Hm d Ha) as (h & k & G1 & G2 & G3 & G4 & K1 & K2). rewrite E1, E2, G2 in H. rewrite E3, E4, G2. cbn [fst snd] in H. destruct (Z.ltb 0 (ox e d)), (Z.ltb (ox e d) 0); lia.
  - destruct (inactive_facts d Hi Hd) as (_ & _ & E1 & E2 & _ & _ & E3 & E4 & E5). rewrite E1, E2, (Z0 Hi) in H. rewrite E3, E4. cbn [fst snd Z.ltb Z.compare] in H. lia.
Qed.
Lemma load_finer_own : forall e d x, ml = true -> (d < 3)%nat -> ((gdim g <= d)%nat -> ox e d = 0) -> fst (load_finer B e d) <= x <= snd (load_finer B e d) -> first B (gdim g) d <= x < first B (gdim g) d + size B (gdim g) false d.
Proof using V13 F.
  intros e d x Hm Hd Z0 H. unfold load_finer in H. destruct (Nat.lt_ge_cases d (gdim g)) as [Ha|Hi].
  - destruct (active_facts d Ha) as (E1 & E2 & _ & _ & Ea & En & E3 & E4 & N1 & N2). destruct (multi_facts Hm d Ha) as (h & k & G1 & G2 & G3 & G4 & K1 & K2). rewrite Ea, En, E1, E2, G2, G4, G1 in H. rewrite E3, E4, G1.
    destruct (Z.ltb_spec 0 (ox e d)), (Z.ltb_spec (ox e d) 0), (Z.eqb_spec (ox e d) 0); cbn [andb] in H; try lia; try destruct (Z.eqb (fsel e d) 1); cbn [fst snd] in H; lia.
  - destruct (inactive_facts d Hi Hd) as (E1 & E2 & _ & _ & Ea & _ & E3 & E4 & E5). rewrite Ea, E1, E2, (Z0 Hi) in H. rewrite E3, E4. cbn [fst snd Z.ltb Z.compare Z.eqb andb] in H. lia.
Qed.
(** Where the receiver writes. *)
Lemma set_same_side : forall e d (x : cell), (d < 3)%nat -> okrange (ox e d) -> ((gdim g <= d)%nat -> ox e d = 0) ->
  (fst (set_same B e d) <= x d <= snd (set_same B e d) <-> side B (gdim g) false x d = ox e d /\ let w := if Nat.ltb d (gdim g) then ng B else 0 in first B (gdim g) d - w <= x d < first B (gdim g) d + size B (gdim g) false d + w).
Proof using V13 F.
  intros e d x Hd Ho Z0. unfold set_same, side, okrange in *. destruct (Nat.ltb_spec d (gdim g)) as [Ha|Hi].
  - destruct (active_facts d Ha) as (E1 & E2 & _ & _ & _ & _ & E3 & E4 & N1 & N2). rewrite E1, E2, E3, E4. cbv zeta.
    destruct (Z.eqb_spec (ox e d) 0), (Z.ltb_spec 0 (ox e d)), (Z.ltb_spec (x d) (ng B)), (Z.leb_spec (ng B + cells_in B d) (x d)); cbn [fst snd]; lia.
  - destruct (inactive_facts d Hi Hd) as (E1 & E2 & _ & _ & _ & _ & E3 & E4 & E5). rewrite E1, E2, E3, E4, (Z0 Hi). cbn [Z.eqb fst snd]. destruct (Z.ltb_spec (x d) 0), (Z.leb_spec (0 + 1) (x d)); lia.
Qed.
Lemma set_finer_side : forall e d (x : cell), ml = true -> (d < 3)%nat -> okrange (ox e d) -> ((gdim g <= d)%nat -> ox e d = 0) -> (fsel e d = 0 \/ fsel e d = 1) ->
  (fst (set_finer B e d) <= x d <= snd (set_finer B e d) <->
   (side B (gdim g) false x d = ox e d /\ let w := if Nat.ltb d (gdim g) then ng B else 0 in first B (gdim g) d - w <= x d < first B (gdim g) d + size B (gdim g) false d + w) /\
   ((d < gdim g)%nat -> ox e d = 0 -> (fsel e d = 1 <-> first B (gdim g) d + size B (gdim g) true d <= x d))).
Proof using V13 F.
  intros e d x Hm Hd Ho Z0 F01. unfold set_finer, side, okrange in *. destruct (Nat.ltb_spec d (gdim g)) as [Ha|Hi].
  - destruct (active_facts d Ha) as (E1 & E2 & _ & _ & Ea & En & E3 & E4 & N1 & N2). destruct (multi_facts Hm d Ha) as (h & k & G1 & G2 & G3 & G4 & K1 & K2). rewrite Ea, En, E1, E2, E3, !E4, G2, G1. cbv zeta iota.
    destruct (Z.eqb_spec (ox e d) 0), (Z.eqb_spec (fsel e d) 1), (Z.ltb_spec 0 (ox e d)), (Z.ltb_spec (x d) (ng B)), (Z.leb_spec (ng B + 2 * h) (x d)); cbn [fst snd]; lia.
  - destruct (inactive_facts d Hi Hd) as (E1 & E2 & _ & _ & Ea & _ & E3 & E4 & E5). rewrite Ea, E1, E2, E3, !E4, (Z0 Hi). cbn [Z.eqb fst snd]. destruct (Z.ltb_spec (x d) 0), (Z.leb_spec (0 + 1) (x d)); lia.
Qed.
(** [out] is the outward side of the receiver within its parent. *)
Lemma set_coarser_side : forall l e d (x : cell), ml = true -> (d < 3)%nat -> okrange (ox e d) -> ((gdim g <= d)%nat -> ox e d = 0) ->
  let out := if Z.even (lx l d) then -1 else 1 in (ox e d <> 0 -> ox e d = out) ->
  (fst (set_coarser B l e d) <= x d <= snd (set_coarser B l e d) <->
   (let s := side B (gdim g) true x d in ox e d = if Z.eqb s out then s else 0) /\ let w := if Nat.ltb d (gdim g) then cng B else 0 in first B (gdim g) d - w <= x d < first B (gdim g) d + size B (gdim g) true d + w).
Proof using V13 F.
  intros l e d x Hm Hd Ho Z0 out Ht. unfold set_coarser, side, okrange in *. destruct (Nat.ltb_spec d (gdim g)) as [Ha|Hi].
  - destruct (active_facts d Ha) as (_ & _ & E1 & E2 & Ea & _ & E3 & E4 & N1 & N2). destruct (multi_facts Hm d Ha) as (h & k & G1 & G2 & G3 & G4 & K1 & K2). rewrite Ea, E1, E2, E3, !E4, G2, G4. cbv zeta iota.
    unfold out in *. destruct (Z.even (lx l d)); destruct (Z.eqb_spec (ox e d) 0), (Z.ltb_spec 0 (ox e d)), (Z.ltb_spec (x d) (ng B)), (Z.leb_spec (ng B + h) (x d)); cbn [fst snd Z.eqb Pos.eqb]; lia.
  - destruct (inactive_facts d Hi Hd) as (_ & _ & E1 & E2 & Ea & _ & E3 & E4 & E5). rewrite Ea, E1, E2, E3, !E4, (Z0 Hi). unfold out. cbn [Z.eqb fst snd].
    destruct (Z.even (lx l d)); destruct (Z.ltb_spec (x d) 0), (Z.leb_spec (0 + 1) (x d)); cbn [Z.eqb Pos.eqb]; lia.
Qed.
End Dir.
