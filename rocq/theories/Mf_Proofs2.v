(** Searches and the whole mapping. *)
From Coq Require Import Reals Lra Bool List Arith Lia Psatz.
From Verif Require Import Time_Model Mf_Model Mf_Spec Mf_Proofs.
Local Open Scope R_scope.

Lemma up_spec n nu x : forall fuel b, (b <= n - 1)%nat -> (n - 1 - b <= fuel)%nat ->
  let r := up fuel n nu x b in (b <= r <= n - 1)%nat /\ ((r = n - 1)%nat \/ x <= nu (S r)) /\ ((b < r)%nat -> nu r < x).
Proof.
  induction fuel as [ | f IH]; intros b Hb Hf; cbn [up].
  - repeat split; lia.
  - destruct (ltR (nu (S b)) x) eqn:C; cbn [andb].
    + destruct (Nat.ltb_spec b (n - 1)) as [L | L].
      * destruct (IH (S b) ltac:(lia) ltac:(lia)) as (A & B & D). cbv zeta. repeat split; try lia; [exact B | ].
        intros _. apply ltR_true in C. destruct (Nat.eq_dec (up f n nu x (S b)) (S b)) as [E | E]; [rewrite E; exact C | apply D; lia].
      * repeat split; lia.
    + apply ltR_false in C. repeat split; try lia. right. exact C.
Qed.
Lemma down_spec nu x b : let r := down nu x b in (r <= b)%nat /\ (r = O \/ nu r <= x) /\ ((r < b)%nat -> x < nu (S r)).
Proof.
  induction b as [ | c IH]; cbn [down].
  - repeat split; lia.
  - destruct (ltR x (nu (S c))) eqn:C.
    + destruct IH as (A & B & D). cbv zeta. repeat split; try lia; [exact B | ]. intros _. apply ltR_true in C.
      destruct (Nat.eq_dec (down nu x c) c) as [E | E]; [rewrite E; exact C | apply D; lia].
    + apply ltR_false in C. repeat split; try lia. right. exact C.
Qed.
(** A grid: begins at zero and increases. *)
Definition grid (n : nat) (nu : nat -> R) : Prop := nu O = 0 /\ forall i, (S i < n)%nat -> nu i < nu (S i).
Lemma grid_mono n nu : grid n nu -> forall i j, (i <= j)%nat -> (j < n)%nat -> nu i <= nu j.
Proof.
  intros [_ G] i j H. induction j as [ | j IH]; intros Hj; [replace i with O by lia; lra | ].
  destruct (Nat.eq_dec i (S j)) as [-> | N]; [lra | ]. pose proof (IH ltac:(lia) ltac:(lia)). pose proof (G j Hj). lra.
Qed.
Lemma grid_nonneg n nu i : grid n nu -> (i < n)%nat -> 0 <= nu i.
Proof. intros G Hi. destruct G as [Z G]. rewrite <- Z. apply (grid_mono n nu (conj Z G)); lia. Qed.
Lemma grid_scaled n nu t : 0 < t -> grid n nu -> grid n (fun i => nu i * t).
Proof. intros Ht [Z G]. split; [rewrite Z; ring | ]. intros i Hi. apply Rmult_lt_compat_r; [exact Ht | exact (G i Hi)]. Qed.

Section Splitting.
Variables (planck : R -> R) (effective : R -> R -> R) (n nmax : nat) (upward : bool) (nu e ir face : nat -> R).
Hypothesis Gn : grid n nu.
Hypothesis Ge : grid n e.
Hypothesis Hup : upward = true -> forall i, (i < n)%nat -> nu i <= e i.
Hypothesis Hdn : upward = false -> forall i, (i < n)%nat -> e i <= nu i.
Variable rows : nat -> row.
Hypothesis Hrows : splitting planck effective n nmax upward nu e ir face = Ok rows.
Lemma rows_eq : (2 <= n)%nat /\ rows = fun i =>
    if Nat.ltb i (n - 1) then
      if upward then row_up n nu (e i) (e (S i)) (face i) (face (S i)) i else row_down nu (e i) (e (S i)) (face i) (face (S i)) i
    else if upward then last_up n else last_down planck n nu (e (n - 1)%nat) (effective (ir (n - 1)%nat) (e (n - 1)%nat)).
Proof.
  unfold splitting in Hrows. destruct (Nat.ltb_spec n 2); [discriminate | ]. split; [assumption | ].
  destruct (existsb _ _); [discriminate | ]. destruct (Nat.ltb nmax _); [discriminate | ]. injection Hrows as <-. reflexivity.
Qed.
Lemma body_conditions i : (i < n - 1)%nat -> exists l r,
  rows i = {| start := l; stop := r; ratio := SplitFrequencyBinLinear l r nu (e i) (e (S i)) (face i) (face (S i)) |} /\
  (l <= r)%nat /\ (r < n)%nat /\ nu l <= e i /\ ((l < r)%nat -> e i <= nu (S l)) /\ ((l < r)%nat -> nu r <= e (S i)) /\ ((S r = n)%nat \/ e (S i) <= nu (S r)) /\
  (upward = true -> (i <= l)%nat) /\ (upward = false -> (r <= i)%nat).
Proof.
  intros Hi. destruct rows_eq as [N2 ->]. replace (Nat.ltb i (n - 1)) with true by (symmetry; apply Nat.ltb_lt; exact Hi).
  destruct upward eqn:U.
  - unfold row_up. pose proof (Hup eq_refl i ltac:(lia)) as Hi0. pose proof (up_spec n nu (e i) n i ltac:(lia) ltac:(lia)) as (A1 & A2 & A3). set (l := up n n nu (e i) i) in *.
    pose proof (up_spec n nu (e (S i)) n l ltac:(lia) ltac:(lia)) as (B1 & B2 & B3). set (r := up n n nu (e (S i)) l) in *. clearbody r. clearbody l.
    exists l, r. split; [reflexivity | ]. repeat split; try lia.
    + destruct (Nat.eq_dec l i) as [-> | N]; [exact Hi0 | ]. pose proof (A3 ltac:(lia)). lra.
    + intros L. destruct A2 as [A2 | A2]; [lia | exact A2].
    + intros L. pose proof (B3 L). lra.
    + destruct B2 as [B2 | B2]; [left; lia | right; exact B2].
  - unfold row_down. pose proof (Hdn eq_refl (S i) ltac:(lia)) as Hi1. pose proof (down_spec nu (e (S i)) i) as (A1 & A2 & A3). set (r := down nu (e (S i)) i) in *.
    pose proof (down_spec nu (e i) r) as (B1 & B2 & B3). set (l := down nu (e i) r) in *. clearbody l. clearbody r.
    pose proof (grid_nonneg n e i Ge ltac:(lia)) as E0. destruct Gn as [Z _].
    exists l, r. split; [reflexivity | ]. repeat split; try lia.
    + destruct B2 as [-> | B2]; [rewrite Z; exact E0 | exact B2].
    + intros L. pose proof (B3 L). lra.
    + intros L. destruct A2 as [A2 | A2]; [lia | exact A2].
    + right. destruct (Nat.eq_dec r i) as [-> | N]; [exact Hi1 | ]. pose proof (A3 ltac:(lia)). lra.
Qed.
Lemma body_share i m : (i < n - 1)%nat -> (m < n)%nat ->
  coef (rows i) m = share (e i) (e (S i)) (eff (face i) (face (S i)) (face i)) (eff (face i) (face (S i)) (face (S i))) (nu m) (upper n nu (e (S i)) m).
Proof.
  intros Hi Hm. destruct (body_conditions i Hi) as (l & r & E & L1 & L2 & C1 & C2 & C3 & C4 & _). rewrite E.
  apply row_share; try assumption; [apply (grid_mono n nu Gn) | ]. apply (proj2 Ge). lia.
Qed.
Lemma last_row : (start (rows (n - 1)%nat) <= stop (rows (n - 1)%nat) < n)%nat /\ sumn (stop (rows (n - 1)%nat) - start (rows (n - 1)%nat) + 1) (ratio (rows (n - 1)%nat)) = 1.
Proof.
  destruct rows_eq as [N2 ->]. replace (Nat.ltb (n - 1) (n - 1)) with false by (symmetry; apply Nat.ltb_irrefl). destruct upward.
  - unfold last_up. cbn [start stop ratio]. rewrite Nat.sub_diag. split; [lia | ]. cbn [Nat.add sumn]. ring.
  - unfold last_down. cbn [start stop ratio]. set (l := down nu _ (n - 2)) in *. pose proof (down_spec nu (e (n - 1)%nat) (n - 2)) as (A & _). fold l in A. clearbody l. split; [lia | ]. apply closed_sum.
Qed.
Lemma rows_sum i : (i < n)%nat -> sumn n (coef (rows i)) = 1.
Proof.
  intros Hi. destruct (Nat.eq_dec i (n - 1)) as [-> | N].
  - destruct last_row as [A B]. rewrite coef_sum by lia. exact B.
  - destruct (body_conditions i ltac:(lia)) as (l & r & E & L1 & L2 & _). rewrite E. rewrite coef_sum by (cbn [start stop]; lia). cbn [start stop ratio]. apply split_sum. exact L1.
Qed.
Lemma map_total inp : sumn n (MapIrcmFrequency n rows inp) = sumn n inp.
Proof.
  rewrite (sumn_ext n _ (fun m => sumn n (fun i => inp i * coef (rows i) m))) by (intros; apply map_coef).
  rewrite sumn_swap. apply sumn_ext. intros i Hi. rewrite sumn_scal. rewrite rows_sum by exact Hi. ring.
Qed.
(** Nothing negative. *)
Hypothesis Hplanck : forall x y, 0 <= x <= y -> planck x <= planck y <= 1.
Hypothesis Heff : forall x y, 0 <= x -> 0 < y -> 0 <= effective x y.
Hypothesis Hface : forall i, (i < n)%nat -> 0 <= face i.
Hypothesis Hir : 0 <= ir (n - 1)%nat.
Lemma planck_pieces l nt nl k : sumn (S k) (planck_piece planck nu nl nt l) = (planck (nt * nu (l + S k)%nat / nl) - planck nt) * (if ltR TINY_NUMBER (1 - planck nt) then 1 / (1 - planck nt) else 0).
Proof.
  induction k as [ | k IH].
  - cbn [sumn planck_piece]. replace (l + 1)%nat with (S l) by lia. ring.
  - change (sumn (S (S k)) (planck_piece planck nu nl nt l)) with (sumn (S k) (planck_piece planck nu nl nt l) + planck_piece planck nu nl nt l (S k)). rewrite IH. cbn [planck_piece].
    replace (S (l + S k)) with (l + S (S k))%nat by lia. ring.
Qed.
Lemma last_nonneg m : 0 <= coef (rows (n - 1)%nat) m.
Proof.
  pose proof tiny_pos as T. destruct rows_eq as [N2 ->]. replace (Nat.ltb (n - 1) (n - 1)) with false by (symmetry; apply Nat.ltb_irrefl). destruct upward eqn:U.
  - unfold coef, last_up. cbn [start stop ratio]. destruct (_ && _); lra.
  - unfold coef, last_down. cbn [start stop ratio]. set (nl := e (n - 1)%nat) in *. set (nt := effective (ir (n - 1)%nat) nl) in *.
    assert (Pl : 0 < nl). { pose proof (grid_nonneg n e (n - 2) Ge ltac:(lia)). pose proof (proj2 Ge (n - 2)%nat ltac:(lia)) as Q. replace (S (n - 2)) with (n - 1)%nat in Q by lia. unfold nl. lra. }
    assert (Pt : 0 <= nt) by (apply Heff; assumption).
    pose proof (down_spec nu nl (n - 2)) as (A & B & D). set (l := down nu nl (n - 2)) in *. clearbody l.
    set (dv := if ltR TINY_NUMBER (1 - planck nt) then 1 / (1 - planck nt) else 0).
    assert (Dv : 0 <= dv /\ forall x, 0 <= x -> (planck x - planck nt) * dv <= 1).
    { unfold dv. destruct (ltR TINY_NUMBER (1 - planck nt)) eqn:C.
      - apply ltR_true in C. assert (0 < 1 / (1 - planck nt)) by (apply Rdiv_lt_0_compat; lra). split; [lra | ]. intros x Hx. pose proof (Hplanck x x ltac:(lra)).
        apply Rmult_le_reg_r with (1 - planck nt); [lra | ]. replace ((planck x - planck nt) * (1 / (1 - planck nt)) * (1 - planck nt)) with (planck x - planck nt) by (field; lra). lra.
      - split; [lra | ]. intros x Hx. rewrite Rmult_0_r. lra. }
    assert (M : forall i, (i < n)%nat -> 0 <= nt * nu i / nl).
    { intros i Hi. pose proof (grid_nonneg n nu i Gn Hi). apply Rmult_le_pos; [apply Rmult_le_pos; assumption | left; apply Rinv_0_lt_compat; exact Pl]. }
    assert (MM : forall i, (S i < n)%nat -> planck (nt * nu i / nl) <= planck (nt * nu (S i) / nl)).
    { intros i Hi. apply Hplanck. split; [apply M; lia | ]. apply Rmult_le_compat_r; [left; apply Rinv_0_lt_compat; exact Pl | ]. apply Rmult_le_compat_l; [exact Pt | ]. left. apply (proj2 Gn). exact Hi. }
    destruct (Nat.leb_spec l m) as [L | L]; [destruct (Nat.leb_spec m (n - 1)) as [Q | Q] | ]; cbn [andb]; try lra.
    destruct (Nat.ltb_spec (m - l) (n - 1 - l)) as [K | K].
    + destruct (m - l)%nat as [ | j] eqn:J; cbn [planck_piece]; fold dv; apply Rmult_le_pos; try apply Dv.
      * assert (X : nl <= nu (S l)). { destruct (Nat.eq_dec l (n - 2)) as [E | E]; [ | pose proof (D ltac:(lia)); lra]. subst l. replace (S (n - 2)) with (n - 1)%nat by lia. apply (Hdn eq_refl). lia. }
        assert (planck nt <= planck (nt * nu (S l) / nl)); [ | lra]. apply Hplanck. split; [exact Pt | ].
        apply Rmult_le_reg_r with nl; [exact Pl | ]. replace (nt * nu (S l) / nl * nl) with (nt * nu (S l)) by (field; lra). apply Rmult_le_compat_l; assumption.
      * pose proof (MM (l + S j)%nat ltac:(lia)). lra.
    + replace (n - 1 - l)%nat with (S (n - 1 - l - 1)) by lia. rewrite planck_pieces. fold dv. replace (l + S (n - 1 - l - 1))%nat with (n - 1)%nat by lia.
      pose proof (proj2 Dv (nt * nu (n - 1)%nat / nl) (M (n - 1)%nat ltac:(lia))). lra.
Qed.
Lemma coef_nonneg i m : (i < n)%nat -> (m < n)%nat -> 0 <= coef (rows i) m.
Proof.
  intros Hi Hm. destruct (Nat.eq_dec i (n - 1)) as [-> | N]; [apply last_nonneg | ]. rewrite body_share by lia.
  pose proof (eff_pos (face i) (face (S i))). apply share_nonneg; [apply (proj2 Ge); lia | | | assumption | ].
  - unfold eff. destruct (ltR _ _); [lra | apply Hface; lia].
  - unfold eff. destruct (ltR _ _); [lra | apply Hface; lia].
  - unfold upper. destruct (Nat.eqb_spec (S m) n); [apply Rmax_r | ]. left. apply (proj2 Gn). lia.
Qed.
Lemma map_nonneg inp m : (m < n)%nat -> (forall i, (i < n)%nat -> 0 <= inp i) -> 0 <= MapIrcmFrequency n rows inp m.
Proof. intros Hm Hi. rewrite map_coef. apply sumn_nonneg. intros i H. apply Rmult_le_pos; [apply Hi; exact H | apply coef_nonneg; assumption]. Qed.
End Splitting.

(** Faces. *)
Lemma face_nonneg ir d i : 0 <= ir_face ir d i.
Proof. destruct i; cbn [ir_face]; [lra | apply Rmax_r]. Qed.
Lemma face_mean ir d i : 0 < d i -> ir i <= (ir_face ir d i + ir_face ir d (S i)) / 2 * d i /\
  (ir_face ir d i <= 2 * ir i / d i -> (ir_face ir d i + ir_face ir d (S i)) / 2 * d i = ir i).
Proof.
  intros Hd. cbn [ir_face]. set (f := ir_face ir d i). assert (E : 2 * ir i / d i * d i = 2 * ir i) by (field; lra). set (q := 2 * ir i / d i) in *. clearbody q f. split.
  - unfold Rmax. destruct (Rle_dec (q - f) 0); nra.
  - intros H. rewrite Rmax_left by lra. replace ((f + (q - f)) / 2 * d i) with (q * d i / 2) by field. lra.
Qed.
(** No shift. *)
Lemma up_still n nu b f : (S b < n)%nat -> up f n nu (nu b) b = b \/ nu (S b) < nu b.
Proof. intros H. destruct f; cbn [up]; [left; reflexivity | ]. destruct (ltR (nu (S b)) (nu b)) eqn:C; [right; apply ltR_true; exact C | left; reflexivity]. Qed.
Lemma splitting_still planck effective n nmax nu e ir face :
  (2 <= n)%nat -> (1 <= nmax)%nat -> grid n nu -> (forall i, e i = nu i) ->
  exists rows, splitting planck effective n nmax true nu e ir face = Ok rows /\ forall i m, (i < n)%nat -> (m < n)%nat -> coef (rows i) m = if Nat.eqb i m then 1 else 0.
Proof.
  intros N2 Nm G Ee. unfold splitting. destruct (Nat.ltb_spec n 2); [lia | ].
  assert (R : forall i, (i < n - 1)%nat -> row_up n nu (e i) (e (S i)) (face i) (face (S i)) i = {| start := i; stop := i; ratio := SplitFrequencyBinLinear i i nu (e i) (e (S i)) (face i) (face (S i)) |}).
  { intros i Hi. unfold row_up. pose proof (proj2 G i ltac:(lia)) as L.
    assert (U1 : up n n nu (e i) i = i). { destruct n as [ | n']; [lia | ]. cbn [up]. replace (ltR (nu (S i)) (e i)) with false by (symmetry; apply ltR_false; rewrite Ee; lra). reflexivity. }
    rewrite U1. assert (U2 : up n n nu (e (S i)) i = i). { destruct n as [ | n']; [lia | ]. cbn [up]. replace (ltR (nu (S i)) (e (S i))) with false by (symmetry; apply ltR_false; rewrite Ee; lra). reflexivity. }
    rewrite U2. reflexivity. }
  assert (X : forall f, existsb f (seq 0 (n - 1)) = false <-> forall i, (i < n - 1)%nat -> f i = false).
  { intros f. split.
    - intros Q i Hi. destruct (f i) eqn:Fi; [ | reflexivity]. assert (existsb f (seq 0 (n - 1)) = true) by (apply existsb_exists; exists i; split; [apply in_seq; lia | exact Fi]). congruence.
    - intros Q. destruct (existsb f (seq 0 (n - 1))) eqn:Ex; [ | reflexivity]. apply existsb_exists in Ex. destruct Ex as (i & I1 & I2). apply in_seq in I1. rewrite Q in I2 by lia. discriminate. }
  match goal with |- context [existsb ?f _] => assert (Q : existsb f (seq 0 (n - 1)) = false) end.
  { apply X. intros i Hi. replace (Nat.ltb i (n - 1)) with true by (symmetry; apply Nat.ltb_lt; exact Hi). rewrite R by exact Hi. cbn [start stop]. apply Nat.ltb_ge. lia. }
  rewrite Q. replace (Nat.ltb (n - 1) (n - 1)) with false by (symmetry; apply Nat.ltb_irrefl). cbn [last_up start stop]. replace (Nat.ltb nmax (n - 1 - (n - 1) + 1)) with false by (symmetry; apply Nat.ltb_ge; lia).
  eexists. split; [reflexivity | ]. intros i m Hi Hm. cbv beta. unfold coef. destruct (Nat.ltb_spec i (n - 1)) as [L | L].
  - rewrite R by exact L. cbn [start stop ratio]. unfold SplitFrequencyBinLinear. rewrite Nat.eqb_refl.
    destruct (Nat.leb_spec i m), (Nat.leb_spec m i), (Nat.eqb_spec i m); cbn [andb]; try lia; reflexivity.
  - cbn [last_up start stop ratio]. replace (n - 1)%nat with i by lia. destruct (Nat.leb_spec i m), (Nat.leb_spec m i), (Nat.eqb_spec i m); cbn [andb]; try lia; reflexivity.
Qed.
Lemma sum_pick n f m : (m < n)%nat -> sumn n (fun i => f i * (if Nat.eqb i m then 1 else 0)) = f m.
Proof.
  induction n as [ | n IH]; intros H; [lia | ]. cbn [sumn]. destruct (Nat.eqb_spec n m) as [-> | N].
  - rewrite (sumn_ext m _ (fun _ => 0)); [rewrite sumn_zero; ring | ]. intros i Hi. destruct (Nat.eqb_spec i m); [lia | ring].
  - rewrite IH by lia. ring.
Qed.
