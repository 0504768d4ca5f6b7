(** Index ranges of a regrid, copies and messages. *)
From Coq Require Import List Arith ZArith Bool Lia.
From Verif Require Import Loc AMR_Model AMR_Spec Tree_Model Tree_Spec Nbr_Model Nbr_Spec Buf_Model Gho_Model Gho_Spec Gho_Proofs Con_Model Fgh_Model2 Reg_Model Reg_Spec.
Import ListNotations.
Local Open Scope Z_scope.

Lemma upper_mod : forall l d, upper1 l d = lx l d mod 2.
Proof. intros. unfold upper1, upper. change (Z.land (lx l d) 1) with (Z.land (lx l d) (Z.ones 1)). rewrite Z.land_ones by lia. change (2 ^ 1) with 2. pose proof (Z.mod_pos_bound (lx l d) 2 ltac:(lia)). destruct (Z.eqb_spec (lx l d mod 2) 1); lia. Qed.
Lemma upper_bool : forall l d, upper l d = Z.eqb (lx l d mod 2) 1.
Proof. intros. rewrite <- upper_mod. unfold upper1. destruct (upper l d); reflexivity. Qed.

Section Dirs.
Variables (dim : nat) (B : bsz).
Hypothesis D1 : (1 <= dim <= 3)%nat.
Hypothesis RB : refinable dim B.
(** All index facts of a direction. *)
Definition facts (d : nat) : Prop :=
  ((d < dim)%nat /\ actv B d = true /\ fdim B d = 1 /\ s_ B d = ng B /\ e_ B d = ng B + nx_ B d - 1 /\ cs_ B d = ng B /\ ce_ B d = ng B + nx_ B d / 2 - 1 /\ nx_ B d = 2 * (nx_ B d / 2) /\ 1 <= nx_ B d / 2 /\ first B dim d = ng B /\ size B dim true d = nx_ B d / 2 /\ size B dim false d = nx_ B d)
  \/ ((dim <= d)%nat /\ actv B d = false /\ fdim B d = 0 /\ s_ B d = 0 /\ e_ B d = 0 /\ cs_ B d = 0 /\ ce_ B d = 0 /\ nx_ B d = 1 /\ nx_ B d / 2 = 0 /\ first B dim d = 0 /\ size B dim true d = 1 /\ size B dim false d = 1).
Lemma dir_facts : forall d, (d < 3)%nat -> facts d.
Proof using D1 RB.
  intros d Hd. destruct RB as [G RD]. destruct (RD d Hd) as [R1 R2]. unfold facts. unfold first, size, fdim.
  destruct (Nat.ltb_spec d dim) as [L|L].
  - left. destruct (R1 L) as [N E]. assert (E' : cells_in B d = 2 * (cells_in B d / 2)) by (rewrite Z.even_spec in E; destruct E as [m E]; rewrite E, (Z.mul_comm 2 m), Z.div_mul by lia; lia).
    assert (A : actv B d = true) by (destruct d as [|[|[|d]]]; try lia; cbn [actv cells_in] in *; [reflexivity| |]; apply Z.ltb_lt; lia).
    split; [exact L|]. split; [exact A|]. rewrite A. destruct d as [|[|[|d]]]; try lia; cbn [actv cells_in] in *; cbn [nx_ s_ e_ cs_ ce_]; unfold is_, ie_, js_, je_, ks_, ke_, cis_, cie_, cjs_, cje_, cks_, cke_; try rewrite A; unfold is_, js_, ks_, cis_, cjs_, cks_; try rewrite A; lia.
  - right. pose proof (R2 L) as N. assert (A : actv B d = false) by (destruct d as [|[|[|d]]]; try lia; cbn [actv cells_in] in *; apply Z.ltb_ge; lia).
    split; [exact L|]. split; [exact A|]. rewrite A. destruct d as [|[|[|d]]]; try lia; cbn [actv cells_in] in *; cbn [nx_ s_ e_ cs_ ce_]; unfold is_, ie_, js_, je_, ks_, ke_, cis_, cie_, cjs_, cje_, cks_, cke_; try rewrite A; unfold is_, js_, ks_, cis_, cjs_, cks_; try rewrite A; rewrite ?N; repeat split; try lia.
Qed.
Definition off (b : loc) (d : nat) : Z := if Nat.ltb d dim then coord d b mod 2 * size B dim true d else 0.
Lemma lx_coord : forall l d, lx l d = coord d l. Proof. reflexivity. Qed.

Section V.
Context {A : Type}.
Lemma copy_in : forall nl nu to from (src dst : arr4 (A := A)) n (x : cell), nl <= n <= nu -> (forall d, (d < 3)%nat -> fst (to d) <= x d <= snd (to d)) ->
  value (Copy nl nu to from src dst) n x = value src n (fun d => x d - fst (to d) + from d).
Proof using.
  clear D1 RB.
  intros nl nu to from src dst n x Hn Hx. unfold value, Copy. pose proof (Hx 0%nat ltac:(lia)). pose proof (Hx 1%nat ltac:(lia)). pose proof (Hx 2%nat ltac:(lia)). cbn [fst snd].
  repeat match goal with |- context [Z.leb ?u ?v] => rewrite (proj2 (Z.leb_le u v)) by lia end. reflexivity.
Qed.
Lemma copy_out : forall nl nu to from (src dst : arr4 (A := A)) n (x : cell), ~ (nl <= n <= nu /\ forall d, (d < 3)%nat -> fst (to d) <= x d <= snd (to d)) ->
  value (Copy nl nu to from src dst) n x = value dst n x.
Proof using.
  clear D1 RB.
  intros nl nu to from src dst n x H. unfold value, Copy. cbn [fst snd]. match goal with |- (if ?c then _ else _) = _ => destruct c eqn:E; [|reflexivity] end.
  exfalso. apply H. repeat (apply andb_true_iff in E; destruct E as [E ?]). repeat match goal with H : (_ && _)%bool = true |- _ => apply andb_true_iff in H; destruct H end. repeat match goal with H : Z.leb _ _ = true |- _ => apply Z.leb_le in H end.
  split; [lia|]. intros d Hd. destruct d as [|[|[|d]]]; try lia.
Qed.
Lemma transfer_in : forall nl nu from to (src dst : arr4 (A := A)) n (x : cell), (forall d, (d < 3)%nat -> snd (from d) - fst (from d) = snd (to d) - fst (to d)) -> nl <= n <= nu -> (forall d, (d < 3)%nat -> fst (to d) <= x d <= snd (to d)) ->
  value (Transfer nl nu from to src dst) n x = value src n (fun d => x d - fst (to d) + fst (from d)).
Proof using.
  clear D1 RB.
  intros nl nu from to src dst n x HS Hn Hx. unfold Transfer. rewrite (written src nl nu from to (fun d => fst (from d) - fst (to d)) dst); [| |exact Hx|exact Hn].
  - unfold value. f_equal; lia.
  - intros d Hd. specialize (HS d Hd). lia.
Qed.
Lemma value_ext : forall (v : arr4 (A := A)) n (x y : cell), (forall d, (d < 3)%nat -> x d = y d) -> value v n x = value v n y.
Proof using. intros v n x y H. unfold value. rewrite (H 0%nat), (H 1%nat), (H 2%nat) by (repeat constructor). reflexivity. Qed.

(** Each cell (or face) of the coarse version of an old finer block goes to its place in the new block. *)
Lemma f2c_in : forall nl nu c mine l (coarse dst : arr4 (A := A)) n (x : cell), (forall d, (d < 3)%nat -> (dim <= d)%nat -> coord d l = 0) -> nl <= n <= nu ->
  (forall d, (d < 3)%nat -> cs_ B d <= x d <= ce_ B d + stag B c d) -> value (MoveF2C B nl nu c mine l coarse dst) n (fun d => x d + off l d) = value coarse n x.
Proof using D1 RB.
  intros nl nu c mine l coarse dst n x HF Hn Hx.
  assert (HA : forall d, (d < 3)%nat -> fst (f2c_loop B c l d) = fst (f2c_to B c l d) /\ snd (f2c_loop B c l d) = snd (f2c_to B c l d) /\ fst (f2c_to B c l d) = cs_ B d + off l d /\ snd (f2c_to B c l d) = ce_ B d + stag B c d + off l d).
  { intros d Hd. unfold f2c_loop, f2c_to, off. rewrite upper_mod, upper_bool, lx_coord. pose proof (Z.mod_pos_bound (coord d l) 2 ltac:(lia)) as M.
    destruct (dir_facts d Hd) as [F|F].
    - destruct F as (L & A1 & F1 & F2 & F3 & F4 & F5 & F6 & F7 & F8 & F9 & _). rewrite (proj2 (Nat.ltb_lt _ _) L), F9. destruct (Z.eqb_spec (coord d l mod 2) 1) as [E|E]; [rewrite E|assert (E0 : coord d l mod 2 = 0) by lia; rewrite E0]; rewrite ?Z.mul_1_l, ?Z.mul_0_l; change (0 / 2) with 0; cbn [fst snd]; lia.
    - destruct F as (L & A1 & F1 & F2 & F3 & F4 & F5 & F6 & F7 & F8 & F9 & _). rewrite (HF d Hd L). rewrite (proj2 (Nat.ltb_ge _ _) L). change (0 mod 2) with 0. change (Z.eqb 0 1) with false. rewrite Z.mul_0_l. change (0 / 2) with 0. cbn [fst snd]. lia. }
  unfold MoveF2C. destruct mine.
  - rewrite copy_in; [|exact Hn|]. + apply value_ext. intros d Hd. destruct (HA d Hd) as (E1 & E2 & E3 & E4). lia. + intros d Hd. destruct (HA d Hd) as (E1 & E2 & E3 & E4). specialize (Hx d Hd). lia.
  - rewrite transfer_in; [| |exact Hn|].
    + apply value_ext. intros d Hd. destruct (HA d Hd) as (E1 & E2 & E3 & E4). unfold f2c_from. cbn [fst snd]. lia.
    + intros d Hd. destruct (HA d Hd) as (E1 & E2 & E3 & E4). unfold f2c_from. cbn [fst snd]. lia.
    + intros d Hd. destruct (HA d Hd) as (E1 & E2 & E3 & E4). specialize (Hx d Hd). lia.
Qed.
(** Nothing else is written. *)
Lemma f2c_out : forall nl nu c mine l (coarse dst : arr4 (A := A)) n (y : cell), (forall d, (d < 3)%nat -> (dim <= d)%nat -> coord d l = 0) ->
  ~ (nl <= n <= nu /\ forall d, (d < 3)%nat -> cs_ B d <= y d - off l d <= ce_ B d + stag B c d) -> value (MoveF2C B nl nu c mine l coarse dst) n y = value dst n y.
Proof using D1 RB.
  intros nl nu c mine l coarse dst n y HF Hn.
  assert (HA : forall d, (d < 3)%nat -> fst (f2c_loop B c l d) = fst (f2c_to B c l d) /\ snd (f2c_loop B c l d) = snd (f2c_to B c l d) /\ fst (f2c_to B c l d) = cs_ B d + off l d /\ snd (f2c_to B c l d) = ce_ B d + stag B c d + off l d).
  { intros d Hd. unfold f2c_loop, f2c_to, off. rewrite upper_mod, upper_bool, lx_coord. pose proof (Z.mod_pos_bound (coord d l) 2 ltac:(lia)) as M.
    destruct (dir_facts d Hd) as [F|F].
    - destruct F as (L & A1 & F1 & F2 & F3 & F4 & F5 & F6 & F7 & F8 & F9 & _). rewrite (proj2 (Nat.ltb_lt _ _) L), F9. destruct (Z.eqb_spec (coord d l mod 2) 1) as [E|E]; [rewrite E|assert (E0 : coord d l mod 2 = 0) by lia; rewrite E0]; rewrite ?Z.mul_1_l, ?Z.mul_0_l; change (0 / 2) with 0; cbn [fst snd]; lia.
    - destruct F as (L & A1 & F1 & F2 & F3 & F4 & F5 & F6 & F7 & F8 & F9 & _). rewrite (HF d Hd L). rewrite (proj2 (Nat.ltb_ge _ _) L). change (0 mod 2) with 0. change (Z.eqb 0 1) with false. rewrite Z.mul_0_l. change (0 / 2) with 0. cbn [fst snd]. lia. }
  unfold MoveF2C. destruct mine.
  - apply copy_out. intros [H1 H2]. apply Hn. split; [exact H1|]. intros d Hd. specialize (H2 d Hd). destruct (HA d Hd) as (E1 & E2 & E3 & E4). lia.
  - unfold Transfer. apply unwritten. intros [H1 H2]. apply Hn. split; [exact H1|]. intros d Hd. specialize (H2 d Hd). destruct (HA d Hd) as (E1 & E2 & E3 & E4). lia.
Qed.
(** The coarse buffer of a new finer block gets the part of the old block it covers, and one more cell on each side. *)
Lemma c2f_in : forall nl nu c mine l (src cbuf : arr4 (A := A)) n (x : cell), (forall d, (d < 3)%nat -> (dim <= d)%nat -> coord d l = 0) -> nl <= n <= nu ->
  (forall d, (d < 3)%nat -> cs_ B d - fdim B d <= x d <= ce_ B d + fdim B d + stag B c d) -> value (MoveC2F B nl nu c mine l src cbuf) n x = value src n (fun d => x d + off l d).
Proof using D1 RB.
  intros nl nu c mine l src cbuf n x HF Hn Hx.
  assert (HA : forall d, (d < 3)%nat -> fst (c2f_from B c l d) = c2f_start B l d /\ snd (c2f_from B c l d) - fst (c2f_from B c l d) = snd (c2f_to B c d) - fst (c2f_to B c d) /\ c2f_start B l d = cs_ B d - fdim B d + off l d).
  { intros d Hd. unfold c2f_from, c2f_start, c2f_to, off. rewrite upper_mod, upper_bool, lx_coord. pose proof (Z.mod_pos_bound (coord d l) 2 ltac:(lia)) as M.
    destruct (dir_facts d Hd) as [F|F].
    - destruct F as (L & A1 & F1 & F2 & F3 & F4 & F5 & F6 & F7 & F8 & F9 & _). rewrite (proj2 (Nat.ltb_lt _ _) L), F9. destruct (Z.eqb_spec (coord d l mod 2) 1) as [E|E]; [rewrite E|assert (E0 : coord d l mod 2 = 0) by lia; rewrite E0]; rewrite ?Z.mul_1_l, ?Z.mul_0_l; change (0 / 2) with 0; cbn [fst snd]; lia.
    - destruct F as (L & A1 & F1 & F2 & F3 & F4 & F5 & F6 & F7 & F8 & F9 & _). rewrite (HF d Hd L). rewrite (proj2 (Nat.ltb_ge _ _) L). change (0 mod 2) with 0. change (Z.eqb 0 1) with false. rewrite Z.mul_0_l. change (0 / 2) with 0. cbn [fst snd]. lia. }
  unfold MoveC2F. destruct mine.
  - rewrite copy_in; [|exact Hn|]. + apply value_ext. intros d Hd. destruct (HA d Hd) as (E1 & E2 & E3). unfold c2f_to. cbn [fst snd]. lia. + intros d Hd. unfold c2f_to. cbn [fst snd]. apply Hx, Hd.
  - rewrite transfer_in; [| |exact Hn|].
    + apply value_ext. intros d Hd. destruct (HA d Hd) as (E1 & E2 & E3). rewrite E1, E3. unfold c2f_to. cbn [fst snd]. lia.
    + intros d Hd. destruct (HA d Hd) as (E1 & E2 & E3). exact E2.
    + intros d Hd. unfold c2f_to. cbn [fst snd]. apply Hx, Hd.
Qed.
Lemma same_in : forall nl nu c mine (src dst : arr4 (A := A)) n (x : cell), nl <= n <= nu -> (forall d, (d < 3)%nat -> s_ B d <= x d <= e_ B d + stag B c d) ->
  value (MoveSame B nl nu c mine src dst) n x = value src n x.
Proof using.
  intros nl nu c mine src dst n x Hn Hx. unfold MoveSame. destruct mine; [reflexivity|]. rewrite transfer_in; [|reflexivity|exact Hn|exact Hx]. apply value_ext. intros d Hd. apply Z.sub_add.
Qed.
End V.
End Dirs.
