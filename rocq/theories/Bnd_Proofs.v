(** Sequential execution of the assignment lists, and the closed form of every ghost fill. *)
From Coq Require Import List ZArith Reals Bool Lia.
From Verif Require Import Bnd_Model.
Import ListNotations.
Local Open Scope Z_scope.

Lemma idx_eqb_spec : forall a b, idx_eqb a b = true <-> a = b.
Proof.
  intros [[[n k] j] i] [[[n' k'] j'] i']. cbn [idx_eqb].
  rewrite !andb_true_iff, !Z.eqb_eq. split.
  - intros [[[-> ->] ->] ->]. reflexivity.
  - intro E. injection E as -> -> -> ->. repeat split.
Qed.
Lemma idx_eqb_refl : forall a, idx_eqb a a = true.
Proof. intro a. apply idx_eqb_spec. reflexivity. Qed.
Lemma idx_eqb_neq : forall a b, a <> b -> idx_eqb a b = false.
Proof.
  intros a b D. destruct (idx_eqb a b) eqn:E; [|reflexivity].
  apply idx_eqb_spec in E. contradiction.
Qed.

Lemma in_for : forall A (x : A) lo hi f,
  In x (for_ lo hi f) <-> exists m, lo <= m <= hi /\ In x (f m).
Proof.
  intros A x lo hi f. unfold for_. rewrite in_flat_map. split.
  - intros (m & Hm & Hx). apply in_seq in Hm. exists (lo + Z.of_nat m). split; [lia|exact Hx].
  - intros (m & Hm & Hx). exists (Z.to_nat (m - lo)). split.
    + apply in_seq. lia.
    + replace (lo + Z.of_nat (Z.to_nat (m - lo))) with m by lia. exact Hx.
Qed.

Definition reads (r : rhs) (s : idx) : Prop := match r with Cp _ c => c = s | Cst _ => False end.

Lemma exec_out : forall l a c, (forall x, In x l -> fst x <> c) -> exec l a c = a c.
Proof.
  induction l as [|x l IH]; intros a c H; [reflexivity|].
  unfold exec in *. cbn [fold_left]. rewrite IH.
  - unfold step. rewrite idx_eqb_neq; [reflexivity|].
    intro E. apply (H x); [left; reflexivity|symmetry; exact E].
  - intros y Hy. apply H. right. exact Hy.
Qed.

(** an element is set to [r] when every assignment to it has right-hand side [r], there is
    one, and no assignment of the list touches what [r] reads *)
Lemma exec_pick : forall l a c r,
  (exists x, In x l /\ fst x = c) ->
  (forall x, In x l -> fst x = c -> snd x = r) ->
  (forall x s, In x l -> reads r s -> fst x <> s) ->
  exec l a c = eval a r.
Proof.
  intros l. induction l as [|x l IH] using rev_ind; intros a c r (y & Hy & Ey) F D;
    [contradiction|].
  unfold exec. rewrite fold_left_app. cbn [fold_left]. fold (exec l a).
  assert (R : forall s, reads r s -> exec l a s = a s).
  { intros s Hs. apply exec_out. intros z Hz. apply D; [apply in_or_app; left; exact Hz|exact Hs]. }
  unfold step. destruct (idx_eqb c (fst x)) eqn:E.
  - apply idx_eqb_spec in E. rewrite (F x); [|apply in_or_app; right; left; reflexivity|symmetry; exact E].
    destruct r as [g s|g]; cbn [eval]; [|reflexivity].
    rewrite R; [reflexivity|reflexivity].
  - apply IH.
    + apply in_app_or in Hy. destruct Hy as [Hy|[<-|[]]].
      * exists y. split; [exact Hy|exact Ey].
      * rewrite <- Ey, idx_eqb_refl in E. discriminate E.
    + intros z Hz. apply F. apply in_or_app. left. exact Hz.
    + intros z s Hz. apply D. apply in_or_app. left. exact Hz.
Qed.

(** ** Tactics over loop nests *)
Ltac inbs H := unfold inb in H; repeat rewrite andb_true_iff in H; repeat rewrite Z.leb_le in H.

Ltac open_in H :=
  repeat match type of H with
  | In _ (_ ++ _) => apply in_app_or in H; destruct H as [H|H]
  | In _ (for_ _ _ _) =>
      let m := fresh "m" in let L := fresh "L" in
      apply in_for in H; destruct H as (m & L & H)
  | In _ [_] => destruct H as [<-|[]]; cbn [fst snd] in *
  end.

Lemma tup_inj : forall a b c d a' b' c' d' : Z,
  (a, b, c, d) = (a', b', c', d') -> a = a' /\ b = b' /\ c = c' /\ d = d'.
Proof. intros. inversion H. repeat split. Qed.

Ltac no_touch :=
  let x := fresh "x" in let H := fresh "H" in let E := fresh "E" in
  intros x H E; open_in H; apply tup_inj in E; destruct E as (? & ? & ? & ?); unfold IB1, IB2, IB3 in *; lia.

Ltac fsrc :=
  let x := fresh "x" in let H := fresh "H" in let E := fresh "E" in
  intros x H E; open_in H; apply tup_inj in E; destruct E as (? & ? & ? & ?); subst; unfold IB1, IB2, IB3 in *;
  first [exfalso; lia | repeat (f_equal; try lia); try reflexivity].

Ltac undis :=
  let x := fresh "x" in let s := fresh "s" in let H := fresh "H" in let S := fresh "S" in
  let E := fresh "E" in
  intros x s H S E; cbn [reads] in S; try contradiction; subst s; open_in H;
  apply tup_inj in E; destruct E as (? & ? & ? & ?); unfold IB1, IB2, IB3 in *; lia.

Ltac in_step w := apply in_for; exists w; split; [lia|].
Ltac fin := left; reflexivity.
Ltac dst_eq := cbn [fst]; repeat (f_equal; try lia).

Lemma inb_not : forall lo hi x, inb lo hi x = false -> ~ (lo <= x <= hi).
Proof. intros lo hi x H (A & B). unfold inb in H.
  apply andb_false_iff in H. destruct H as [H|H]; apply Z.leb_gt in H; lia. Qed.
Lemma inb_yes : forall lo hi x, lo <= x <= hi -> inb lo hi x = true.
Proof. intros lo hi x (A & B). unfold inb. apply andb_true_iff. rewrite !Z.leb_le. lia. Qed.
Lemma inb_true : forall lo hi x, inb lo hi x = true -> lo <= x <= hi.
Proof. intros lo hi x H. inbs H. lia. Qed.

Ltac splitcond E :=
  repeat match type of E with
  | (_ && _) = true => let E2 := fresh "E" in apply andb_true_iff in E; destruct E as [E E2];
                       try apply inb_true in E2
  | inb _ _ _ = true => apply inb_true in E
  end.
Ltac noncond E :=
  repeat match type of E with
  | (_ && _) = false => let E2 := fresh "E" in apply andb_false_iff in E; destruct E as [E|E2];
                        [|apply inb_not in E2]
  | inb _ _ _ = false => apply inb_not in E
  end.

Lemma eval_cp : forall a g s, eval a (Cp g s) = (g * a s)%R. Proof. reflexivity. Qed.

Definition al (m n : Z) : Z := if n =? m then 1 else 0.

Lemma exec_ReflectInnerX1 : forall (sg : Z -> R) nu il jl ju kl ku ngh a n k j i,
  exec (ReflectInnerX1 sg nu il jl ju kl ku ngh) a (n, k, j, i) =
  if inb 0 nu n && inb kl ku k && inb jl ju j && inb (il - ngh) (il - 1) i
  then (sg n * a (n, k, j, (2 * il - 1 - i)%Z))%R else a (n, k, j, i).
Proof.
  intros. unfold ReflectInnerX1. destruct (inb 0 nu n && inb kl ku k && inb jl ju j && inb (il - ngh) (il - 1) i) eqn:E.
  - splitcond E. rewrite <- eval_cp. apply exec_pick.
    + eexists. split; [in_step n; in_step k; in_step j; in_step (il - i); fin|dst_eq].
    + fsrc.
    + undis.
  - apply exec_out. noncond E; no_touch.
Qed.

Lemma exec_ReflectOuterX1 : forall (sg : Z -> R) nu iu jl ju kl ku ngh a n k j i,
  exec (ReflectOuterX1 sg nu iu jl ju kl ku ngh) a (n, k, j, i) =
  if inb 0 nu n && inb kl ku k && inb jl ju j && inb (iu + 1) (iu + ngh) i
  then (sg n * a (n, k, j, (2 * iu + 1 - i)%Z))%R else a (n, k, j, i).
Proof.
  intros. unfold ReflectOuterX1. destruct (inb 0 nu n && inb kl ku k && inb jl ju j && inb (iu + 1) (iu + ngh) i) eqn:E.
  - splitcond E. rewrite <- eval_cp. apply exec_pick.
    + eexists. split; [in_step n; in_step k; in_step j; in_step (i - iu); fin|dst_eq].
    + fsrc.
    + undis.
  - apply exec_out. noncond E; no_touch.
Qed.

Lemma exec_ReflectInnerX2 : forall (sg : Z -> R) nu il iu jl kl ku ngh a n k j i,
  exec (ReflectInnerX2 sg nu il iu jl kl ku ngh) a (n, k, j, i) =
  if inb 0 nu n && inb kl ku k && inb (jl - ngh) (jl - 1) j && inb il iu i
  then (sg n * a (n, k, (2 * jl - 1 - j)%Z, i))%R else a (n, k, j, i).
Proof.
  intros. unfold ReflectInnerX2. destruct (inb 0 nu n && inb kl ku k && inb (jl - ngh) (jl - 1) j && inb il iu i) eqn:E.
  - splitcond E. rewrite <- eval_cp. apply exec_pick.
    + eexists. split; [in_step n; in_step k; in_step (jl - j); in_step i; fin|dst_eq].
    + fsrc.
    + undis.
  - apply exec_out. noncond E; no_touch.
Qed.

Lemma exec_ReflectOuterX2 : forall (sg : Z -> R) nu il iu ju kl ku ngh a n k j i,
  exec (ReflectOuterX2 sg nu il iu ju kl ku ngh) a (n, k, j, i) =
  if inb 0 nu n && inb kl ku k && inb (ju + 1) (ju + ngh) j && inb il iu i
  then (sg n * a (n, k, (2 * ju + 1 - j)%Z, i))%R else a (n, k, j, i).
Proof.
  intros. unfold ReflectOuterX2. destruct (inb 0 nu n && inb kl ku k && inb (ju + 1) (ju + ngh) j && inb il iu i) eqn:E.
  - splitcond E. rewrite <- eval_cp. apply exec_pick.
    + eexists. split; [in_step n; in_step k; in_step (j - ju); in_step i; fin|dst_eq].
    + fsrc.
    + undis.
  - apply exec_out. noncond E; no_touch.
Qed.

Lemma exec_ReflectInnerX3 : forall (sg : Z -> R) nu il iu jl ju kl ngh a n k j i,
  exec (ReflectInnerX3 sg nu il iu jl ju kl ngh) a (n, k, j, i) =
  if inb 0 nu n && inb (kl - ngh) (kl - 1) k && inb jl ju j && inb il iu i
  then (sg n * a (n, (2 * kl - 1 - k)%Z, j, i))%R else a (n, k, j, i).
Proof.
  intros. unfold ReflectInnerX3. destruct (inb 0 nu n && inb (kl - ngh) (kl - 1) k && inb jl ju j && inb il iu i) eqn:E.
  - splitcond E. rewrite <- eval_cp. apply exec_pick.
    + eexists. split; [in_step n; in_step (kl - k); in_step j; in_step i; fin|dst_eq].
    + fsrc.
    + undis.
  - apply exec_out. noncond E; no_touch.
Qed.

Lemma exec_ReflectOuterX3 : forall (sg : Z -> R) nu il iu jl ju ku ngh a n k j i,
  exec (ReflectOuterX3 sg nu il iu jl ju ku ngh) a (n, k, j, i) =
  if inb 0 nu n && inb (ku + 1) (ku + ngh) k && inb jl ju j && inb il iu i
  then (sg n * a (n, (2 * ku + 1 - k)%Z, j, i))%R else a (n, k, j, i).
Proof.
  intros. unfold ReflectOuterX3. destruct (inb 0 nu n && inb (ku + 1) (ku + ngh) k && inb jl ju j && inb il iu i) eqn:E.
  - splitcond E. rewrite <- eval_cp. apply exec_pick.
    + eexists. split; [in_step n; in_step (k - ku); in_step j; in_step i; fin|dst_eq].
    + fsrc.
    + undis.
  - apply exec_out. noncond E; no_touch.
Qed.

Lemma exec_OutflowInnerX1 : forall nu il jl ju kl ku ngh a n k j i,
  exec (OutflowInnerX1 nu il jl ju kl ku ngh) a (n, k, j, i) =
  if inb 0 nu n && inb kl ku k && inb jl ju j && inb (il - ngh) (il - 1) i
  then (1 * a (n, k, j, il))%R else a (n, k, j, i).
Proof.
  intros. unfold OutflowInnerX1. destruct (inb 0 nu n && inb kl ku k && inb jl ju j && inb (il - ngh) (il - 1) i) eqn:E.
  - splitcond E. rewrite <- eval_cp. apply exec_pick.
    + eexists. split; [in_step n; in_step k; in_step j; in_step (il - i); fin|dst_eq].
    + fsrc.
    + undis.
  - apply exec_out. noncond E; no_touch.
Qed.

Lemma exec_OutflowOuterX1 : forall nu iu jl ju kl ku ngh a n k j i,
  exec (OutflowOuterX1 nu iu jl ju kl ku ngh) a (n, k, j, i) =
  if inb 0 nu n && inb kl ku k && inb jl ju j && inb (iu + 1) (iu + ngh) i
  then (1 * a (n, k, j, iu))%R else a (n, k, j, i).
Proof.
  intros. unfold OutflowOuterX1. destruct (inb 0 nu n && inb kl ku k && inb jl ju j && inb (iu + 1) (iu + ngh) i) eqn:E.
  - splitcond E. rewrite <- eval_cp. apply exec_pick.
    + eexists. split; [in_step n; in_step k; in_step j; in_step (i - iu); fin|dst_eq].
    + fsrc.
    + undis.
  - apply exec_out. noncond E; no_touch.
Qed.

Lemma exec_OutflowInnerX2 : forall nu il iu jl kl ku ngh a n k j i,
  exec (OutflowInnerX2 nu il iu jl kl ku ngh) a (n, k, j, i) =
  if inb 0 nu n && inb kl ku k && inb (jl - ngh) (jl - 1) j && inb il iu i
  then (1 * a (n, k, jl, i))%R else a (n, k, j, i).
Proof.
  intros. unfold OutflowInnerX2. destruct (inb 0 nu n && inb kl ku k && inb (jl - ngh) (jl - 1) j && inb il iu i) eqn:E.
  - splitcond E. rewrite <- eval_cp. apply exec_pick.
    + eexists. split; [in_step n; in_step k; in_step (jl - j); in_step i; fin|dst_eq].
    + fsrc.
    + undis.
  - apply exec_out. noncond E; no_touch.
Qed.

Lemma exec_OutflowOuterX2 : forall nu il iu ju kl ku ngh a n k j i,
  exec (OutflowOuterX2 nu il iu ju kl ku ngh) a (n, k, j, i) =
  if inb 0 nu n && inb kl ku k && inb (ju + 1) (ju + ngh) j && inb il iu i
  then (1 * a (n, k, ju, i))%R else a (n, k, j, i).
Proof.
  intros. unfold OutflowOuterX2. destruct (inb 0 nu n && inb kl ku k && inb (ju + 1) (ju + ngh) j && inb il iu i) eqn:E.
  - splitcond E. rewrite <- eval_cp. apply exec_pick.
    + eexists. split; [in_step n; in_step k; in_step (j - ju); in_step i; fin|dst_eq].
    + fsrc.
    + undis.
  - apply exec_out. noncond E; no_touch.
Qed.

Lemma exec_OutflowInnerX3 : forall nu il iu jl ju kl ngh a n k j i,
  exec (OutflowInnerX3 nu il iu jl ju kl ngh) a (n, k, j, i) =
  if inb 0 nu n && inb (kl - ngh) (kl - 1) k && inb jl ju j && inb il iu i
  then (1 * a (n, kl, j, i))%R else a (n, k, j, i).
Proof.
  intros. unfold OutflowInnerX3. destruct (inb 0 nu n && inb (kl - ngh) (kl - 1) k && inb jl ju j && inb il iu i) eqn:E.
  - splitcond E. rewrite <- eval_cp. apply exec_pick.
    + eexists. split; [in_step n; in_step (kl - k); in_step j; in_step i; fin|dst_eq].
    + fsrc.
    + undis.
  - apply exec_out. noncond E; no_touch.
Qed.

Lemma exec_OutflowOuterX3 : forall nu il iu jl ju ku ngh a n k j i,
  exec (OutflowOuterX3 nu il iu jl ju ku ngh) a (n, k, j, i) =
  if inb 0 nu n && inb (ku + 1) (ku + ngh) k && inb jl ju j && inb il iu i
  then (1 * a (n, ku, j, i))%R else a (n, k, j, i).
Proof.
  intros. unfold OutflowOuterX3. destruct (inb 0 nu n && inb (ku + 1) (ku + ngh) k && inb jl ju j && inb il iu i) eqn:E.
  - splitcond E. rewrite <- eval_cp. apply exec_pick.
    + eexists. split; [in_step n; in_step (k - ku); in_step j; in_step i; fin|dst_eq].
    + fsrc.
    + undis.
  - apply exec_out. noncond E; no_touch.
Qed.

Lemma exec_PolarWedgeInnerX2 : forall (flip : Z -> bool) nu il iu jl kl ku ngh a n k j i,
  exec (PolarWedgeInnerX2 flip nu il iu jl kl ku ngh) a (n, k, j, i) =
  if inb 0 nu n && inb kl ku k && inb (jl - ngh) (jl - 1) j && inb il iu i
  then (sign_of (flip n) * a (n, k, (2 * jl - 1 - j)%Z, i))%R else a (n, k, j, i).
Proof.
  intros. unfold PolarWedgeInnerX2. destruct (inb 0 nu n && inb kl ku k && inb (jl - ngh) (jl - 1) j && inb il iu i) eqn:E.
  - splitcond E. rewrite <- eval_cp. apply exec_pick.
    + eexists. split; [in_step n; in_step k; in_step (jl - j); in_step i; fin|dst_eq].
    + fsrc.
    + undis.
  - apply exec_out. noncond E; no_touch.
Qed.

Lemma exec_PolarWedgeOuterX2 : forall (flip : Z -> bool) nu il iu ju kl ku ngh a n k j i,
  exec (PolarWedgeOuterX2 flip nu il iu ju kl ku ngh) a (n, k, j, i) =
  if inb 0 nu n && inb kl ku k && inb (ju + 1) (ju + ngh) j && inb il iu i
  then (sign_of (flip n) * a (n, k, (2 * ju + 1 - j)%Z, i))%R else a (n, k, j, i).
Proof.
  intros. unfold PolarWedgeOuterX2. destruct (inb 0 nu n && inb kl ku k && inb (ju + 1) (ju + ngh) j && inb il iu i) eqn:E.
  - splitcond E. rewrite <- eval_cp. apply exec_pick.
    + eexists. split; [in_step n; in_step k; in_step (j - ju); in_step i; fin|dst_eq].
    + fsrc.
    + undis.
  - apply exec_out. noncond E; no_touch.
Qed.

Lemma exec_FReflectInnerX1 : forall il jl ju kl ku ngh a n k j i,
  exec (FReflectInnerX1 il jl ju kl ku ngh) a (n, k, j, i) =
  if inb 0 2 n && inb kl (ku + al 2 n) k && inb jl (ju + al 1 n) j && inb (il - ngh) (il - 1) i
  then ((if n =? 0 then -1 else 1) * a (n, k, j, (2 * il - 1 + al 0 n - i)%Z))%R else a (n, k, j, i).
Proof.
  intros. unfold al, FReflectInnerX1.
  destruct (inb 0 2 n) eqn:En; cbn [andb].
  2: { apply inb_not in En. apply exec_out. no_touch. }
  apply inb_true in En.
  assert (C : n = 0 \/ n = 1 \/ n = 2) by lia.
  destruct C as [->|[->| ->]]; cbn [Z.eqb Pos.eqb].
  - match goal with |- _ = if ?c then _ else _ => destruct c eqn:E end.
    + splitcond E. rewrite <- eval_cp. apply exec_pick.
      * eexists. split; [apply in_or_app; left; in_step k; in_step j; in_step (il - i); fin|dst_eq].
      * fsrc.
      * undis.
    + apply exec_out. noncond E; no_touch.
  - match goal with |- _ = if ?c then _ else _ => destruct c eqn:E end.
    + splitcond E. rewrite <- eval_cp. apply exec_pick.
      * eexists. split; [apply in_or_app; right; apply in_or_app; left; in_step k; in_step j; in_step (il - i); fin|dst_eq].
      * fsrc.
      * undis.
    + apply exec_out. noncond E; no_touch.
  - match goal with |- _ = if ?c then _ else _ => destruct c eqn:E end.
    + splitcond E. rewrite <- eval_cp. apply exec_pick.
      * eexists. split; [apply in_or_app; right; apply in_or_app; right; in_step k; in_step j; in_step (il - i); fin|dst_eq].
      * fsrc.
      * undis.
    + apply exec_out. noncond E; no_touch.
Qed.

Lemma exec_FReflectOuterX1 : forall iu jl ju kl ku ngh a n k j i,
  exec (FReflectOuterX1 iu jl ju kl ku ngh) a (n, k, j, i) =
  if inb 0 2 n && inb kl (ku + al 2 n) k && inb jl (ju + al 1 n) j && inb (iu + 1 + al 0 n) (iu + ngh + al 0 n) i
  then ((if n =? 0 then -1 else 1) * a (n, k, j, (2 * iu + 1 + al 0 n - i)%Z))%R else a (n, k, j, i).
Proof.
  intros. unfold al, FReflectOuterX1.
  destruct (inb 0 2 n) eqn:En; cbn [andb].
  2: { apply inb_not in En. apply exec_out. no_touch. }
  apply inb_true in En.
  assert (C : n = 0 \/ n = 1 \/ n = 2) by lia.
  destruct C as [->|[->| ->]]; cbn [Z.eqb Pos.eqb].
  - match goal with |- _ = if ?c then _ else _ => destruct c eqn:E end.
    + splitcond E. rewrite <- eval_cp. apply exec_pick.
      * eexists. split; [apply in_or_app; left; in_step k; in_step j; in_step (i - iu - 1); fin|dst_eq].
      * fsrc.
      * undis.
    + apply exec_out. noncond E; no_touch.
  - match goal with |- _ = if ?c then _ else _ => destruct c eqn:E end.
    + splitcond E. rewrite <- eval_cp. apply exec_pick.
      * eexists. split; [apply in_or_app; right; apply in_or_app; left; in_step k; in_step j; in_step (i - iu); fin|dst_eq].
      * fsrc.
      * undis.
    + apply exec_out. noncond E; no_touch.
  - match goal with |- _ = if ?c then _ else _ => destruct c eqn:E end.
    + splitcond E. rewrite <- eval_cp. apply exec_pick.
      * eexists. split; [apply in_or_app; right; apply in_or_app; right; in_step k; in_step j; in_step (i - iu); fin|dst_eq].
      * fsrc.
      * undis.
    + apply exec_out. noncond E; no_touch.
Qed.

Lemma exec_FReflectInnerX2 : forall il iu jl kl ku ngh a n k j i,
  exec (FReflectInnerX2 il iu jl kl ku ngh) a (n, k, j, i) =
  if inb 0 2 n && inb kl (ku + al 2 n) k && inb (jl - ngh) (jl - 1) j && inb il (iu + al 0 n) i
  then ((if n =? 1 then -1 else 1) * a (n, k, (2 * jl - 1 + al 1 n - j)%Z, i))%R else a (n, k, j, i).
Proof.
  intros. unfold al, FReflectInnerX2.
  destruct (inb 0 2 n) eqn:En; cbn [andb].
  2: { apply inb_not in En. apply exec_out. no_touch. }
  apply inb_true in En.
  assert (C : n = 0 \/ n = 1 \/ n = 2) by lia.
  destruct C as [->|[->| ->]]; cbn [Z.eqb Pos.eqb].
  - match goal with |- _ = if ?c then _ else _ => destruct c eqn:E end.
    + splitcond E. rewrite <- eval_cp. apply exec_pick.
      * eexists. split; [apply in_or_app; left; in_step k; in_step (jl - j); in_step i; fin|dst_eq].
      * fsrc.
      * undis.
    + apply exec_out. noncond E; no_touch.
  - match goal with |- _ = if ?c then _ else _ => destruct c eqn:E end.
    + splitcond E. rewrite <- eval_cp. apply exec_pick.
      * eexists. split; [apply in_or_app; right; apply in_or_app; left; in_step k; in_step (jl - j); in_step i; fin|dst_eq].
      * fsrc.
      * undis.
    + apply exec_out. noncond E; no_touch.
  - match goal with |- _ = if ?c then _ else _ => destruct c eqn:E end.
    + splitcond E. rewrite <- eval_cp. apply exec_pick.
      * eexists. split; [apply in_or_app; right; apply in_or_app; right; in_step k; in_step (jl - j); in_step i; fin|dst_eq].
      * fsrc.
      * undis.
    + apply exec_out. noncond E; no_touch.
Qed.

Lemma exec_FReflectOuterX2 : forall il iu ju kl ku ngh a n k j i,
  exec (FReflectOuterX2 il iu ju kl ku ngh) a (n, k, j, i) =
  if inb 0 2 n && inb kl (ku + al 2 n) k && inb (ju + 1 + al 1 n) (ju + ngh + al 1 n) j && inb il (iu + al 0 n) i
  then ((if n =? 1 then -1 else 1) * a (n, k, (2 * ju + 1 + al 1 n - j)%Z, i))%R else a (n, k, j, i).
Proof.
  intros. unfold al, FReflectOuterX2.
  destruct (inb 0 2 n) eqn:En; cbn [andb].
  2: { apply inb_not in En. apply exec_out. no_touch. }
  apply inb_true in En.
  assert (C : n = 0 \/ n = 1 \/ n = 2) by lia.
  destruct C as [->|[->| ->]]; cbn [Z.eqb Pos.eqb].
  - match goal with |- _ = if ?c then _ else _ => destruct c eqn:E end.
    + splitcond E. rewrite <- eval_cp. apply exec_pick.
      * eexists. split; [apply in_or_app; left; in_step k; in_step (j - ju); in_step i; fin|dst_eq].
      * fsrc.
      * undis.
    + apply exec_out. noncond E; no_touch.
  - match goal with |- _ = if ?c then _ else _ => destruct c eqn:E end.
    + splitcond E. rewrite <- eval_cp. apply exec_pick.
      * eexists. split; [apply in_or_app; right; apply in_or_app; left; in_step k; in_step (j - ju - 1); in_step i; fin|dst_eq].
      * fsrc.
      * undis.
    + apply exec_out. noncond E; no_touch.
  - match goal with |- _ = if ?c then _ else _ => destruct c eqn:E end.
    + splitcond E. rewrite <- eval_cp. apply exec_pick.
      * eexists. split; [apply in_or_app; right; apply in_or_app; right; in_step k; in_step (j - ju); in_step i; fin|dst_eq].
      * fsrc.
      * undis.
    + apply exec_out. noncond E; no_touch.
Qed.

Lemma exec_FReflectInnerX3 : forall il iu jl ju kl ngh a n k j i,
  exec (FReflectInnerX3 il iu jl ju kl ngh) a (n, k, j, i) =
  if inb 0 2 n && inb (kl - ngh) (kl - 1) k && inb jl (ju + al 1 n) j && inb il (iu + al 0 n) i
  then ((if n =? 2 then -1 else 1) * a (n, (2 * kl - 1 + al 2 n - k)%Z, j, i))%R else a (n, k, j, i).
Proof.
  intros. unfold al, FReflectInnerX3.
  destruct (inb 0 2 n) eqn:En; cbn [andb].
  2: { apply inb_not in En. apply exec_out. no_touch. }
  apply inb_true in En.
  assert (C : n = 0 \/ n = 1 \/ n = 2) by lia.
  destruct C as [->|[->| ->]]; cbn [Z.eqb Pos.eqb].
  - match goal with |- _ = if ?c then _ else _ => destruct c eqn:E end.
    + splitcond E. rewrite <- eval_cp. apply exec_pick.
      * eexists. split; [apply in_or_app; left; in_step (kl - k); in_step j; in_step i; fin|dst_eq].
      * fsrc.
      * undis.
    + apply exec_out. noncond E; no_touch.
  - match goal with |- _ = if ?c then _ else _ => destruct c eqn:E end.
    + splitcond E. rewrite <- eval_cp. apply exec_pick.
      * eexists. split; [apply in_or_app; right; apply in_or_app; left; in_step (kl - k); in_step j; in_step i; fin|dst_eq].
      * fsrc.
      * undis.
    + apply exec_out. noncond E; no_touch.
  - match goal with |- _ = if ?c then _ else _ => destruct c eqn:E end.
    + splitcond E. rewrite <- eval_cp. apply exec_pick.
      * eexists. split; [apply in_or_app; right; apply in_or_app; right; in_step (kl - k); in_step j; in_step i; fin|dst_eq].
      * fsrc.
      * undis.
    + apply exec_out. noncond E; no_touch.
Qed.

Lemma exec_FReflectOuterX3 : forall il iu jl ju ku ngh a n k j i,
  exec (FReflectOuterX3 il iu jl ju ku ngh) a (n, k, j, i) =
  if inb 0 2 n && inb (ku + 1 + al 2 n) (ku + ngh + al 2 n) k && inb jl (ju + al 1 n) j && inb il (iu + al 0 n) i
  then ((if n =? 2 then -1 else 1) * a (n, (2 * ku + 1 + al 2 n - k)%Z, j, i))%R else a (n, k, j, i).
Proof.
  intros. unfold al, FReflectOuterX3.
  destruct (inb 0 2 n) eqn:En; cbn [andb].
  2: { apply inb_not in En. apply exec_out. no_touch. }
  apply inb_true in En.
  assert (C : n = 0 \/ n = 1 \/ n = 2) by lia.
  destruct C as [->|[->| ->]]; cbn [Z.eqb Pos.eqb].
  - match goal with |- _ = if ?c then _ else _ => destruct c eqn:E end.
    + splitcond E. rewrite <- eval_cp. apply exec_pick.
      * eexists. split; [apply in_or_app; left; in_step (k - ku); in_step j; in_step i; fin|dst_eq].
      * fsrc.
      * undis.
    + apply exec_out. noncond E; no_touch.
  - match goal with |- _ = if ?c then _ else _ => destruct c eqn:E end.
    + splitcond E. rewrite <- eval_cp. apply exec_pick.
      * eexists. split; [apply in_or_app; right; apply in_or_app; left; in_step (k - ku); in_step j; in_step i; fin|dst_eq].
      * fsrc.
      * undis.
    + apply exec_out. noncond E; no_touch.
  - match goal with |- _ = if ?c then _ else _ => destruct c eqn:E end.
    + splitcond E. rewrite <- eval_cp. apply exec_pick.
      * eexists. split; [apply in_or_app; right; apply in_or_app; right; in_step (k - ku - 1); in_step j; in_step i; fin|dst_eq].
      * fsrc.
      * undis.
    + apply exec_out. noncond E; no_touch.
Qed.

Lemma exec_FOutflowInnerX1 : forall il jl ju kl ku ngh a n k j i,
  exec (FOutflowInnerX1 il jl ju kl ku ngh) a (n, k, j, i) =
  if inb 0 2 n && inb kl (ku + al 2 n) k && inb jl (ju + al 1 n) j && inb (il - ngh) (il - 1) i
  then (1 * a (n, k, j, il))%R else a (n, k, j, i).
Proof.
  intros. unfold al, FOutflowInnerX1.
  destruct (inb 0 2 n) eqn:En; cbn [andb].
  2: { apply inb_not in En. apply exec_out. no_touch. }
  apply inb_true in En.
  assert (C : n = 0 \/ n = 1 \/ n = 2) by lia.
  destruct C as [->|[->| ->]]; cbn [Z.eqb Pos.eqb].
  - match goal with |- _ = if ?c then _ else _ => destruct c eqn:E end.
    + splitcond E. rewrite <- eval_cp. apply exec_pick.
      * eexists. split; [apply in_or_app; left; in_step k; in_step j; in_step (il - i); fin|dst_eq].
      * fsrc.
      * undis.
    + apply exec_out. noncond E; no_touch.
  - match goal with |- _ = if ?c then _ else _ => destruct c eqn:E end.
    + splitcond E. rewrite <- eval_cp. apply exec_pick.
      * eexists. split; [apply in_or_app; right; apply in_or_app; left; in_step k; in_step j; in_step (il - i); fin|dst_eq].
      * fsrc.
      * undis.
    + apply exec_out. noncond E; no_touch.
  - match goal with |- _ = if ?c then _ else _ => destruct c eqn:E end.
    + splitcond E. rewrite <- eval_cp. apply exec_pick.
      * eexists. split; [apply in_or_app; right; apply in_or_app; right; in_step k; in_step j; in_step (il - i); fin|dst_eq].
      * fsrc.
      * undis.
    + apply exec_out. noncond E; no_touch.
Qed.

Lemma exec_FOutflowOuterX1 : forall iu jl ju kl ku ngh a n k j i,
  exec (FOutflowOuterX1 iu jl ju kl ku ngh) a (n, k, j, i) =
  if inb 0 2 n && inb kl (ku + al 2 n) k && inb jl (ju + al 1 n) j && inb (iu + 1 + al 0 n) (iu + ngh + al 0 n) i
  then (1 * a (n, k, j, (iu + al 0 n)%Z))%R else a (n, k, j, i).
Proof.
  intros. unfold al, FOutflowOuterX1.
  destruct (inb 0 2 n) eqn:En; cbn [andb].
  2: { apply inb_not in En. apply exec_out. no_touch. }
  apply inb_true in En.
  assert (C : n = 0 \/ n = 1 \/ n = 2) by lia.
  destruct C as [->|[->| ->]]; cbn [Z.eqb Pos.eqb].
  - match goal with |- _ = if ?c then _ else _ => destruct c eqn:E end.
    + splitcond E. rewrite <- eval_cp. apply exec_pick.
      * eexists. split; [apply in_or_app; left; in_step k; in_step j; in_step (i - iu - 1); fin|dst_eq].
      * fsrc.
      * undis.
    + apply exec_out. noncond E; no_touch.
  - match goal with |- _ = if ?c then _ else _ => destruct c eqn:E end.
    + splitcond E. rewrite <- eval_cp. apply exec_pick.
      * eexists. split; [apply in_or_app; right; apply in_or_app; left; in_step k; in_step j; in_step (i - iu); fin|dst_eq].
      * fsrc.
      * undis.
    + apply exec_out. noncond E; no_touch.
  - match goal with |- _ = if ?c then _ else _ => destruct c eqn:E end.
    + splitcond E. rewrite <- eval_cp. apply exec_pick.
      * eexists. split; [apply in_or_app; right; apply in_or_app; right; in_step k; in_step j; in_step (i - iu); fin|dst_eq].
      * fsrc.
      * undis.
    + apply exec_out. noncond E; no_touch.
Qed.

Lemma exec_FOutflowInnerX2 : forall il iu jl kl ku ngh a n k j i,
  exec (FOutflowInnerX2 il iu jl kl ku ngh) a (n, k, j, i) =
  if inb 0 2 n && inb kl (ku + al 2 n) k && inb (jl - ngh) (jl - 1) j && inb il (iu + al 0 n) i
  then (1 * a (n, k, jl, i))%R else a (n, k, j, i).
Proof.
  intros. unfold al, FOutflowInnerX2.
  destruct (inb 0 2 n) eqn:En; cbn [andb].
  2: { apply inb_not in En. apply exec_out. no_touch. }
  apply inb_true in En.
  assert (C : n = 0 \/ n = 1 \/ n = 2) by lia.
  destruct C as [->|[->| ->]]; cbn [Z.eqb Pos.eqb].
  - match goal with |- _ = if ?c then _ else _ => destruct c eqn:E end.
    + splitcond E. rewrite <- eval_cp. apply exec_pick.
      * eexists. split; [apply in_or_app; left; in_step k; in_step (jl - j); in_step i; fin|dst_eq].
      * fsrc.
      * undis.
    + apply exec_out. noncond E; no_touch.
  - match goal with |- _ = if ?c then _ else _ => destruct c eqn:E end.
    + splitcond E. rewrite <- eval_cp. apply exec_pick.
      * eexists. split; [apply in_or_app; right; apply in_or_app; left; in_step k; in_step (jl - j); in_step i; fin|dst_eq].
      * fsrc.
      * undis.
    + apply exec_out. noncond E; no_touch.
  - match goal with |- _ = if ?c then _ else _ => destruct c eqn:E end.
    + splitcond E. rewrite <- eval_cp. apply exec_pick.
      * eexists. split; [apply in_or_app; right; apply in_or_app; right; in_step k; in_step (jl - j); in_step i; fin|dst_eq].
      * fsrc.
      * undis.
    + apply exec_out. noncond E; no_touch.
Qed.

Lemma exec_FOutflowOuterX2 : forall il iu ju kl ku ngh a n k j i,
  exec (FOutflowOuterX2 il iu ju kl ku ngh) a (n, k, j, i) =
  if inb 0 2 n && inb kl (ku + al 2 n) k && inb (ju + 1 + al 1 n) (ju + ngh + al 1 n) j && inb il (iu + al 0 n) i
  then (1 * a (n, k, (ju + al 1 n)%Z, i))%R else a (n, k, j, i).
Proof.
  intros. unfold al, FOutflowOuterX2.
  destruct (inb 0 2 n) eqn:En; cbn [andb].
  2: { apply inb_not in En. apply exec_out. no_touch. }
  apply inb_true in En.
  assert (C : n = 0 \/ n = 1 \/ n = 2) by lia.
  destruct C as [->|[->| ->]]; cbn [Z.eqb Pos.eqb].
  - match goal with |- _ = if ?c then _ else _ => destruct c eqn:E end.
    + splitcond E. rewrite <- eval_cp. apply exec_pick.
      * eexists. split; [apply in_or_app; left; in_step k; in_step (j - ju); in_step i; fin|dst_eq].
      * fsrc.
      * undis.
    + apply exec_out. noncond E; no_touch.
  - match goal with |- _ = if ?c then _ else _ => destruct c eqn:E end.
    + splitcond E. rewrite <- eval_cp. apply exec_pick.
      * eexists. split; [apply in_or_app; right; apply in_or_app; left; in_step k; in_step (j - ju - 1); in_step i; fin|dst_eq].
      * fsrc.
      * undis.
    + apply exec_out. noncond E; no_touch.
  - match goal with |- _ = if ?c then _ else _ => destruct c eqn:E end.
    + splitcond E. rewrite <- eval_cp. apply exec_pick.
      * eexists. split; [apply in_or_app; right; apply in_or_app; right; in_step k; in_step (j - ju); in_step i; fin|dst_eq].
      * fsrc.
      * undis.
    + apply exec_out. noncond E; no_touch.
Qed.

Lemma exec_FOutflowInnerX3 : forall il iu jl ju kl ngh a n k j i,
  exec (FOutflowInnerX3 il iu jl ju kl ngh) a (n, k, j, i) =
  if inb 0 2 n && inb (kl - ngh) (kl - 1) k && inb jl (ju + al 1 n) j && inb il (iu + al 0 n) i
  then (1 * a (n, kl, j, i))%R else a (n, k, j, i).
Proof.
  intros. unfold al, FOutflowInnerX3.
  destruct (inb 0 2 n) eqn:En; cbn [andb].
  2: { apply inb_not in En. apply exec_out. no_touch. }
  apply inb_true in En.
  assert (C : n = 0 \/ n = 1 \/ n = 2) by lia.
  destruct C as [->|[->| ->]]; cbn [Z.eqb Pos.eqb].
  - match goal with |- _ = if ?c then _ else _ => destruct c eqn:E end.
    + splitcond E. rewrite <- eval_cp. apply exec_pick.
      * eexists. split; [apply in_or_app; left; in_step (kl - k); in_step j; in_step i; fin|dst_eq].
      * fsrc.
      * undis.
    + apply exec_out. noncond E; no_touch.
  - match goal with |- _ = if ?c then _ else _ => destruct c eqn:E end.
    + splitcond E. rewrite <- eval_cp. apply exec_pick.
      * eexists. split; [apply in_or_app; right; apply in_or_app; left; in_step (kl - k); in_step j; in_step i; fin|dst_eq].
      * fsrc.
      * undis.
    + apply exec_out. noncond E; no_touch.
  - match goal with |- _ = if ?c then _ else _ => destruct c eqn:E end.
    + splitcond E. rewrite <- eval_cp. apply exec_pick.
      * eexists. split; [apply in_or_app; right; apply in_or_app; right; in_step (kl - k); in_step j; in_step i; fin|dst_eq].
      * fsrc.
      * undis.
    + apply exec_out. noncond E; no_touch.
Qed.

Lemma exec_FOutflowOuterX3 : forall il iu jl ju ku ngh a n k j i,
  exec (FOutflowOuterX3 il iu jl ju ku ngh) a (n, k, j, i) =
  if inb 0 2 n && inb (ku + 1 + al 2 n) (ku + ngh + al 2 n) k && inb jl (ju + al 1 n) j && inb il (iu + al 0 n) i
  then (1 * a (n, (ku + al 2 n)%Z, j, i))%R else a (n, k, j, i).
Proof.
  intros. unfold al, FOutflowOuterX3.
  destruct (inb 0 2 n) eqn:En; cbn [andb].
  2: { apply inb_not in En. apply exec_out. no_touch. }
  apply inb_true in En.
  assert (C : n = 0 \/ n = 1 \/ n = 2) by lia.
  destruct C as [->|[->| ->]]; cbn [Z.eqb Pos.eqb].
  - match goal with |- _ = if ?c then _ else _ => destruct c eqn:E end.
    + splitcond E. rewrite <- eval_cp. apply exec_pick.
      * eexists. split; [apply in_or_app; left; in_step (k - ku); in_step j; in_step i; fin|dst_eq].
      * fsrc.
      * undis.
    + apply exec_out. noncond E; no_touch.
  - match goal with |- _ = if ?c then _ else _ => destruct c eqn:E end.
    + splitcond E. rewrite <- eval_cp. apply exec_pick.
      * eexists. split; [apply in_or_app; right; apply in_or_app; left; in_step (k - ku); in_step j; in_step i; fin|dst_eq].
      * fsrc.
      * undis.
    + apply exec_out. noncond E; no_touch.
  - match goal with |- _ = if ?c then _ else _ => destruct c eqn:E end.
    + splitcond E. rewrite <- eval_cp. apply exec_pick.
      * eexists. split; [apply in_or_app; right; apply in_or_app; right; in_step (k - ku - 1); in_step j; in_step i; fin|dst_eq].
      * fsrc.
      * undis.
    + apply exec_out. noncond E; no_touch.
Qed.

Lemma exec_FPolarWedgeInnerX2 : forall il iu jl kl ku ngh a n k j i,
  exec (FPolarWedgeInnerX2 il iu jl kl ku ngh) a (n, k, j, i) =
  if (n =? 1) && inb kl ku k && inb il iu i && (j =? jl) then 0%R else
  if inb 0 2 n && inb kl (ku + al 2 n) k && inb (jl - ngh) (jl - 1) j && inb il (iu + al 0 n) i
  then (sign_of (flip_across_pole_field n) * a (n, k, (2 * jl - 1 + al 1 n - j)%Z, i))%R else a (n, k, j, i).
Proof.
  intros. unfold al, FPolarWedgeInnerX2.
  destruct ((n =? 1) && inb kl ku k && inb il iu i && (j =? jl)) eqn:E0.
  { apply andb_true_iff in E0. destruct E0 as [E0 Ej]. apply Z.eqb_eq in Ej. subst j.
    apply andb_true_iff in E0. destruct E0 as [E0 Ei]. apply inb_true in Ei.
    apply andb_true_iff in E0. destruct E0 as [E0 Ek]. apply inb_true in Ek.
    apply Z.eqb_eq in E0. subst n.
    transitivity (eval a (Cst 0%R)); [apply exec_pick|reflexivity].
    - eexists. split; [apply in_or_app; right; apply in_or_app; right; apply in_or_app; left; in_step k; in_step i; fin|dst_eq].
    - fsrc.
    - undis. }
  assert (Nz : ~ (n = 1 /\ kl <= k <= ku /\ il <= i <= iu /\ j = jl)).
  { intros (-> & A & B & ->). rewrite Z.eqb_refl, (inb_yes _ _ _ A), (inb_yes _ _ _ B), Z.eqb_refl in E0. discriminate E0. }
  clear E0.
  destruct (inb 0 2 n) eqn:En; cbn [andb].
  2: { apply inb_not in En. apply exec_out. no_touch. }
  apply inb_true in En.
  assert (C : n = 0 \/ n = 1 \/ n = 2) by lia.
  destruct C as [->|[->| ->]]; cbn [Z.eqb Pos.eqb].
  - match goal with |- _ = if ?c then _ else _ => destruct c eqn:E end.
    + splitcond E. rewrite <- eval_cp. apply exec_pick.
      * eexists. split; [apply in_or_app; left; in_step k; in_step (jl - j); in_step i; fin|dst_eq].
      * fsrc.
      * undis.
    + apply exec_out. noncond E; no_touch.
  - match goal with |- _ = if ?c then _ else _ => destruct c eqn:E end.
    + splitcond E. rewrite <- eval_cp. apply exec_pick.
      * eexists. split; [apply in_or_app; right; apply in_or_app; left; in_step k; in_step (jl - j); in_step i; fin|dst_eq].
      * fsrc.
      * undis.
    + apply exec_out. noncond E; no_touch.
  - match goal with |- _ = if ?c then _ else _ => destruct c eqn:E end.
    + splitcond E. rewrite <- eval_cp. apply exec_pick.
      * eexists. split; [apply in_or_app; right; apply in_or_app; right; apply in_or_app; right; in_step k; in_step (jl - j); in_step i; fin|dst_eq].
      * fsrc.
      * undis.
    + apply exec_out. noncond E; no_touch.
Qed.

Lemma exec_FPolarWedgeOuterX2 : forall il iu ju kl ku ngh a n k j i,
  exec (FPolarWedgeOuterX2 il iu ju kl ku ngh) a (n, k, j, i) =
  if (n =? 1) && inb kl ku k && inb il iu i && (j =? ju + 1) then 0%R else
  if inb 0 2 n && inb kl (ku + al 2 n) k && inb (ju + 1 + al 1 n) (ju + ngh + al 1 n) j && inb il (iu + al 0 n) i
  then (sign_of (flip_across_pole_field n) * a (n, k, (2 * ju + 1 + al 1 n - j)%Z, i))%R else a (n, k, j, i).
Proof.
  intros. unfold al, FPolarWedgeOuterX2.
  destruct ((n =? 1) && inb kl ku k && inb il iu i && (j =? ju + 1)) eqn:E0.
  { apply andb_true_iff in E0. destruct E0 as [E0 Ej]. apply Z.eqb_eq in Ej. subst j.
    apply andb_true_iff in E0. destruct E0 as [E0 Ei]. apply inb_true in Ei.
    apply andb_true_iff in E0. destruct E0 as [E0 Ek]. apply inb_true in Ek.
    apply Z.eqb_eq in E0. subst n.
    transitivity (eval a (Cst 0%R)); [apply exec_pick|reflexivity].
    - eexists. split; [apply in_or_app; right; apply in_or_app; right; apply in_or_app; left; in_step k; in_step i; fin|dst_eq].
    - fsrc.
    - undis. }
  assert (Nz : ~ (n = 1 /\ kl <= k <= ku /\ il <= i <= iu /\ j = ju + 1)).
  { intros (-> & A & B & ->). rewrite Z.eqb_refl, (inb_yes _ _ _ A), (inb_yes _ _ _ B), Z.eqb_refl in E0. discriminate E0. }
  clear E0.
  destruct (inb 0 2 n) eqn:En; cbn [andb].
  2: { apply inb_not in En. apply exec_out. no_touch. }
  apply inb_true in En.
  assert (C : n = 0 \/ n = 1 \/ n = 2) by lia.
  destruct C as [->|[->| ->]]; cbn [Z.eqb Pos.eqb].
  - match goal with |- _ = if ?c then _ else _ => destruct c eqn:E end.
    + splitcond E. rewrite <- eval_cp. apply exec_pick.
      * eexists. split; [apply in_or_app; left; in_step k; in_step (j - ju); in_step i; fin|dst_eq].
      * fsrc.
      * undis.
    + apply exec_out. noncond E; no_touch.
  - match goal with |- _ = if ?c then _ else _ => destruct c eqn:E end.
    + splitcond E. rewrite <- eval_cp. apply exec_pick.
      * eexists. split; [apply in_or_app; right; apply in_or_app; left; in_step k; in_step (j - ju - 1); in_step i; fin|dst_eq].
      * fsrc.
      * undis.
    + apply exec_out. noncond E; no_touch.
  - match goal with |- _ = if ?c then _ else _ => destruct c eqn:E end.
    + splitcond E. rewrite <- eval_cp. apply exec_pick.
      * eexists. split; [apply in_or_app; right; apply in_or_app; right; apply in_or_app; right; in_step k; in_step (j - ju); in_step i; fin|dst_eq].
      * fsrc.
      * undis.
    + apply exec_out. noncond E; no_touch.
Qed.
