(** Proofs about the angular grids. *)
From Coq Require Import Reals List Bool Arith Lra Lia.
From Verif Require Import Lud_Model Lud_Spec Lud_Proofs Lud_Proofs2 Lud_Props Ang_Model Ang_Spec.
Import ListNotations.
Local Open Scope R_scope.

Lemma add_up_app {A} (l l' : list A) f : add_up (l ++ l') f = add_up l f + add_up l' f.
Proof. induction l; simpl; [ring|]. rewrite IHl. ring. Qed.
Lemma add_up_map {A B} (g : A -> B) l f : add_up (map g l) f = add_up l (fun x => f (g x)).
Proof. induction l; simpl; auto. rewrite IHl. auto. Qed.
Lemma add_up_ext {A} (l : list A) f g : (forall x, In x l -> f x = g x) -> add_up l f = add_up l g.
Proof. induction l; intros H; simpl; auto. rewrite H by (left; auto). rewrite IHl by (intros; apply H; right; auto). auto. Qed.
Lemma add_up_scal {A} (l : list A) c f : add_up l (fun x => c * f x) = c * add_up l f.
Proof. induction l; simpl; [ring|]. rewrite IHl. ring. Qed.
Lemma add_up_flat {A B} (g : A -> list B) l f : add_up (flat_map g l) f = add_up l (fun x => add_up (g x) f).
Proof. induction l; simpl; auto. rewrite add_up_app, IHl. auto. Qed.
Lemma add_up_seq n f : add_up (seq 0 n) f = total n f.
Proof. induction n; auto. rewrite seq_S, add_up_app, IHn. simpl. ring. Qed.

(** ** Octants *)
Lemma mu2_closed nmu i : mu2tmp nmu i = mu2tmp nmu 0 + INR i * deltamu nmu.
Proof. induction i; [simpl; ring|]. cbn [mu2tmp] in *. rewrite IHi, S_INR. ring. Qed.
Lemma odd_pos nmu : (1 <= nmu)%nat -> 0 < INR (2 * nmu - 1).
Proof. intros H. apply lt_0_INR. lia. Qed.
Lemma mu2_pos nmu i : (1 <= nmu)%nat -> 0 < mu2tmp nmu i.
Proof. intros H. pose proof (odd_pos nmu H) as P. rewrite mu2_closed. cbn [mu2tmp]. unfold deltamu. assert (0 < 1 / (3 * INR (2 * nmu - 1))) by (apply Rdiv_lt_0_compat; lra). assert (0 <= INR i * (2 / INR (2 * nmu - 1))) by (apply Rmult_le_pos; [apply pos_INR|apply Rlt_le, Rdiv_lt_0_compat; lra]). lra. Qed.
Lemma in_triples nmu i j k : In (i, j, k) (triples nmu) -> (i + j + k = nmu - 1)%nat.
Proof.
  unfold triples. intros H. apply in_flat_map in H. destruct H as [a [_ H]]. apply in_flat_map in H. destruct H as [b [_ H]]. apply in_flat_map in H. destruct H as [c [_ H]].
  destruct (Nat.eqb_spec (a + b + c) (nmu - 1)); [|destruct H]. destruct H as [H|[]]. injection H as <- <- <-. auto.
Qed.
Lemma mutmp_unit nmu t : (1 <= nmu)%nat -> In t (triples nmu) -> unit_vector (mutmp nmu t).
Proof.
  intros H I. destruct t as [[i j] k]. apply in_triples in I. unfold mutmp, unit_vector. rewrite !sqrt_sqrt by (apply Rlt_le, mu2_pos; auto). rewrite !(mu2_closed nmu) with (i := i). rewrite (mu2_closed nmu j), (mu2_closed nmu k).
  assert (S : INR i + INR j + INR k = INR nmu - 1) by (rewrite <- !plus_INR, I; rewrite minus_INR by lia; simpl; ring).
  assert (E : INR (2 * nmu - 1) = 2 * INR nmu - 1) by (rewrite minus_INR, mult_INR by lia; simpl; ring). pose proof (odd_pos nmu H) as P.
  transitivity (3 * mu2tmp nmu 0 + (INR i + INR j + INR k) * deltamu nmu); [ring|]. rewrite S. cbn [mu2tmp]. unfold deltamu. rewrite E in *. field. lra.
Qed.
Lemma octant_unit j k l d : unit_vector d -> unit_vector (octant j k l d).
Proof. destruct d as [[x y] z]. unfold unit_vector, octant, flip. intros <-. destruct j, k, l; ring. Qed.

(** Moments over the octants from those over one octant. *)
Section octants.
Variables (nmu : nat) (w : list R).
Let c := combine (triples nmu) w.
Let l := flat_map (fun '(j, k, l) => map (fun '(t, x) => (octant j k l (mutmp nmu t), x * (125 / 1000))) c) octants.
Let s1 := add_up c (fun '(_, x) => x).
Let sq p := add_up c (fun '(t, x) => x * mu2tmp nmu (at3 t p)).
Lemma oct_sum f : add_up l f = add_up octants (fun '(j, k, l) => add_up c (fun '(t, x) => f (octant j k l (mutmp nmu t), x * (125 / 1000)))).
Proof using. unfold l. rewrite add_up_flat. apply add_up_ext. intros [[j k] m] _. rewrite add_up_map. apply add_up_ext. intros [t x] _. reflexivity. Qed.
Lemma isotropic_from : (1 <= nmu)%nat -> s1 = 1 -> sq 0 = 1 / 3 -> sq 1 = 1 / 3 -> sq 2 = 1 / 3 -> isotropic l.
Proof using.
  intros H H1 Hi Hj Hk.
  assert (Q : forall f g, (forall j k m t x, f (octant j k m (mutmp nmu t), x * (125 / 1000)) = g j k m t x) -> add_up l f = add_up octants (fun '(j, k, m) => add_up c (fun '(t, x) => g j k m t x))).
  { intros f g E. rewrite oct_sum. apply add_up_ext. intros [[j k] m] _. apply add_up_ext. intros [t x] _. apply E. }
  assert (Z : forall f, (forall t x, In (t, x) c -> add_up octants (fun '(j, k, m) => f (octant j k m (mutmp nmu t), x * (125 / 1000))) = 0) -> add_up l f = 0).
  { intros f E. rewrite oct_sum. unfold octants in *. cbn [add_up fold_right] in *. revert E. generalize c. induction c0 as [|[t x] r IH]; intros E; [simpl; ring|]. specialize (E t x (or_introl eq_refl)) as E0. specialize (IH ltac:(intros; apply E; right; auto)). unfold add_up in *. cbn [fold_right] in *. lra. }
  assert (M : forall f p, (forall j k m t x, In (t, x) c -> f (octant j k m (mutmp nmu t), x * (125 / 1000)) = (125 / 1000) * (x * mu2tmp nmu (at3 t p))) -> add_up l f = sq p).
  { intros f p E. rewrite oct_sum. transitivity (add_up octants (fun _ => (125 / 1000) * sq p)); [|simpl; field]. apply add_up_ext. intros [[j k] m] _. unfold sq. rewrite <- add_up_scal. apply add_up_ext. intros [t x] I. apply E. auto. }
  unfold isotropic. repeat split.
  - intros d v I. unfold l in I. apply in_flat_map in I. destruct I as [[[j k] m] [_ I]]. apply in_map_iff in I. destruct I as [[t x] [E I]]. injection E as <- _. apply octant_unit, mutmp_unit; auto. apply in_combine_l in I. auto.
  - rewrite oct_sum. transitivity (add_up octants (fun _ => (125 / 1000) * s1)); [|simpl; rewrite H1; field]. apply add_up_ext. intros [[j k] m] _. unfold s1. rewrite <- add_up_scal. apply add_up_ext. intros [t x] I. ring.
  - apply Z. intros [[i j] k] x I. unfold octants, octant, mutmp, flip. simpl. ring.
  - apply Z. intros [[i j] k] x I. unfold octants, octant, mutmp, flip. simpl. ring.
  - apply Z. intros [[i j] k] x I. unfold octants, octant, mutmp, flip. simpl. ring.
  - rewrite (M _ 1%nat); [exact Hj|]. intros a b d [[i j] k] x I. unfold octant, mutmp, flip, at3. assert (S : sqrt (mu2tmp nmu j) * sqrt (mu2tmp nmu j) = mu2tmp nmu j) by (apply sqrt_sqrt, Rlt_le, mu2_pos; auto). destruct d; rewrite <- S at 5 || rewrite <- S at 3; ring.
  - rewrite (M _ 2%nat); [exact Hk|]. intros a b d [[i j] k] x I. unfold octant, mutmp, flip, at3. assert (S : sqrt (mu2tmp nmu k) * sqrt (mu2tmp nmu k) = mu2tmp nmu k) by (apply sqrt_sqrt, Rlt_le, mu2_pos; auto). destruct b; rewrite <- S at 5 || rewrite <- S at 3; ring.
  - rewrite (M _ 0%nat); [exact Hi|]. intros a b d [[i j] k] x I. unfold octant, mutmp, flip, at3. assert (S : sqrt (mu2tmp nmu i) * sqrt (mu2tmp nmu i) = mu2tmp nmu i) by (apply sqrt_sqrt, Rlt_le, mu2_pos; auto). destruct a; rewrite <- S at 5 || rewrite <- S at 3; ring.
  - apply Z. intros [[i j] k] x I. unfold octants, octant, mutmp, flip. simpl. ring.
  - apply Z. intros [[i j] k] x I. unfold octants, octant, mutmp, flip. simpl. ring.
  - apply Z. intros [[i j] k] x I. unfold octants, octant, mutmp, flip. simpl. ring.
Qed.
Let l2 := flat_map (fun '(j, k) => map (fun '(t, x) => (let '(a, b, _) := mutmp nmu t in (flip k a, flip j b), x * (25 / 100))) c) quadrants.
Lemma quad_sum f : add_up l2 f = add_up quadrants (fun '(j, k) => add_up c (fun '(t, x) => f (let '(a, b, _) := mutmp nmu t in (flip k a, flip j b), x * (25 / 100)))).
Proof using. unfold l2. rewrite add_up_flat. apply add_up_ext. intros [j k] _. rewrite add_up_map. apply add_up_ext. intros [t x] _. reflexivity. Qed.
Lemma isotropic2_from : (1 <= nmu)%nat -> s1 = 1 -> sq 1 = 1 / 3 -> sq 2 = 1 / 3 -> isotropic2 l2.
Proof using.
  intros H H1 Hj Hk.
  assert (Z : forall f, (forall t x, In (t, x) c -> add_up quadrants (fun '(j, k) => f (let '(a, b, _) := mutmp nmu t in (flip k a, flip j b), x * (25 / 100))) = 0) -> add_up l2 f = 0).
  { intros f E. rewrite quad_sum. unfold quadrants in *. cbn [add_up fold_right] in *. revert E. generalize c. induction c0 as [|[t x] r IH]; intros E; [simpl; ring|]. specialize (E t x (or_introl eq_refl)) as E0. specialize (IH ltac:(intros; apply E; right; auto)). unfold add_up in *. cbn [fold_right] in *. lra. }
  assert (M : forall f p, (forall j k t x, In (t, x) c -> f (let '(a, b, _) := mutmp nmu t in (flip k a, flip j b), x * (25 / 100)) = (25 / 100) * (x * mu2tmp nmu (at3 t p))) -> add_up l2 f = sq p).
  { intros f p E. rewrite quad_sum. transitivity (add_up quadrants (fun _ => (25 / 100) * sq p)); [|simpl; field]. apply add_up_ext. intros [j k] _. unfold sq. rewrite <- add_up_scal. apply add_up_ext. intros [t x] I. apply E. auto. }
  unfold isotropic2. repeat split.
  - rewrite quad_sum. transitivity (add_up quadrants (fun _ => (25 / 100) * s1)); [|simpl; rewrite H1; field]. apply add_up_ext. intros [j k] _. unfold s1. rewrite <- add_up_scal. apply add_up_ext. intros [t x] I. ring.
  - apply Z. intros [[i j] k] x I. unfold quadrants, mutmp, flip. simpl. ring.
  - apply Z. intros [[i j] k] x I. unfold quadrants, mutmp, flip. simpl. ring.
  - rewrite (M _ 1%nat); [exact Hj|]. intros b d [[i j] k] x I. unfold mutmp, flip, at3. assert (S : sqrt (mu2tmp nmu j) * sqrt (mu2tmp nmu j) = mu2tmp nmu j) by (apply sqrt_sqrt, Rlt_le, mu2_pos; auto). destruct d; rewrite <- S at 5 || rewrite <- S at 3; ring.
  - rewrite (M _ 2%nat); [exact Hk|]. intros b d [[i j] k] x I. unfold mutmp, flip, at3. assert (S : sqrt (mu2tmp nmu k) * sqrt (mu2tmp nmu k) = mu2tmp nmu k) by (apply sqrt_sqrt, Rlt_le, mu2_pos; auto). destruct b; rewrite <- S at 5 || rewrite <- S at 3; ring.
  - apply Z. intros [[i j] k] x I. unfold quadrants, mutmp, flip. simpl. ring.
Qed.
End octants.

(** ** Families *)
(** The table and the labels, without the matrix. *)
Definition label (st : list triple * list nat) (t : triple) : list triple * list nat :=
  let '(pl, plab) := st in let '(i, j, k) := t in
  match Permutation i j k pl with None => (pl ++ [(i, j, k)], plab ++ [length pl]) | Some ip => (pl, plab ++ [ip]) end.
Definition labels (nmu : nat) : list nat := snd (fold_left label (triples nmu) ([], [])).
Fixpoint count (ts : list triple) (ls : list nat) (i f : nat) : nat :=
  match ts, ls with t :: ts, l :: ls => (if (at3 t 0 =? i)%nat && (l =? f)%nat then 1 else 0) + count ts ls i f | _, _ => 0%nat end.
Lemma count_app ts ls t l i f : length ts = length ls -> count (ts ++ [t]) (ls ++ [l]) i f = (count ts ls i f + (if (at3 t 0 =? i)%nat && (l =? f)%nat then 1 else 0))%nat.
Proof. revert ls. induction ts; destruct ls; intros H; simpl in *; try discriminate; [destruct ((_ =? i)%nat && _); auto|]. rewrite IHts by lia. lia. Qed.
Lemma families_labels ts : let '(pl, ls, m) := fold_left family ts ([], [], fun _ _ => 0) in fold_left label ts ([], []) = (pl, ls) /\ length ts = length ls /\ forall i f, m i f = INR (count ts ls i f).
Proof.
  induction ts as [|t ts IH] using rev_ind; [simpl; auto|]. rewrite !fold_left_app. cbn [fold_left]. destruct (fold_left family ts _) as [[pl ls] m]. destruct IH as [E [L C]]. rewrite E. unfold family, label. destruct t as [[i j] k].
  assert (G : forall x a b, set2 m i x (m i x + 1) a b = INR (count (ts ++ [(i, j, k)]) (ls ++ [x]) a b)).
  { intros x a b. rewrite count_app by auto. rewrite plus_INR, <- C. unfold set2. cbn [at3]. rewrite (Nat.eqb_sym i a), (Nat.eqb_sym x b). destruct (Nat.eqb_spec a i) as [->|]; destruct (Nat.eqb_spec b x) as [->|]; cbn [andb]; simpl; ring. }
  destruct (Permutation i j k pl); (split; [reflexivity|split; [rewrite !app_length; simpl; lia|intros; apply G]]).
Qed.
Lemma octant_weights_from nmu indx0 B : (2 <= nmu)%nat -> forallb (fun l => l <? nmu - 1)%nat (labels nmu) = true ->
  inverse (nmu - 1) (fun i f => INR (count (triples nmu) (labels nmu) i f)) B ->
  exists wpf, octant_weights nmu indx0 = Some (map wpf (labels nmu)) /\ forall i, (i < nmu - 1)%nat -> total (nmu - 1) (fun f => INR (count (triples nmu) (labels nmu) i f) * wpf f) = wtmp nmu i.
Proof.
  intros N F I. unfold octant_weights. destruct (Nat.ltb_spec nmu 2); [lia|]. pose proof (families_labels (triples nmu)) as E. unfold families. destruct (fold_left family (triples nmu) _) as [[pl ls] m]. destruct E as [E [L C]].
  assert (E' : labels nmu = ls) by (unfold labels; rewrite E; reflexivity). rewrite E' in *. rewrite F.
  assert (I' : inverse (nmu - 1) m B). { intros i j Hi Hj. specialize (I i j Hi Hj). unfold product in *. destruct I as [I1 I2]. split; [rewrite <- I1|rewrite <- I2]; apply total_ext; intros; rewrite C; reflexivity. }
  destruct (C78_inverse (nmu - 1) m B indx0 I') as [X [EX HX]]. rewrite EX. eexists. split; [reflexivity|]. intros i Hi.
  rewrite (total_ext _ _ (fun f => m i f * total (nmu - 1) (fun g => B f g * wtmp nmu g))).
  2:{ intros f Hf. rewrite C78_product. unfold apply_. rewrite C. f_equal. apply total_ext. intros g Hg. rewrite HX by auto. reflexivity. }
  rewrite (total_ext _ _ (fun f => total (nmu - 1) (fun g => m i f * B f g * wtmp nmu g))) by (intros; rewrite <- total_scal; apply total_ext; intros; ring).
  rewrite total_swap. rewrite (total_ext _ _ (fun g => one i g * wtmp nmu g)).
  2:{ intros g Hg. rewrite <- (proj1 (I' i g Hi Hg)). unfold product. rewrite Rmult_comm, <- total_scal. apply total_ext. intros; ring. }
  rewrite (total_split (S i)) by (try lia; (intros g Hg; unfold one; destruct (Nat.eqb_spec i g); [lia|ring])). cbn [total]. unfold one at 2. rewrite Nat.eqb_refl. rewrite total_zero; [ring|]. intros g Hg. unfold one. destruct (Nat.eqb_spec i g); [lia|ring].
Qed.
