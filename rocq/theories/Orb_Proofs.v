(** The buffers. *)
From Coq Require Import Reals ZArith List Bool Lia Lra.
From Verif Require Import Time_Model Fv_Model Fv_Spec Fv_Proofs2 Rec_Model Rec_Spec Orb_Model Orb_Spec.
Import ListNotations.
Local Open Scope R_scope.

Definition zs (a : Z) (n : nat) : list Z := map (fun k => (a + Z.of_nat k)%Z) (seq 0 n).
Lemma upto_zs : forall a b, upto a b = zs a (Z.to_nat (b - a + 1)). Proof. reflexivity. Qed.
Lemma zs_S : forall a n, zs a (S n) = a :: zs (a + 1) n.
Proof.
  intros. unfold zs. cbn [seq map]. f_equal. { lia. }
  rewrite <- seq_shift, map_map. apply map_ext. intro. lia.
Qed.
Lemma zs_length : forall a n, length (zs a n) = n. Proof. intros. unfold zs. rewrite map_length, seq_length. reflexivity. Qed.

Lemma fill_zs : forall n a c u b rest,
  (forall x, fst (fill (zs a n) b (map u (zs c n) ++ rest)) x = if ((a <=? x)%Z && (x <? a + Z.of_nat n)%Z)%bool then u (x - a + c)%Z else b x) /\ snd (fill (zs a n) b (map u (zs c n) ++ rest)) = rest.
Proof.
  induction n; intros.
  - cbn [zs seq map fill app fst snd]. split; [|reflexivity]. intro x.
    destruct (Z.leb_spec a x), (Z.ltb_spec x (a + Z.of_nat 0)); cbn [andb]; try reflexivity. lia.
  - rewrite !zs_S. cbn [map app fill hd tl].
    destruct (IHn (a + 1)%Z (c + 1)%Z u (store b a (u c)) rest) as [H1 H2]. split; [|exact H2].
    intro x. rewrite H1. unfold store.
    destruct (Z.eqb_spec x a).
    + subst. replace (a + 1 <=? a)%Z with false by (symmetry; apply Z.leb_gt; lia). cbn [andb].
      replace (a <=? a)%Z with true by (symmetry; apply Z.leb_le; lia).
      replace (a <? a + Z.of_nat (S n))%Z with true by (symmetry; apply Z.ltb_lt; lia). cbn [andb]. f_equal. lia.
    + destruct (Z.leb_spec (a + 1) x), (Z.leb_spec a x), (Z.ltb_spec x (a + 1 + Z.of_nat n)), (Z.ltb_spec x (a + Z.of_nat (S n))); cbn [andb]; try reflexivity; try lia.
      f_equal. lia.
Qed.
Lemma own_zs : forall n a s (u b : line) x,
  fold_left (fun b j => store b (j + s) (u j)) (zs a n) b x = if ((a + s <=? x)%Z && (x <? a + s + Z.of_nat n)%Z)%bool then u (x - s)%Z else b x.
Proof.
  induction n; intros.
  - cbn [zs seq map fold_left]. destruct (Z.leb_spec (a + s) x), (Z.ltb_spec x (a + s + Z.of_nat 0)); cbn [andb]; try reflexivity. lia.
  - rewrite zs_S. cbn [fold_left]. rewrite IHn. unfold store.
    destruct (Z.eqb_spec x (a + s)).
    + subst. replace (a + 1 + s <=? a + s)%Z with false by (symmetry; apply Z.leb_gt; lia). cbn [andb].
      replace (a + s <=? a + s)%Z with true by (symmetry; apply Z.leb_le; lia).
      replace (a + s <? a + s + Z.of_nat (S n))%Z with true by (symmetry; apply Z.ltb_lt; lia). cbn [andb]. f_equal. lia.
    + destruct (Z.leb_spec (a + 1 + s) x), (Z.leb_spec (a + s) x), (Z.ltb_spec x (a + 1 + s + Z.of_nat n)), (Z.ltb_spec x (a + s + Z.of_nat (S n))); cbn [andb]; try reflexivity; lia.
Qed.

Lemma periodic_mul : forall N g, periodic N g -> forall k x, g (x + k * N)%Z = g x.
Proof.
  intros N g H k x. pattern k. apply Z.bi_induction; [intros ? ? E; rewrite E; tauto| |].
  - f_equal; lia.
  - intro z. replace (x + Z.succ z * N)%Z with (x + z * N + N)%Z by lia. rewrite H. tauto.
Qed.
Lemma periodic_mod : forall onx nb g m a, (0 < nb)%Z -> periodic (nb * onx) g -> g ((m mod nb) * onx + a)%Z = g (m * onx + a)%Z.
Proof.
  intros onx nb g m a Hnb H. rewrite <- (periodic_mul _ _ H (m / nb)%Z). f_equal.
  rewrite (Z.div_mod m nb) at 3 by lia. nia.
Qed.

Section B.
Variables (ppm full : bool) (onx js : Z).
Hypothesis Honx : (0 < onx)%Z.
(** Position in the buffer of the cell with index x of the block. *)
Definition pos (o x : Z) : Z := (x + (if Z.ltb 0 o then onx else 0))%Z.
Definition len (up : bool) (o : Z) : nat := Z.to_nat (if up then 1 + xgh ppm - o else o + xgh ppm).
Lemma sent_zs : forall up o, sent ppm onx js up o = zs (if up then js else js - xgh ppm - o + onx)%Z (len up o).
Proof. intros. unfold sent, len, je. destruct up; rewrite upto_zs; f_equal; f_equal; lia. Qed.
Lemma placed_zs : forall up o, placed ppm onx js up o = zs (if up then pos o (js + onx) else pos o (js - xgh ppm - o)%Z) (len up o).
Proof.
  intros. unfold placed, len, je, pos. destruct up.
  - destruct (Z.ltb_spec 0 o); rewrite upto_zs; f_equal; try lia; f_equal; lia.
  - destruct (Z.leb_spec o 0), (Z.ltb_spec 0 o); try lia; rewrite upto_zs; f_equal; try lia; f_equal; lia.
Qed.
(** What one received row holds: the cells of the sender next to the block, everything else unchanged. *)
Definition got (up : bool) (o : Z) (u b : line) : line := fst (fill (placed ppm onx js up o) b (map u (sent ppm onx js up o) ++ [])).
Lemma fill_any : forall up o (u b : line) rest, fill (placed ppm onx js up o) b (map u (sent ppm onx js up o) ++ rest) = (got up o u b, rest).
Proof.
  intros. unfold got. rewrite sent_zs, placed_zs.
  match goal with |- fill (zs ?a ?n) _ (map _ (zs ?c _) ++ _) = _ => destruct (fill_zs n a c u b rest) as [H1 H2]; destruct (fill_zs n a c u b []) as [H3 H4] end.
  destruct (fill _ b (map u _ ++ rest)) as [f r] eqn:E. cbn [fst snd] in *. subst r. f_equal.
  apply FunctionalExtensionality.functional_extensionality. intro x. rewrite H1, H3. reflexivity.
Qed.
Lemma Set_Load : forall up (off : nat -> Z) (u b : nat -> line) l rest,
  Set_ ppm onx js up (map (fun r => (off r, b r)) l) (Load ppm onx js up (map (fun r => (off r, u r)) l) ++ rest) = (map (fun r => (off r, got up (off r) (u r) (b r))) l, rest).
Proof.
  induction l; intros; cbn [map Set_]. { reflexivity. }
  unfold Load. cbn [flat_map fst snd]. rewrite <- app_assoc, fill_any.
  unfold Load in IHl. rewrite IHl. reflexivity.
Qed.

(** Sizes. *)
Lemma sent_len : forall up o, Z.of_nat (length (sent ppm onx js up o)) = if up then Z.max (1 + xgh ppm - o) 0 else Z.max (o + xgh ppm) 0.
Proof. intros. rewrite sent_zs, zs_length. unfold len. destruct up; lia. Qed.
Lemma placed_len : forall up o, length (placed ppm onx js up o) = length (sent ppm onx js up o).
Proof. intros. rewrite sent_zs, placed_zs, !zs_length. reflexivity. Qed.
Definition zsum (l : list Z) : Z := fold_right Z.add 0%Z l.
Lemma zsum_app : forall a b, zsum (a ++ b) = (zsum a + zsum b)%Z.
Proof. induction a; intros; unfold zsum in *; cbn [app fold_right]; [lia|rewrite IHa; lia]. Qed.
Lemma zsum_repeat : forall (f : Z -> Z) n o, zsum (map f (repeat o n)) = (Z.of_nat n * f o)%Z.
Proof.
  induction n; intros. { reflexivity. }
  cbn [repeat map]. unfold zsum in *. cbn [fold_right]. rewrite IHn. lia.
Qed.
Lemma zsum_flat : forall (f : Z -> Z) n l, zsum (map f (flat_map (fun o => repeat o n) l)) = (Z.of_nat n * zsum (map f l))%Z.
Proof.
  induction l. { cbn. lia. }
  cbn [flat_map map]. rewrite map_app, zsum_app, zsum_repeat, IHl. unfold zsum. cbn [fold_right]. lia.
Qed.
Lemma Load_len : forall up (off : nat -> Z) u l, Z.of_nat (length (Load ppm onx js up (map (fun r => (off r, u r)) l))) = zsum (map (fun o => if up then Z.max (1 + xgh ppm - o) 0 else Z.max (o + xgh ppm) 0)%Z (map off l)).
Proof.
  induction l. { reflexivity. }
  unfold Load in *. cbn [map flat_map fst snd]. rewrite app_length, Nat2Z.inj_add, IHl, map_length, sent_len. reflexivity.
Qed.
Lemma taken_len : forall up (off : nat -> Z) (b : nat -> line) l, taken ppm onx js up (map (fun r => (off r, b r)) l) = zsum (map (fun o => if up then Z.max (1 + xgh ppm - o) 0 else Z.max (o + xgh ppm) 0)%Z (map off l)).
Proof.
  induction l. { reflexivity. }
  unfold taken, zsum in *. cbn [map fold_right fst]. rewrite IHl, placed_len, sent_len. reflexivity.
Qed.

(** The buffer holds the ring. *)
Lemma got_at : forall up o u b x, got up o u b (pos o x) =
  if up then (if ((js + onx <=? x)%Z && (x <=? je onx js + 1 + xgh ppm - o)%Z)%bool then u (x - onx)%Z else b (pos o x))
  else (if ((js - xgh ppm - o <=? x)%Z && (x <=? js - 1)%Z)%bool then u (x + onx)%Z else b (pos o x)).
Proof.
  intros. unfold got. rewrite sent_zs, placed_zs.
  match goal with |- fst (fill (zs ?a ?n) _ (map _ (zs ?c _) ++ _)) _ = _ => destruct (fill_zs n a c u b []) as [H1 _] end.
  rewrite H1. unfold len, pos, je. destruct up.
  - destruct (Z.leb_spec (js + onx + (if Z.ltb 0 o then onx else 0)) (x + (if Z.ltb 0 o then onx else 0))), (Z.leb_spec (js + onx) x); try lia; cbn [andb]; [|reflexivity].
    match goal with |- (if Z.ltb ?a ?b then _ else _) = (if Z.leb ?c ?d then _ else _) => destruct (Z.ltb_spec a b), (Z.leb_spec c d) end; try lia; [|reflexivity].
    f_equal. lia.
  - match goal with |- (if (Z.leb ?a ?b && Z.ltb ?a' ?b')%bool then _ else _) = (if (Z.leb ?c ?d && Z.leb ?c' ?d')%bool then _ else _) => destruct (Z.leb_spec a b), (Z.leb_spec c d), (Z.ltb_spec a' b'), (Z.leb_spec c' d') end; cbn [andb]; try reflexivity; try lia.
    f_equal. lia.
Qed.
Lemma own_at : forall o u b x, (js <= x <= je onx js)%Z -> (full = true \/ (js - xgh ppm - o <= x <= je onx js + 1 + xgh ppm - o)%Z) ->
  set_own ppm full onx js o u b (pos o x) = u x.
Proof.
  intros o u b x Hx Hf. unfold set_own. rewrite upto_zs, own_zs. unfold pos.
  match goal with |- (if (Z.leb ?a ?b && Z.ltb ?c ?d)%bool then _ else _) = _ => destruct (Z.leb_spec a b), (Z.ltb_spec c d) end; cbn [andb]; try (f_equal; lia); exfalso; destruct full; lia.
Qed.
Variables (nb : Z) (nh ns : nat) (offsets : list Z) (nrow : nat) (off : nat -> Z) (eps : nat -> R).
Hypothesis Hnb : (0 < nb)%Z.
Hypothesis Hloops : map off (seq 0 nrow) = loops nh ns offsets.
Let nvar := (Z.of_nat nh + Z.of_nat ns)%Z.
Lemma total_len : forall f : Z -> Z, zsum (map f (map off (seq 0 nrow))) = (nvar * zsum (map f offsets))%Z.
Proof using Hloops.
  intro. rewrite Hloops. unfold loops. rewrite map_app, zsum_app, !zsum_flat. unfold nvar. lia.
Qed.
Lemma send_ok : forall up u, send ppm onx js up nvar offsets (rows nrow off u) = Some (Load ppm onx js up (rows nrow off u)).
Proof using Hloops.
  intros. unfold send, rows. rewrite Load_len, total_len. unfold announced. rewrite Z.eqb_refl. reflexivity.
Qed.
Lemma receive_ok : forall up u b, receive ppm onx js up nvar offsets (rows nrow off b) (Load ppm onx js up (rows nrow off u)) = Some (rows nrow off (fun r => got up (off r) (u r) (b r))).
Proof using Hloops.
  intros. unfold receive, rows. rewrite taken_len, total_len. unfold announced. rewrite Z.eqb_refl.
  pose proof (Set_Load up off u b (seq 0 nrow) []) as H. rewrite app_nil_r in H. rewrite H. reflexivity.
Qed.
(** The complete buffer row. *)
Definition nbr (m : Z) (up : bool) : Z := if up then ((m + 1) mod nb)%Z else ((m - 1) mod nb)%Z.
Definition full_row (first : bool) (st old : Z -> nat -> line) (m : Z) (r : nat) : line :=
  got (negb first) (off r) (st (nbr m (negb first)) r) (got first (off r) (st (nbr m first) r) (set_own ppm full onx js (off r) (st m r) (old m r))).
Lemma buffers_ok : forall first st old m, buffers ppm full onx js nb nvar offsets nrow off first st old m = Some (rows nrow off (full_row first st old m)).
Proof using Hloops.
  intros. unfold buffers. rewrite send_ok. cbn [bind]. rewrite receive_ok. cbn [bind]. rewrite send_ok. cbn [bind]. rewrite receive_ok. reflexivity.
Qed.
Lemma row_rows : forall x r, (r < nrow)%nat -> row (rows nrow off x) r = x r.
Proof.
  intros. unfold row, rows. rewrite map_map. cbn [snd].
  rewrite nth_indep with (d' := x 0%nat) by (rewrite map_length, seq_length; assumption).
  rewrite map_nth, seq_nth by assumption. f_equal.
Qed.

Lemma full_at : forall first (st old : Z -> nat -> line) (g : nat -> Z -> R) m r x, (r < nrow)%nat -> periodic (nb * onx) (g r) ->
  (forall b, (0 <= b < nb)%Z -> holds onx js (st b r) b (g r)) -> (0 <= m < nb)%Z ->
  (js - onx <= x <= je onx js + onx)%Z -> (js - xgh ppm - off r <= x <= je onx js + 1 + xgh ppm - off r)%Z \/ (full = true /\ js <= x <= je onx js)%Z ->
  full_row first st old m r (pos (off r) x) = g r (m * onx + (x - js))%Z.
Proof using Honx Hnb.
  clear nvar.
  intros first st old g m r x Hr Hp Hh Hm Hx Hw.
  assert (R1 : (js + onx <= x -> x <= je onx js + 1 + xgh ppm - off r -> st (nbr m true) r (x - onx) = g r (m * onx + (x - js)))%Z).
  { intros A B. unfold nbr. replace (x - onx)%Z with (js + (x - onx - js))%Z by lia.
    rewrite Hh by (first [apply Z.mod_pos_bound; lia | unfold je in *; lia]).
    rewrite periodic_mod by assumption. f_equal. lia. }
  assert (R2 : (x <= js - 1 -> st (nbr m false) r (x + onx) = g r (m * onx + (x - js)))%Z).
  { intros A. unfold nbr. replace (x + onx)%Z with (js + (x + onx - js))%Z by lia.
    rewrite Hh by (first [apply Z.mod_pos_bound; lia | unfold je in *; lia]).
    rewrite periodic_mod by assumption. f_equal. lia. }
  assert (R3 : (js <= x <= je onx js)%Z -> set_own ppm full onx js (off r) (st m r) (old m r) (pos (off r) x) = g r (m * onx + (x - js))%Z).
  { intros A. rewrite own_at by (first [assumption | destruct Hw as [Hw|[Hw _]]; [right; exact Hw | left; exact Hw]]).
    replace x with (js + (x - js))%Z at 1 by lia. apply Hh; unfold je in *; lia. }
  unfold full_row.
  assert (D : (js + onx <= x /\ x <= je onx js + 1 + xgh ppm - off r \/ js <= x <= je onx js \/ (js - xgh ppm - off r <= x /\ x <= js - 1))%Z) by (unfold je in *; lia).
  destruct first; cbn [negb]; rewrite !got_at;
    repeat match goal with |- context [Z.leb ?a ?b] => destruct (Z.leb_spec a b) end; cbn [andb];
    first [apply R1; lia | apply R2; lia | apply R3; unfold je in *; lia | exfalso; unfold je in *; lia].
Qed.
End B.
