(** Proofs for C92: the exchange. *)
From Coq Require Import Reals ZArith Lra Lia List Bool.
From Verif Require Import Time_Model Fv_Model Fv_Spec Fv_Proofs2 Rec_Model Rec_Spec Orb_Model Orb_Spec Orb_Proofs Orb_Proofs2 Orb_Proofs3 Shb_Model.
Import ListNotations.
Local Open Scope R_scope.

Lemma partner_mod nbl b d : (0 < nbl)%Z -> partner nbl b d = ((b + d) mod nbl)%Z.
Proof.
  intros H. unfold partner. pose proof (Z.quot_rem (b + d) nbl ltac:(lia)) as Q. pose proof (Z.rem_bound_abs (b + d) nbl ltac:(lia)) as A.
  destruct (Z.ltb_spec (Z.rem (b + d) nbl) 0).
  - apply Z.mod_unique_pos with (q := (Z.quot (b + d) nbl - 1)%Z); lia.
  - apply Z.mod_unique_pos with (q := Z.quot (b + d) nbl); lia.
Qed.
Lemma partner_back nbl b d : (0 <= b < nbl)%Z -> partner nbl (partner nbl b (- d)) d = b.
Proof.
  intros H. rewrite !partner_mod by lia. rewrite Zplus_mod_idemp_l. replace (b + - d + d)%Z with b by lia. apply Z.mod_small. exact H.
Qed.
Lemma nth_upto (f : line) a b x : (a <= x <= b)%Z -> nth (Z.to_nat (x - a)) (map f (upto a b)) 0 = f x.
Proof.
  intros H. unfold upto. rewrite map_map. rewrite (nth_indep _ 0 (f (a + Z.of_nat 0)%Z)) by (rewrite map_length, seq_length; lia).
  rewrite (map_nth (fun n => f (a + Z.of_nat n)%Z)). rewrite seq_nth by lia. f_equal. lia.
Qed.

Lemma slots_all (flux : bool) (n : Z) : (0 <= n <= (if flux then 2 else 3))%Z -> In n (if flux then [0; 1; 2] else [0; 1; 2; 3])%Z.
Proof. intros H. destruct flux; cbn [In]; lia. Qed.
Lemma slots_ok (flux : bool) (n : Z) : In n (if flux then [0; 1; 2] else [0; 1; 2; 3])%Z -> (0 <= n <= (if flux then 2 else 3))%Z.
Proof. intros H. destruct flux; cbn [In] in H; lia. Qed.
Lemma xg_pos p : (1 <= xgh p <= 2)%Z. Proof. unfold xgh. destruct p; lia. Qed.
Section Exchange.
Variables (m : box) (flux upper : bool) (joverlap Ngrids : Z) (src : Z -> line) (g : Z -> R) (b : Z).
Notation ng := (if flux then 0%Z else NGHOST m).
Notation lst := (if flux then 2%Z else 3%Z).
Notation jo := (jo_of upper joverlap).
Notation xg := (xgh (ppm m)).
Notation Ng := (Ng_of upper Ngrids).
Hypothesis Hng : (xg <= NGHOST m)%Z.
Hypothesis Hnx : (NGHOST m + xg <= nx2 m)%Z.
Hypothesis Hj : (0 <= joverlap < nx2 m)%Z.
Hypothesis Hb : (0 <= b < nblx2 m)%Z.
Hypothesis Hg : periodic (nblx2 m * nx2 m) g.
Hypothesis Hsrc : forall s, (0 <= s < nblx2 m)%Z -> holds (nx2 m) (js m) (src s) s g.
(** The cell of the ring that belongs at place x of the array. *)
Definition place (x : Z) : Z := (b * nx2 m + (x - xg) - js m - jo - Ng * nx2 m)%Z.
Variable bs : Z.
Hypothesis Hbs : bshift flux xg (NGHOST m) (nx2 m) jo = Some bs.
Notation rmin := (jmin_recv (js m) (je m) ng xg (nx2 m) jo bs lst).
Notation rmax := (jmax_recv (js m) (je m) ng xg (nx2 m) jo bs lst).
Notation smin := (jmin_send (js m) (je m) ng xg (nx2 m) jo bs lst).
Notation smax := (jmax_send (js m) (je m) ng xg (nx2 m) jo bs lst).

Lemma counts n : (0 <= n <= lst)%Z -> (rmin n = smin n - (bs + n) * nx2 m)%Z /\ (rmax n = smax n - (bs + n) * nx2 m)%Z.
Proof using.
  intros Hn. unfold jmin_recv, jmax_recv, jmin_send, jmax_send. destruct (Z.eqb_spec n 0) as [-> | N0]; [lia | ]. destruct (Z.eqb_spec n lst); lia.
Qed.
(** Only active cells are sent. *)
Lemma sent_active n : (0 <= n <= lst)%Z -> (smin n <= smax n)%Z -> (js m <= smin n - jo /\ smax n - jo <= je m)%Z.
Proof using Hng Hnx Hj Hbs.
  intros Hn Hs. pose proof (xg_pos (ppm m)) as X. unfold jmin_send, jmax_send, je in *. unfold bshift, jo_of, num in *. clear Hsrc Hg Hb.
  assert (N : (n = 0 \/ n = 1 \/ n = 2 \/ n = 3)%Z) by (destruct flux; lia).
  destruct flux, upper;
  repeat match type of Hbs with context [Z.leb ?x ?y] => destruct (Z.leb_spec x y) end; try discriminate; injection Hbs as <-;
  destruct N as [-> | [-> | [-> | ->]]]; cbn [Z.eqb Pos.eqb] in *; lia.
Qed.
Lemma covered x : (js m - ng <= x <= je m + ng + 1 + 2 * xg)%Z -> exists n, (0 <= n <= lst)%Z /\ (rmin n <= x - xg <= rmax n)%Z.
Proof using Hng Hnx Hj Hbs.
  intros Hx. pose proof (xg_pos (ppm m)).
  assert (D : exists n, (0 <= n <= lst)%Z /\ (js m + jo - (bs + n) * nx2 m <= x - xg <= je m + jo - (bs + n) * nx2 m)%Z).
  { set (q := ((je m + jo - bs * nx2 m - (x - xg)) / nx2 m)%Z). exists q.
    pose proof (Z.div_mod (je m + jo - bs * nx2 m - (x - xg)) (nx2 m) ltac:(lia)) as E. pose proof (Z.mod_pos_bound (je m + jo - bs * nx2 m - (x - xg)) (nx2 m) ltac:(lia)) as Bd. fold q in E.
    assert (L : (0 <= je m + jo - bs * nx2 m - (x - xg) < (lst + 1) * nx2 m)%Z).
    { unfold je in *. unfold bshift, jo_of, num in *. destruct flux, upper;
      repeat match type of Hbs with context [Z.leb ?x ?y] => destruct (Z.leb_spec x y) end; try discriminate; injection Hbs as <-; lia. }
    clear Hbs. unfold je in *. split; [ | split; nia]. split; [apply Z.div_pos; lia | ].
    assert (q < lst + 1)%Z by (apply Z.div_lt_upper_bound; lia). lia. }
  destruct D as (n & Hn & H1). exists n. split; [exact Hn | ]. unfold jmin_recv, jmax_recv.
  destruct (Z.eqb_spec n 0) as [-> | N0]; [lia | ]. destruct (Z.eqb_spec n lst); lia.
Qed.
Lemma slot_step arr n : (0 <= n <= lst)%Z -> exists arr', slot m flux upper joverlap Ng bs src b (Some arr) n = Some arr' /\
  (forall x, (rmin n <= x - xg <= rmax n)%Z -> arr' x = g (place x)) /\ (forall x, ~ (rmin n <= x - xg <= rmax n)%Z -> arr' x = arr x).
Proof using Hng Hnx Hj Hb Hg Hsrc Hbs.
  intros Hn. destruct (counts n Hn) as (C1 & C2). unfold slot.
  destruct (Z.leb_spec (rmax n - rmin n + 1) 0) as [L | L].
  - destruct (Z.leb_spec (smax n - smin n + 1) 0) as [L' | L']; [ | lia]. exists arr. split; [reflexivity | split; intros; [lia | reflexivity]].
  - rewrite partner_back by exact Hb. rewrite Z.eqb_refl. cbn [andb]. destruct (Z.eqb_spec (smax n - smin n + 1) (rmax n - rmin n + 1)) as [E | E]; [ | lia].
    eexists. split; [reflexivity | ]. destruct (sent_active n Hn ltac:(lia)) as (A1 & A2).
    set (s := partner (nblx2 m) b (- (Ng + bs + n))). assert (Hs : (0 <= s < nblx2 m)%Z) by (unfold s; rewrite partner_mod by lia; apply Z.mod_pos_bound; lia).
    assert (LD : Load upper joverlap (src s) (smin n) (smax n) = map (src s) (upto (smin n - jo) (smax n - jo))).
    { unfold Load. unfold jo_of, num. destruct upper; f_equal; f_equal; lia. }
    rewrite LD. unfold Set_. split; intros x Hx.
    + replace ((rmin n + xg <=? x)%Z && (x <=? rmax n + xg)%Z)%bool with true by (symmetry; apply andb_true_iff; split; apply Z.leb_le; lia).
      replace (x - (rmin n + xg))%Z with ((x - xg + (bs + n) * nx2 m - jo) - (smin n - jo))%Z by lia. rewrite nth_upto by lia.
      pose proof (Hsrc s Hs (x - xg + (bs + n) * nx2 m - jo - js m)%Z ltac:(unfold je in *; lia)) as Q.
      replace (js m + (x - xg + (bs + n) * nx2 m - jo - js m))%Z with (x - xg + (bs + n) * nx2 m - jo)%Z in Q by lia. rewrite Q.
      unfold s. rewrite partner_mod by lia. rewrite (periodic_mod (nx2 m) (nblx2 m) g) by (try exact Hg; lia). f_equal. unfold place. lia.
    + replace ((rmin n + xg <=? x)%Z && (x <=? rmax n + xg)%Z)%bool with false; [reflexivity | ]. symmetry. apply andb_false_iff. destruct (Z.leb_spec (rmin n + xg) x); [right; apply Z.leb_gt; lia | left; reflexivity].
Qed.
Lemma fold_slots l arr : (forall n, In n l -> (0 <= n <= lst)%Z) -> exists arr', fold_left (slot m flux upper joverlap Ng bs src b) l (Some arr) = Some arr' /\
  (forall x, (exists n, In n l /\ (rmin n <= x - xg <= rmax n)%Z) \/ arr x = g (place x) -> arr' x = g (place x)).
Proof using Hng Hnx Hj Hb Hg Hsrc Hbs.
  revert arr. induction l as [ | n l IH]; intros arr Hl; cbn [fold_left].
  - exists arr. split; [reflexivity | ]. intros x [(n & [] & _) | H]; exact H.
  - destruct (slot_step arr n (Hl n (or_introl eq_refl))) as (arr1 & E & In1 & Out1). rewrite E. destruct (IH arr1 (fun k H => Hl k (or_intror H))) as (arr2 & E2 & H2).
    exists arr2. split; [exact E2 | ]. intros x H. apply H2. destruct H as [(k & [<- | Hk] & Hx) | H].
    + right. apply In1. exact Hx.
    + left. exists k. split; assumption.
    + right. destruct (Z_le_dec (rmin n) (x - xg)); [destruct (Z_le_dec (x - xg) (rmax n)) | ]; [apply In1; lia | | ]; rewrite Out1 by lia; exact H.
Qed.
End Exchange.

Lemma bshift_some m flux upper joverlap : (xgh (ppm m) <= NGHOST m)%Z -> (NGHOST m + xgh (ppm m) <= nx2 m)%Z -> (0 <= joverlap < nx2 m)%Z ->
  exists bs, bshift flux (xgh (ppm m)) (NGHOST m) (nx2 m) (jo_of upper joverlap) = Some bs.
Proof.
  intros A B C. assert (1 <= xgh (ppm m) <= 2)%Z by apply xg_pos. unfold bshift, jo_of, num. destruct flux, upper;
  repeat match goal with |- context [Z.leb ?x ?y] => destruct (Z.leb_spec x y) end; try (eexists; reflexivity); lia.
Qed.

(** The array after the exchange. *)
Lemma exchange_value m flux upper yshear src old b g joverlap Ngrids eps :
  (xgh (ppm m) <= NGHOST m)%Z -> (NGHOST m + xgh (ppm m) <= nx2 m)%Z -> (0 <= b < nblx2 m)%Z ->
  periodic (nblx2 m * nx2 m) g -> (forall s, (0 <= s < nblx2 m)%Z -> holds (nx2 m) (js m) (src s) s g) ->
  amount m yshear = (joverlap, Ngrids, eps) -> (0 <= joverlap < nx2 m)%Z ->
  exists arr, exchange m flux upper yshear src old b = Some arr /\
    forall x, (js m - (if flux then 0 else NGHOST m) <= x <= je m + (if flux then 0 else NGHOST m) + 1 + 2 * xgh (ppm m))%Z -> arr x = g (place m upper joverlap Ngrids b x).
Proof.
  intros A B Hb Hg Hs Am Hj. unfold exchange. rewrite Am. destruct (bshift_some m flux upper joverlap A B Hj) as (bs & E). rewrite E.
  destruct (fold_slots m flux upper joverlap Ngrids src g b A B Hj Hb Hg Hs bs E _ old (slots_ok flux)) as (arr & E2 & H). exists arr. split; [exact E2 | ].
  intros x Hx. apply H. left. destruct (covered m flux upper joverlap A B Hj bs E x Hx) as (n & Hn & Hr). exists n. split; [apply slots_all; exact Hn | exact Hr].
Qed.
