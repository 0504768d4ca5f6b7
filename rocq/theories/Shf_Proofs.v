(** Proofs for C93. *)
From Coq Require Import Reals ZArith Lra Lia List Bool.
From Verif Require Import Time_Model Fv_Model Fv_Spec Fv_Proofs2 Rec_Model Rec_Spec Orb_Model Orb_Spec Orb_Proofs Orb_Proofs2 Orb_Proofs3 Shb_Model Shb_Proofs Shb_Proofs2 Shf_Model.
Import ListNotations.
Local Open Scope R_scope.

(** A line of faces: block s holds the faces js to je + 1. *)
Definition holds_faces (onx js : Z) (u : Z -> R) (s : Z) (g : Z -> R) : Prop := forall a, (0 <= a <= onx)%Z -> u (js + a)%Z = g (s * onx + a)%Z.

Section Faces.
Variables (m : box) (flux upper : bool) (joverlap Ngrids : Z) (src : Z -> line) (g : Z -> R) (b : Z).
Notation ng := (if flux then 0%Z else NGHOST m).
Notation lst := (if flux then 2%Z else 3%Z).
Notation jo := (jo_of upper joverlap).
Notation xg := (xgh (ppm m)).
Notation Ng := (Ng_of upper Ngrids).
Hypothesis Hng : (xg <= NGHOST m)%Z.
Hypothesis Hnx : (NGHOST m + xg <= nx2 m)%Z.
Hypothesis Hj : (0 <= joverlap < nx2 m)%Z.
Hypothesis Hb : (0 <= b < nblx2 m)%Z.
Hypothesis Hg : periodic (nblx2 m * nx2 m) g.
Hypothesis Hsrc : forall s, (0 <= s < nblx2 m)%Z -> holds_faces (nx2 m) (js m) (src s) s g.
Variable bs : Z.
Hypothesis Hbs : bshift flux xg (NGHOST m) (nx2 m) jo = Some bs.
Notation rmin := (jmin_recv (js m) (je m) ng xg (nx2 m) jo bs lst).
Notation rmax := (jmax_recv (js m) (je m) ng xg (nx2 m) jo bs lst).
Notation smin := (jmin_send (js m) (je m) ng xg (nx2 m) jo bs lst).
Notation smax := (jmax_send (js m) (je m) ng xg (nx2 m) jo bs lst).
Notation inslot n x := (rmin n <= rmax n /\ rmin n <= x - xg <= rmax n + 1)%Z.

Lemma face_step arr n : (0 <= n <= lst)%Z -> exists arr', slot_face m flux upper joverlap Ng bs src b (Some arr) n = Some arr' /\
  (forall x, inslot n x -> arr' x = g (place m upper joverlap Ngrids b x)) /\ (forall x, ~ inslot n x -> arr' x = arr x).
Proof using Hng Hnx Hj Hb Hg Hsrc Hbs.
  intros Hn. destruct (counts m flux upper joverlap bs n Hn) as (C1 & C2). unfold slot_face.
  destruct (Z.leb_spec (rmax n - rmin n + 1) 0) as [L | L].
  - destruct (Z.leb_spec (smax n - smin n + 1) 0) as [L' | L']; [ | lia]. exists arr. split; [reflexivity | split; intros; [lia | reflexivity]].
  - rewrite partner_back by exact Hb. rewrite Z.eqb_refl. cbn [andb]. destruct (Z.eqb_spec (smax n - smin n + 1) (rmax n - rmin n + 1)) as [E | E]; [ | lia].
    eexists. split; [reflexivity | ]. destruct (sent_active m flux upper joverlap Hng Hnx Hj bs Hbs n Hn ltac:(lia)) as (A1 & A2).
    set (s := partner (nblx2 m) b (- (Ng + bs + n))). assert (Hs : (0 <= s < nblx2 m)%Z) by (unfold s; rewrite partner_mod by lia; apply Z.mod_pos_bound; lia).
    assert (LD : Load upper joverlap (src s) (smin n) (smax n + 1) = map (src s) (upto (smin n - jo) (smax n + 1 - jo))).
    { unfold Load. unfold jo_of, num. destruct upper; f_equal; f_equal; lia. }
    rewrite LD. unfold Set_. split; intros x Hx.
    + replace ((rmin n + xg <=? x)%Z && (x <=? rmax n + 1 + xg)%Z)%bool with true by (symmetry; apply andb_true_iff; split; apply Z.leb_le; lia).
      replace (x - (rmin n + xg))%Z with ((x - xg + (bs + n) * nx2 m - jo) - (smin n - jo))%Z by lia. rewrite nth_upto by lia.
      pose proof (Hsrc s Hs (x - xg + (bs + n) * nx2 m - jo - js m)%Z ltac:(unfold je in *; lia)) as Q.
      replace (js m + (x - xg + (bs + n) * nx2 m - jo - js m))%Z with (x - xg + (bs + n) * nx2 m - jo)%Z in Q by lia. rewrite Q.
      unfold s. rewrite partner_mod by lia. rewrite (periodic_mod (nx2 m) (nblx2 m) g) by (try exact Hg; lia). f_equal. unfold place. lia.
    + replace ((rmin n + xg <=? x)%Z && (x <=? rmax n + 1 + xg)%Z)%bool with false; [reflexivity | ]. symmetry. apply andb_false_iff. destruct (Z.leb_spec (rmin n + xg) x); [right; apply Z.leb_gt; lia | left; reflexivity].
Qed.
Lemma fold_faces l arr : (forall n, In n l -> (0 <= n <= lst)%Z) -> exists arr', fold_left (slot_face m flux upper joverlap Ng bs src b) l (Some arr) = Some arr' /\
  (forall x, (exists n, In n l /\ inslot n x) \/ arr x = g (place m upper joverlap Ngrids b x) -> arr' x = g (place m upper joverlap Ngrids b x)).
Proof using Hng Hnx Hj Hb Hg Hsrc Hbs.
  revert arr. induction l as [ | n l IH]; intros arr Hl; cbn [fold_left].
  - exists arr. split; [reflexivity | ]. intros x [(n & [] & _) | H]; exact H.
  - destruct (face_step arr n (Hl n (or_introl eq_refl))) as (arr1 & E & In1 & Out1). rewrite E. destruct (IH arr1 (fun k H => Hl k (or_intror H))) as (arr2 & E2 & H2).
    exists arr2. split; [exact E2 | ]. intros x H. apply H2. destruct H as [(k & [<- | Hk] & Hx) | H].
    + right. apply In1. exact Hx.
    + left. exists k. split; assumption.
    + right. destruct (Z_le_dec (rmin n) (rmax n)); [destruct (Z_le_dec (rmin n) (x - xg)); [destruct (Z_le_dec (x - xg) (rmax n + 1)) | ] | ]; [apply In1; lia | | | ]; rewrite Out1 by lia; exact H.
Qed.
Lemma covered_faces x : (js m - ng <= x <= je m + ng + 2 + 2 * xg)%Z -> exists n, (0 <= n <= lst)%Z /\ inslot n x.
Proof using Hng Hnx Hj Hbs.
  intros Hx. assert (G : (0 <= ng)%Z) by (pose proof (xg_pos (ppm m)); destruct flux; lia). assert (C : (x <= je m + ng + 1 + 2 * xg \/ x = je m + ng + 2 + 2 * xg)%Z) by lia. destruct C as [C | ->].
  - destruct (covered m flux upper joverlap Hng Hnx Hj bs Hbs x ltac:(lia)) as (n & Hn & Hr). exists n. split; [exact Hn | lia].
  - destruct (covered m flux upper joverlap Hng Hnx Hj bs Hbs (je m + ng + 1 + 2 * xg)%Z ltac:(pose proof (xg_pos (ppm m)); unfold je; lia)) as (n & Hn & Hr). exists n. split; [exact Hn | lia].
Qed.
End Faces.

Lemma exchange_face_value m flux upper yshear src old b g joverlap Ngrids eps :
  (xgh (ppm m) <= NGHOST m)%Z -> (NGHOST m + xgh (ppm m) <= nx2 m)%Z -> (0 <= b < nblx2 m)%Z ->
  periodic (nblx2 m * nx2 m) g -> (forall s, (0 <= s < nblx2 m)%Z -> holds_faces (nx2 m) (js m) (src s) s g) ->
  amount m yshear = (joverlap, Ngrids, eps) -> (0 <= joverlap < nx2 m)%Z ->
  exists arr, exchange_face m flux upper yshear src old b = Some arr /\
    forall x, (js m - (if flux then 0 else NGHOST m) <= x <= je m + (if flux then 0 else NGHOST m) + 2 + 2 * xgh (ppm m))%Z -> arr x = g (place m upper joverlap Ngrids b x).
Proof.
  intros A B Hb Hg Hs Am Hj. unfold exchange_face. rewrite Am. destruct (bshift_some m flux upper joverlap A B Hj) as (bs & E). rewrite E.
  destruct (fold_faces m flux upper joverlap Ngrids src g b A B Hj Hb Hg Hs bs E _ old (slots_ok flux)) as (arr & E2 & H). exists arr. split; [exact E2 | ].
  intros x Hx. apply H. left. destruct (covered_faces m flux upper joverlap A B Hj bs E x Hx) as (n & Hn & Hr). exists n. split; [apply slots_all; exact Hn | exact Hr].
Qed.

(** The remap of any array that holds the line g. *)
Lemma remap_at m upper yshear arr b g j : (0 < nx2 m)%Z -> (0 < nblx2 m)%Z -> 0 < x2size m -> 0 <= yshear -> periodic (nblx2 m * nx2 m) g ->
  (forall joverlap Ngrids eps, amount m yshear = (joverlap, Ngrids, eps) -> forall x, (j <= x <= j + 1 + 2 * xgh (ppm m))%Z -> arr x = g (place m upper joverlap Ngrids b x)) ->
  remapped m upper (snd (amount m yshear)) arr j = displaced (reconstructed (ppm m) g) ((if upper then -1 else 1) * (yshear / dx m)) (b * nx2 m + (j - js m))%Z.
Proof.
  intros Hn Hb Hx Hy Hg V0. pose proof (xg_pos (ppm m)) as X.
  destruct (amount_value m yshear Hn Hb Hx Hy) as (k & J & eps & Am & J0 & E0 & Y & D).
  pose proof (Z.mod_pos_bound J (nx2 m) Hn) as Mb. pose proof (Z.div_mod J (nx2 m) ltac:(lia)) as Dm.
  pose proof (V0 _ _ _ Am) as V. rewrite Am. cbn [snd]. set (N := (nblx2 m * nx2 m)%Z) in *. set (x := (b * nx2 m + (j - js m))%Z). unfold remapped. rewrite Y. clear Y V0.
  destruct upper; cbn [num].
  - assert (P : forall y, place m true (J mod nx2 m) (J / nx2 m) b y = (x + (y - xgh (ppm m)) - j + J)%Z) by (intros y; unfold place, jo_of, Ng_of, num, x; lia).
    replace (1 - IZR 1) with 0 by lra. replace ((1 - 2 * IZR 1) * eps) with (- eps) by lra.
    rewrite (flux_local (ppm m) arr g (j + 1 + xgh (ppm m))%Z (x + J + 1)%Z) by (intros d Hd; rewrite V by lia; rewrite P; f_equal; lia).
    rewrite (flux_local (ppm m) arr g (j + xgh (ppm m))%Z (x + J)%Z) by (intros d Hd; rewrite V by lia; rewrite P; f_equal; lia).
    rewrite V by lia. rewrite P. rewrite !flux_left. rewrite Ropp_involutive.
    rewrite (displaced_at _ _ x (x + J + k * N)%Z eps) by (rewrite ?plus_IZR; lra).
    replace (x + J + k * N + 1)%Z with (x + J + 1 + k * N)%Z by lia. rewrite !(profile_mul _ N g Hg). rewrite profile_one. replace (x + (j + (xgh (ppm m) + 1 - 1) - xgh (ppm m)) - j + J)%Z with (x + J)%Z by lia. ring.
  - assert (P : forall y, place m false (J mod nx2 m) (J / nx2 m) b y = (x + (y - xgh (ppm m)) - j - 1 - J)%Z) by (intros y; unfold place, jo_of, Ng_of, num, x; lia).
    replace (1 - IZR 0) with 1 by lra. replace ((1 - 2 * IZR 0) * eps) with eps by lra.
    rewrite (flux_local (ppm m) arr g (j + 1 + xgh (ppm m))%Z (x - J)%Z) by (intros d Hd; rewrite V by lia; rewrite P; f_equal; lia).
    rewrite (flux_local (ppm m) arr g (j + xgh (ppm m))%Z (x - J - 1)%Z) by (intros d Hd; rewrite V by lia; rewrite P; f_equal; lia).
    rewrite V by lia. rewrite P. rewrite !flux_right. replace (x + (j + (xgh (ppm m) + 1 - 0) - xgh (ppm m)) - j - 1 - J)%Z with (x - J)%Z by lia.
    destruct (Req_EM_T eps 0) as [E | E].
    + rewrite (displaced_at _ _ x (x - J + (- k) * N)%Z 0) by (rewrite ?plus_IZR, ?minus_IZR, ?mult_IZR, ?opp_IZR; lra). rewrite E, Rminus_0_r.
      rewrite !profile_zero. rewrite (profile_mul _ N g Hg). rewrite !profile_one. ring.
    + rewrite (displaced_at _ _ x (x - J - 1 + (- k) * N)%Z (1 - eps)) by (rewrite ?plus_IZR, ?minus_IZR, ?mult_IZR, ?opp_IZR; lra).
      replace (x - J - 1 + - k * N + 1)%Z with (x - J + (- k) * N)%Z by lia. rewrite !(profile_mul _ N g Hg). rewrite !profile_one. ring.
Qed.
Lemma face_remap m flux upper yshear src old b g :
  (xgh (ppm m) <= NGHOST m)%Z -> (NGHOST m + xgh (ppm m) <= nx2 m)%Z -> (0 <= b < nblx2 m)%Z -> 0 < x2size m -> 0 <= yshear ->
  periodic (nblx2 m * nx2 m) g -> (forall s, (0 <= s < nblx2 m)%Z -> holds_faces (nx2 m) (js m) (src s) s g) ->
  exists arr, exchange_face m flux upper yshear src old b = Some arr /\
    forall j, (js m - (if flux then 0 else NGHOST m) <= j <= je m + (if flux then 0 else NGHOST m) + 1)%Z ->
      remapped m upper (snd (amount m yshear)) arr j = displaced (reconstructed (ppm m) g) ((if upper then -1 else 1) * (yshear / dx m)) (b * nx2 m + (j - js m))%Z.
Proof.
  intros A B Hb Hx Hy Hg Hs. pose proof (xg_pos (ppm m)) as X.
  destruct (amount_value m yshear ltac:(lia) ltac:(lia) Hx Hy) as (k & J & eps & Am & J0 & E0 & Y & D).
  pose proof (Z.mod_pos_bound J (nx2 m) ltac:(lia)) as Mb.
  destruct (exchange_face_value m flux upper yshear src old b g _ _ _ A B Hb Hg Hs Am Mb) as (arr & Ex & V). exists arr. split; [exact Ex | ].
  intros j Hj. apply remap_at; try assumption; try lia. intros jv Nv ev Am2 x Hx2. rewrite Am in Am2. injection Am2 as <- <- <-. apply V. lia.
Qed.
