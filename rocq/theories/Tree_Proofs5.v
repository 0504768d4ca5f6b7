(** The neighbour relation without poles; balance. *)
From Coq Require Import List Arith ZArith Bool Lia.
From Verif Require Import Loc AMR_Spec AMR_Proofs AMR_Proofs2 Tree_Model Tree_Spec Tree_Proofs1 Tree_Proofs2 Tree_Proofs3 Tree_Proofs4.
Import ListNotations.
Local Open Scope nat_scope.

Section Balance.
Variable g : grid.
Hypothesis Vg : valid_grid g.
Hypothesis NP : no_pole g.

(** m is the neighbour of l at offset o *)
Definition nb (l : loc) (o : nat -> Z) (m : loc) : Prop := level m = level l /\
  forall d, d < 3 -> In (o d) (offs g d) /\ wrap_per g d (nmax g d (level l)) (coord d l + o d) = Some (coord d m).
Definition off3 (o1 o2 o3 : Z) : nat -> Z := fun d => match d with 0 => o1 | 1 => o2 | _ => o3 end.

Lemma polar_false : is_polar (gbc g 1 false) = false /\ is_polar (gbc g 1 true) = false.
Proof. destruct NP as [H1 H2]. destruct (gbc g 1 false), (gbc g 1 true); split; reflexivity || contradiction. Qed.
Lemma wrap2_no_pole : forall n x, wrap2 g n x = match wrap_per g 1 n x with Some y => Some (y, false) | None => None end.
Proof.
  intros n x. unfold wrap2, wrap_per. destruct polar_false as [-> ->]. destruct (Z.ltb x 0).
  - destruct (is_per (gbc g 1 false)); [|reflexivity]. destruct (Z.leb n (n - 1)); [|reflexivity]. destruct (is_per (gbc g 1 true)); reflexivity.
  - destruct (Z.leb n x); [|reflexivity]. destruct (is_per (gbc g 1 true)); reflexivity.
Qed.
Lemma rows_spec : forall l oz oys z m, In m (rows g l oz z oys) <->
  exists oy y, In oy oys /\ wrap_per g 1 (nmax g 1 (level l)) (lx2 l + oy) = Some y /\ In m (row g l y z (Z.eqb oy 0 && Z.eqb oz 0)).
Proof.
  intros l oz. induction oys as [|oy oys IH]; intros z m.
  - split; [intros []|intros (oy & y & [] & _)].
  - cbn [rows]. rewrite wrap2_no_pole. destruct (wrap_per g 1 (nmax g 1 (level l)) (lx2 l + oy)) as [y|] eqn:E.
    + cbn zeta beta iota. rewrite in_app_iff, IH. split.
      * intros [H|(oy' & y' & H1 & H2 & H3)]; [exists oy, y; split; [left; reflexivity|split; assumption]|exists oy', y'; split; [right; exact H1|split; assumption]].
      * intros (oy' & y' & [<-|H1] & H2 & H3); [left; rewrite E in H2; injection H2 as <-; exact H3|right; exists oy', y'; repeat split; assumption].
    + rewrite IH. split.
      * intros (oy' & y' & H1 & H2 & H3). exists oy', y'. split; [right; exact H1|split; assumption].
      * intros (oy' & y' & [<-|H1] & H2 & H3); [congruence|exists oy', y'; repeat split; assumption].
Qed.
Lemma nlocs_spec : forall l m, In m (nlocs g l) <-> exists o, nb l o m /\ exists d, d < 3 /\ o d <> 0%Z.
Proof.
  intros l m. unfold nlocs. rewrite in_flat_map. split.
  - intros (oz & Hoz & H). destruct (wrap_per g 2 (nmax g 2 (level l)) (lx3 l + oz)) as [z|] eqn:E; [|destruct H].
    apply rows_spec in H as (oy & y & Hoy & Ey & H). apply row_spec in H as (Hl & Hy & Hz & ox & Hox & Ex & Hc).
    exists (off3 ox oy oz). split.
    + split; [exact Hl|]. intros d Hd. destruct d as [|[|d]]; cbn [off3 coord]; [split; assumption|split; [assumption|congruence]|].
      assert (d = 0) by lia. subst d. split; [assumption|congruence].
    + destruct (Z.eqb_spec oy 0) as [->|Hy0]; [|exists 1; split; [lia|exact Hy0]]. destruct (Z.eqb_spec oz 0) as [->|Hz0]; [|exists 2; split; [lia|exact Hz0]].
      exists 0. split; [lia|]. apply Hc. reflexivity.
  - intros (o & (Hl & H) & d & Hd & Ho). destruct (H 0 ltac:(lia)) as [O0 W0]. destruct (H 1 ltac:(lia)) as [O1 W1]. destruct (H 2 ltac:(lia)) as [O2 W2]. cbn [coord] in *.
    exists (o 2). split; [exact O2|]. rewrite W2. apply rows_spec. exists (o 1), (lx2 m). split; [exact O1|]. split; [exact W1|].
    apply row_spec. split; [exact Hl|]. split; [reflexivity|]. split; [reflexivity|]. exists (o 0). split; [exact O0|]. split; [exact W0|].
    intros Hc. apply andb_prop in Hc as [Hc1 Hc2]. apply Z.eqb_eq in Hc1, Hc2. destruct d as [|[|[|d]]]; try contradiction; [exact Ho|lia].
Qed.
Lemma coord_eq : forall a b, level a = level b -> (forall d, d < 3 -> coord d a = coord d b) -> a = b.
Proof. intros [v a b c] [v' a' b' c'] H Hc. cbn [level] in H. pose proof (Hc 0 ltac:(lia)). pose proof (Hc 1 ltac:(lia)). pose proof (Hc 2 ltac:(lia)). cbn [coord lx1 lx2 lx3] in *. congruence. Qed.
Lemma dom_inr : forall x d, groot g <= level x -> in_domain g x -> d < 3 -> inr g (level x) d (coord d x).
Proof. intros x d Hr H Hd. apply (inr_domain g x Hr) in H as (H0 & H1 & H2). destruct d as [|[|[|d]]]; try assumption. lia. Qed.
Lemma inr_dom : forall x, groot g <= level x -> (forall d, d < 3 -> inr g (level x) d (coord d x)) -> in_domain g x.
Proof. intros x Hr H. apply (inr_domain g x Hr). split; [apply (H 0)|split; [apply (H 1)|apply (H 2)]]; lia. Qed.
Lemma wrap_in : forall d n x, (0 <= x < n)%Z -> wrap_per g d n x = Some x.
Proof. intros d n x H. unfold wrap_per. destruct (Z.ltb_spec x 0); [lia|]. destruct (Z.leb_spec n x); [lia|]. reflexivity. Qed.
Lemma offs0 : forall d, In 0%Z (offs g d).
Proof. intros d. unfold offs. destruct (Nat.ltb d (gdim g)); cbn; auto. Qed.
Lemma nb_zero : forall l o m, in_domain g l -> groot g <= level l -> (forall d, d < 3 -> o d = 0%Z) -> nb l o m -> m = l.
Proof.
  intros l o m Hl Hr Ho [Hv H]. apply coord_eq; [exact Hv|]. intros d Hd. destruct (H d Hd) as [_ E]. rewrite (Ho d Hd), Z.add_0_r in E.
  rewrite wrap_in in E by (apply dom_inr; assumption). congruence.
Qed.
Lemma nb_self : forall l, in_domain g l -> groot g <= level l -> nb l (fun _ => 0%Z) l.
Proof. intros l Hl Hr. split; [reflexivity|]. intros d Hd. split; [apply offs0|]. rewrite Z.add_0_r. apply wrap_in. apply dom_inr; assumption. Qed.
Lemma nb_dom : forall l o m, in_domain g l -> groot g <= level l -> nb l o m -> in_domain g m.
Proof.
  intros l o m Hl Hr [Hv H]. apply inr_dom; [lia|]. intros d Hd. destruct (H d Hd) as [Ho E]. rewrite Hv. apply (wrap_per_range g Vg d (level l) (coord d l) (o d)); [exact Hd|apply dom_inr; assumption| |exact E].
  apply offs_range in Ho. exact Ho.
Qed.
Lemma nb_cases : forall l o m, in_domain g l -> groot g <= level l -> nb l o m -> m = l \/ In m (nlocs g l).
Proof.
  intros l o m Hl Hr H. destruct (Z.eq_dec (o 0) 0) as [E0|E0]; [|right; apply nlocs_spec; exists o; split; [exact H|exists 0; split; [lia|exact E0]]].
  destruct (Z.eq_dec (o 1) 0) as [E1|E1]; [|right; apply nlocs_spec; exists o; split; [exact H|exists 1; split; [lia|exact E1]]].
  destruct (Z.eq_dec (o 2) 0) as [E2|E2]; [|right; apply nlocs_spec; exists o; split; [exact H|exists 2; split; [lia|exact E2]]].
  left. apply (nb_zero l o m); try assumption. intros d Hd. destruct d as [|[|[|d]]]; try assumption. lia.
Qed.

(** ** Parents of neighbours *)
Definition poff (x o : Z) : Z := ((x + o) / 2 - x / 2)%Z.
Lemma poff_cases : forall x o, (-1 <= o <= 1)%Z -> (poff x o = 0 \/ (poff x o = -1 /\ x + o = 2 * (x / 2 - 1) + 1) \/ (poff x o = 1 /\ x + o = 2 * (x / 2 + 1)))%Z.
Proof.
  intros x o Ho. unfold poff. pose proof (Z.div_mod x 2 ltac:(lia)). pose proof (Z.mod_pos_bound x 2 ltac:(lia)).
  pose proof (Z.div_mod (x + o) 2 ltac:(lia)). pose proof (Z.mod_pos_bound (x + o) 2 ltac:(lia)). lia.
Qed.
Lemma nmax_S : forall d lev, groot g <= lev -> d < gdim g -> nmax g d (S lev) = (2 * nmax g d lev)%Z.
Proof.
  intros d lev Hr Hd. unfold nmax. rewrite (proj2 (Nat.ltb_lt _ _) Hd). replace (S lev - groot g) with (S (lev - groot g)) by lia. rewrite pow2_S. lia.
Qed.
Lemma wrap_parent : forall d n x o y, (1 <= n)%Z -> (0 <= x < 2 * n)%Z -> (-1 <= o <= 1)%Z -> wrap_per g d (2 * n) (x + o) = Some y ->
  wrap_per g d n (x / 2 + poff x o) = Some (y / 2)%Z /\
  (poff x o = -1 -> y = 2 * (y / 2) + 1)%Z /\ (poff x o = 1 -> y = 2 * (y / 2))%Z.
Proof.
  intros d n x o y Hn Hx Ho H. replace (x / 2 + poff x o)%Z with ((x + o) / 2)%Z by (unfold poff; lia).
  pose proof (poff_cases x o Ho) as Hp. unfold wrap_per in H |- *.
  pose proof (Z.div_mod (x + o) 2 ltac:(lia)) as E1. pose proof (Z.mod_pos_bound (x + o) 2 ltac:(lia)) as E2.
  destruct (Z.ltb_spec (x + o) 0) as [H0|H0].
  - destruct (Z.ltb_spec ((x + o) / 2) 0) as [H1|H1]; [|lia]. destruct (is_per (gbc g d false)); [|discriminate H].
    destruct (Z.leb_spec (2 * n) (2 * n - 1)); [lia|]. destruct (Z.leb_spec n (n - 1)); [lia|]. assert (Ey : y = (2 * n - 1)%Z) by congruence. clear H.
    assert (E : (y / 2 = n - 1)%Z) by (symmetry; apply (Z.div_unique _ _ _ 1); lia). rewrite E. repeat split; lia.
  - destruct (Z.ltb_spec ((x + o) / 2) 0) as [H1|H1]; [lia|]. destruct (Z.leb_spec (2 * n) (x + o)) as [H2|H2].
    + destruct (Z.leb_spec n ((x + o) / 2)); [|lia]. destruct (is_per (gbc g d true)); [|discriminate H]. injection H as <-. change (0 / 2)%Z with 0%Z. repeat split; lia.
    + destruct (Z.leb_spec n ((x + o) / 2)); [lia|]. injection H as <-. repeat split; lia.
Qed.
Lemma poff_offs : forall d x o, In o (offs g d) -> (gdim g <= d -> x = 0%Z) -> In (poff x o) (offs g d).
Proof.
  intros d x o Ho Hx. unfold offs in *. destruct (Nat.ltb_spec d (gdim g)) as [Hd|Hd].
  - assert (Hr : (-1 <= o <= 1)%Z) by (cbn in Ho; lia). destruct (poff_cases x o Hr) as [->|[[-> _]|[-> _]]]; cbn; auto.
  - rewrite (Hx Hd). destruct Ho as [<-|[]]. left. reflexivity.
Qed.
Lemma nb_parent : forall l o m, in_domain g l -> groot g < level l -> nb l o m -> nb (anc 1 l) (fun d => poff (coord d l) (o d)) (anc 1 m) /\
  forall d, d < 3 -> (poff (coord d l) (o d) = -1 -> coord d m = 2 * (coord d m / 2) + 1)%Z /\ (poff (coord d l) (o d) = 1 -> coord d m = 2 * (coord d m / 2))%Z.
Proof.
  intros l o m Hl Hr [Hv H].
  assert (G : forall d, d < 3 -> In (poff (coord d l) (o d)) (offs g d) /\ wrap_per g d (nmax g d (level l - 1)) (coord d l / 2 + poff (coord d l) (o d)) = Some (coord d m / 2)%Z /\
    (poff (coord d l) (o d) = -1 -> coord d m = 2 * (coord d m / 2) + 1)%Z /\ (poff (coord d l) (o d) = 1 -> coord d m = 2 * (coord d m / 2))%Z).
  { intros d Hd. destruct (H d Hd) as [Ho E]. pose proof (dom_inr l d ltac:(lia) Hl Hd) as Hi. unfold inr in Hi. split.
    - apply poff_offs; [exact Ho|]. apply Hl. exact Hd.
    - destruct (Nat.lt_ge_cases d (gdim g)) as [Hdd|Hdd].
      + replace (level l) with (S (level l - 1)) in E, Hi by lia. rewrite nmax_S in E, Hi by (lia || exact Hdd).
        apply wrap_parent; [apply nmax_pos; assumption|exact Hi|apply offs_range in Ho; exact Ho|exact E].
      + unfold nmax, offs in *. rewrite (proj2 (Nat.ltb_ge _ _) Hdd) in *. assert (Ex : coord d l = 0%Z) by lia. destruct Ho as [Ho|[]]. rewrite <- Ho in E |- *. rewrite Ex in E |- *. change (0 + 0)%Z with 0%Z in *.
        rewrite wrap_in in E by lia. injection E as E. rewrite <- E. change (poff 0 0) with 0%Z. change (0 / 2 + 0)%Z with 0%Z. rewrite wrap_in by lia. repeat split; lia. }
  split; [split; [cbn [anc level]; lia|]|].
  - intros d Hd. destruct (G d Hd) as (G1 & G2 & _). split; [exact G1|]. rewrite !coord_anc. change (2 ^ Z.of_nat 1)%Z with 2%Z. exact G2.
  - intros d Hd. destruct (G d Hd) as (_ & _ & G3). exact G3.
Qed.
(** the neighbour relation is symmetric *)
Lemma nb_sym : forall l o m, in_domain g l -> groot g <= level l -> nb l o m -> nb m (fun d => (- o d)%Z) l.
Proof.
  intros l o m Hl Hr [Hv H]. split; [lia|]. intros d Hd. destruct (H d Hd) as [Ho E]. pose proof (dom_inr l d Hr Hl Hd) as Hi. unfold inr in Hi. rewrite Hv.
  split; [unfold offs in *; destruct (Nat.ltb d (gdim g)); cbn in *; lia|]. pose proof (nmax_pos g Vg d (level l) Hd) as Hn.
  assert (Hp : is_per (gbc g d false) = is_per (gbc g d true) \/ gdim g <= d).
  { destruct (Nat.lt_ge_cases d (gdim g)) as [Hdd|Hdd]; [left|right; exact Hdd]. destruct Vg as (_ & _ & _ & Hper). specialize (Hper d Hdd).
    destruct (gbc g d false), (gbc g d true); try reflexivity; cbn; exfalso; destruct Hper as [P1 P2]; try discriminate (P1 eq_refl); discriminate (P2 eq_refl). }
  pose proof (offs_range g d (o d) Ho) as Hor. unfold wrap_per in E |- *. destruct Hp as [Hp|Hp].
  - rewrite Hp in *. destruct (Z.ltb_spec (coord d l + o d) 0) as [H0|H0].
    + destruct (is_per (gbc g d true)); [|discriminate E]. destruct (Z.leb_spec (nmax g d (level l)) (nmax g d (level l) - 1)); [lia|]. injection E as E. rewrite <- E.
      destruct (Z.ltb_spec (nmax g d (level l) - 1 + - o d) 0); [lia|]. destruct (Z.leb_spec (nmax g d (level l)) (nmax g d (level l) - 1 + - o d)); [|lia]. f_equal. lia.
    + destruct (Z.leb_spec (nmax g d (level l)) (coord d l + o d)).
      * destruct (is_per (gbc g d true)); [|discriminate E]. injection E as E. rewrite <- E. destruct (Z.ltb_spec (0 + - o d) 0); [|lia].
        destruct (Z.leb_spec (nmax g d (level l)) (nmax g d (level l) - 1)); [lia|]. f_equal. lia.
      * injection E as E. rewrite <- E. destruct (Z.ltb_spec (coord d l + o d + - o d) 0); [lia|]. destruct (Z.leb_spec (nmax g d (level l)) (coord d l + o d + - o d)); [lia|]. f_equal. lia.
  - unfold offs in Ho. rewrite (proj2 (Nat.ltb_ge _ _) Hp) in Ho. destruct Ho as [E0|[]]. rewrite <- E0 in E |- *. rewrite Z.add_0_r in E.
    destruct (Z.ltb_spec (coord d l) 0); [lia|]. destruct (Z.leb_spec (nmax g d (level l)) (coord d l)); [lia|]. injection E as E. rewrite <- E.
    change (- 0)%Z with 0%Z. rewrite Z.add_0_r. destruct (Z.ltb_spec (coord d l) 0); [lia|]. destruct (Z.leb_spec (nmax g d (level l)) (coord d l)); [lia|]. reflexivity.
Qed.

(** ** The balance invariant and what it means *)
Definition B (t : tree) : Prop := forall x m, canon x -> K t x = KNode -> groot g <= level x -> In m (nlocs g x) -> K t m <> KNull.
Lemma newbal_B : forall t t', wf g t -> wf g t' -> ext t t' -> newbal g t t' -> B t -> B t'.
Proof.
  intros t t' W W' He Hb HB x m Hx Hk Hr Hm. destruct (Hb x Hx Hk) as [H|[_ H]]; [|apply H, Hm].
  apply He; [|apply (HB x); assumption]. apply (dom_canon g Vg). apply (nlocs_dom g Vg x m); [|exact Hr|exact Hm]. apply (wf_dom g t' W'); [exact Hx|congruence].
Qed.
Lemma B_nb : forall t l o m, wf g t -> B t -> canon l -> K t l = KNode -> groot g <= level l -> nb l o m -> K t m <> KNull.
Proof.
  intros t l o m W HB Hl Hk Hr H. assert (Dl : in_domain g l) by (apply (wf_dom g t W); [exact Hl|congruence]).
  destruct (nb_cases l o m Dl Hr H) as [->|Hin]; [congruence|]. apply (HB l m); assumption.
Qed.
(** parents of the neighbours of an existing node exist *)
Lemma B_parent : forall t l o m, wf g t -> B t -> canon l -> K t l <> KNull -> groot g < level l -> nb l o m -> K t (anc 1 m) <> KNull.
Proof.
  intros t l o m W HB Hl Hk Hr H. assert (Dl : in_domain g l) by (apply (wf_dom g t W); assumption).
  apply (B_nb t (anc 1 l) (fun d => poff (coord d l) (o d))); [exact W|exact HB|apply canon_anc; [exact Hl|lia]|apply K_parent; [lia|exact Hk]|cbn [anc level]; lia|].
  apply nb_parent; assumption.
Qed.
Lemma touch_dim : forall N A b Y s k, (0 < 2 ^ k)%Z -> (s = 0 \/ s = N * 2 ^ k \/ s = - (N * 2 ^ k))%Z -> (Y * 2 ^ k <= b /\ b + 1 <= (Y + 1) * 2 ^ k)%Z ->
  (2 * A * 2 ^ k <= b + 1 + s)%Z -> (b + s <= (2 * A + 2) * 2 ^ k)%Z ->
  exists s', ((s' = 0 /\ s = 0) \/ (s' = N /\ s = N * 2 ^ k) \/ (s' = - N /\ s = - (N * 2 ^ k)))%Z /\ (2 * A <= Y + 1 + s' /\ Y + s' <= 2 * A + 2)%Z.
Proof.
  intros N A b Y s k Hk Hs HY H1 H2. set (P := (2 ^ k)%Z) in *. clearbody P. destruct Hs as [->|[->| ->]].
  - exists 0%Z. split; [left; split; reflexivity|]. split; nia.
  - exists N. split; [right; left; split; reflexivity|]. split; nia.
  - exists (- N)%Z. split; [right; right; split; reflexivity|]. split; nia.
Qed.
(** A leaf touching a much finer leaf would contain a neighbour of an internal node. *)
Lemma touch_coarse : forall t a b za, wf g t -> B t -> canon a -> canon b -> K t a = KLeaf za -> K t b <> KNull -> groot g <= level a -> level a + 2 <= level b -> touch g a b -> False.
Proof.
  intros t a b za W HB Ca Cb Ka Kb Ha Hlev T. set (v := level a + 1). set (y := ancl v b). set (k := level b - v).
  assert (Db : in_domain g b) by (apply (wf_dom g t W); assumption).
  assert (Da : in_domain g a) by (apply (wf_dom g t W); [assumption|congruence]).
  assert (Ey : y = anc k b) by (apply ancl_anc; unfold v; lia).
  assert (Hvy : level y = v) by reflexivity.
  assert (Ky : K t y = KNode) by (rewrite Ey; apply K_anc; [unfold k; lia|unfold k, v; lia|exact Kb]).
  assert (Dy : in_domain g y) by (rewrite Ey; apply dom_anc; [exact Db|unfold k; lia]).
  assert (Cy : canon y) by (apply (dom_canon g Vg), Dy).
  pose proof (pow2_pos k) as Hkp.
  (* the offset towards a, direction by direction *)
  assert (G : forall d, d < 3 -> exists o y', In o (offs g d) /\ wrap_per g d (nmax g d v) (coord d y + o) = Some y' /\ (2 * coord d a <= y' <= 2 * coord d a + 1)%Z /\ (gdim g <= d -> y' = 0%Z)).
  { intros d Hd. destruct (Nat.lt_ge_cases d (gdim g)) as [Hdd|Hdd].
    2:{ exists 0%Z, 0%Z. split; [apply offs0|]. assert (E : coord d y = 0%Z) by (apply Dy; assumption). assert (E2 : coord d a = 0%Z) by (apply Da; assumption). rewrite E, E2. split; [apply wrap_in; unfold nmax; rewrite (proj2 (Nat.ltb_ge _ _) Hdd); lia|lia]. }
    destruct (T d Hdd) as (s & Hs & T1 & T2).
    pose proof (dom_inr y d ltac:(rewrite Hvy; unfold v; lia) Dy Hd) as Hy. pose proof (dom_inr a d Ha Da Hd) as Hai. unfold inr in Hy, Hai. rewrite Hvy in Hy.
    assert (EN : nmax g d v = (2 * nmax g d (level a))%Z) by (unfold v; rewrite Nat.add_1_r; apply nmax_S; assumption).
    assert (EY : coord d y = (coord d b / 2 ^ Z.of_nat k)%Z) by (rewrite Ey; apply coord_anc).
    pose proof (Z.div_mod (coord d b) (2 ^ Z.of_nat k) ltac:(lia)) as Ed. pose proof (Z.mod_pos_bound (coord d b) (2 ^ Z.of_nat k) ltac:(lia)) as Em. rewrite <- EY in Ed.
    (* divide by 2^level a *)
    set (P := (2 ^ Z.of_nat (level a))%Z) in *. assert (HP : (0 < P)%Z) by apply pow2_pos.
    assert (E1 : (2 ^ Z.of_nat (level b) = 2 * 2 ^ Z.of_nat k * P)%Z).
    { unfold P. rewrite <- (Z.pow_1_r 2) at 2. rewrite <- !Z.pow_add_r by lia. f_equal. unfold k, v. lia. }
    assert (E2 : (gnrb g d * 2 ^ Z.of_nat (level a + level b - groot g) = nmax g d v * 2 ^ Z.of_nat k * P)%Z).
    { unfold P, nmax. rewrite (proj2 (Nat.ltb_lt _ _) Hdd). rewrite <- !Z.mul_assoc, <- !Z.pow_add_r by lia. f_equal. f_equal. unfold k, v. lia. }
    rewrite E1 in T1, T2. unfold period_shift in Hs. rewrite E2 in Hs.
    assert (Hs' : exists s0, (s = s0 * P)%Z /\ (s0 = 0 \/ (gbc g d false = BPeriodic /\ gbc g d true = BPeriodic /\ (s0 = nmax g d v * 2 ^ Z.of_nat k \/ s0 = - (nmax g d v * 2 ^ Z.of_nat k))))%Z).
    { destruct Hs as [->|(P1 & P2 & [->| ->])]; [exists 0%Z; split; [lia|left; reflexivity]|exists (nmax g d v * 2 ^ Z.of_nat k)%Z; split; [lia|right; auto]|exists (- (nmax g d v * 2 ^ Z.of_nat k))%Z; split; [lia|right; auto]]. }
    destruct Hs' as (s0 & -> & Hs0).
    assert (T1' : (2 * coord d a * 2 ^ Z.of_nat k <= coord d b + 1 + s0)%Z) by (apply (Z.mul_le_mono_pos_r _ _ P HP); lia).
    assert (T2' : (coord d b + s0 <= (2 * coord d a + 2) * 2 ^ Z.of_nat k)%Z) by (apply (Z.mul_le_mono_pos_r _ _ P HP); lia).
    destruct (touch_dim (nmax g d v) (coord d a) (coord d b) (coord d y) s0 (Z.of_nat k)) as (s' & Hs' & U1 & U2); [exact Hkp| |lia|exact T1'|exact T2'|].
    { destruct Hs0 as [->|(_ & _ & [->| ->])]; auto. }
    assert (Hs2 : (s' = 0 \/ (gbc g d false = BPeriodic /\ gbc g d true = BPeriodic /\ (s' = nmax g d v \/ s' = - nmax g d v)))%Z).
    { destruct Hs0 as [->|(P1 & P2 & Hs0)]; [|right; split; [exact P1|split; [exact P2|]]].
      - destruct Hs' as [[-> _]|[[-> E]|[-> E]]]; [left; reflexivity| |]; exfalso; pose proof (nmax_pos g Vg d v Hd); nia.
      - destruct Hs' as [[-> E]|[[-> _]|[-> _]]]; auto. exfalso. pose proof (nmax_pos g Vg d v Hd). destruct Hs0 as [->| ->]; nia. }
    clear Hs' Hs0 T1' T2' T1 T2 Hs E1 E2.
    (* choose the offset *)
    assert (Hsel : exists o, In o (offs g d) /\ (2 * coord d a <= coord d y + o + s' <= 2 * coord d a + 1)%Z).
    { unfold offs. rewrite (proj2 (Nat.ltb_lt _ _) Hdd). destruct (Z.lt_ge_cases (coord d y + s') (2 * coord d a)) as [L|L]; [exists 1%Z; split; [right; right; left; reflexivity|lia]|].
      destruct (Z.lt_ge_cases (2 * coord d a + 1) (coord d y + s')) as [L2|L2]; [exists (-1)%Z; split; [left; reflexivity|lia]|exists 0%Z; split; [right; left; reflexivity|lia]]. }
    destruct Hsel as (o & Ho & Hsel). exists o, (coord d y + o + s')%Z. split; [exact Ho|]. split; [|split; [exact Hsel|lia]].
    pose proof (offs_range g d o Ho) as Hor. unfold wrap_per. destruct Hs2 as [->|(P1 & P2 & [->| ->])].
    - rewrite Z.add_0_r in *. destruct (Z.ltb_spec (coord d y + o) 0); [lia|]. destruct (Z.leb_spec (nmax g d v) (coord d y + o)); [lia|]. reflexivity.
    - rewrite P1, P2. cbn [is_per]. destruct (Z.ltb_spec (coord d y + o) 0).
      + destruct (Z.leb_spec (nmax g d v) (nmax g d v - 1)); [lia|]. f_equal. lia.
      + destruct (Z.leb_spec (nmax g d v) (coord d y + o)); lia.
    - rewrite P1, P2. cbn [is_per]. destruct (Z.ltb_spec (coord d y + o) 0); [lia|].
      destruct (Z.leb_spec (nmax g d v) (coord d y + o)); [f_equal; lia|lia]. }
  destruct (G 0 ltac:(lia)) as (o0 & y0 & Go0 & Gw0 & Gr0 & _). destruct (G 1 ltac:(lia)) as (o1 & y1 & Go1 & Gw1 & Gr1 & Gz1). destruct (G 2 ltac:(lia)) as (o2 & y2 & Go2 & Gw2 & Gr2 & Gz2).
  set (m := mkLoc v y0 y1 y2).
  assert (Hnb : nb y (off3 o0 o1 o2) m).
  { split; [reflexivity|]. rewrite Hvy. intros d Hd. destruct d as [|[|[|d]]]; cbn [off3 coord m lx1 lx2 lx3]; try (split; assumption). lia. }
  assert (Km : K t m <> KNull) by (apply (B_nb t y (off3 o0 o1 o2)); try assumption; rewrite Hvy; unfold v; lia).
  assert (Em : anc 1 m = a).
  { apply coord_eq; [cbn [anc level m]; unfold v; lia|]. intros d Hd. rewrite coord_anc. change (2 ^ Z.of_nat 1)%Z with 2%Z.
    destruct d as [|[|[|d]]]; [| | |lia]; cbn [coord m lx1 lx2 lx3] in *; symmetry.
    - apply (Z.div_unique _ 2 _ (y0 - 2 * lx1 a)); lia.
    - apply (Z.div_unique _ 2 _ (y1 - 2 * lx2 a)); lia.
    - apply (Z.div_unique _ 2 _ (y2 - 2 * lx3 a)); lia. }
  assert (H : K t a = KNode) by (rewrite <- Em; apply K_parent; [cbn [m level]; unfold v; lia|exact Km]). congruence.
Qed.
Lemma touch_sym : forall a b, touch g a b -> touch g b a.
Proof.
  intros a b H d Hd. destruct (H d Hd) as (s & Hs & H1 & H2). exists (- s)%Z. rewrite (Nat.add_comm (level b)). split; [|split; lia].
  unfold period_shift in *. destruct Hs as [->|(P1 & P2 & [->| ->])]; [left; reflexivity|right; split; [exact P1|split; [exact P2|right; reflexivity]]|right; split; [exact P1|split; [exact P2|left; lia]]].
Qed.
Theorem B_balanced : forall t, wf g t -> B t -> balanced g (blocks t).
Proof.
  intros t W HB a b Ha Hb T. pose proof (wf_tiling g Vg t W) as (_ & Hdom & _). destruct (Hdom a Ha) as [_ La]. destruct (Hdom b Hb) as [_ Lb].
  apply (in_blocks g t a W) in Ha as (Ca & za & Ka). apply (in_blocks g t b W) in Hb as (Cb & zb & Kb).
  split.
  - destruct (Nat.le_gt_cases (level a) (level b + 1)) as [H|H]; [exact H|exfalso].
    apply (touch_coarse t b a zb); try assumption; [congruence|lia|apply touch_sym, T].
  - destruct (Nat.le_gt_cases (level b) (level a + 1)) as [H|H]; [exact H|exfalso].
    apply (touch_coarse t a b za); try assumption; [congruence|lia].
Qed.
Lemma root_B : B (CreateRootGrid g).
Proof.
  intros x m Hx Hk Hr Hm. assert (F : flat (gdim g) x) by (apply (root_flat g Vg); [exact Hx|congruence]). rewrite (root_K g Vg) in Hk by assumption.
  destruct (Nat.leb_spec (level x) (groot g)) as [Hl2|Hl2]; [|discriminate Hk]. destruct (condb g x); [|discriminate Hk].
  rewrite (proj2 (Nat.eqb_eq _ _)) in Hk by lia. discriminate Hk.
Qed.
End Balance.
