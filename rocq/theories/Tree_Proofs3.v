(** Neighbour lists of Refine, and Refine / AddMeshBlock as sequences of splits. *)
From Coq Require Import List Arith ZArith Bool Lia.
From Verif Require Import Loc AMR_Spec AMR_Proofs AMR_Proofs2 Tree_Model Tree_Spec Tree_Proofs1 Tree_Proofs2.
Import ListNotations.
Local Open Scope nat_scope.

Lemma foldo_app : forall {A S} (f : S -> A -> option S) l1 l2 s, foldo f s (l1 ++ l2) = match foldo f s l1 with None => None | Some s => foldo f s l2 end.
Proof. intros A S f. induction l1 as [|x l1 IH]; intros l2 s; [reflexivity|]. cbn [app foldo]. destruct (f s x); [apply IH|reflexivity]. Qed.

Lemma ancl_level : forall k m, level (ancl k m) = k.
Proof. reflexivity. Qed.
Lemma ancl_self : forall m, ancl (level m) m = m.
Proof. intros m. rewrite ancl_anc by lia. rewrite Nat.sub_diag. apply anc_0. Qed.
Lemma ancl_S : forall k m, k < level m -> anc 1 (ancl (S k) m) = ancl k m.
Proof. intros k m H. rewrite !ancl_anc, anc_anc by lia. f_equal. lia. Qed.

Section Refine.
Variable g : grid.
Hypothesis Vg : valid_grid g.
Definition inr (lev d : nat) (x : Z) : Prop := (0 <= x < nmax g d lev)%Z.
Lemma nmax_pos : forall d lev, d < 3 -> (1 <= nmax g d lev)%Z.
Proof.
  intros d lev Hd. unfold nmax. destruct (Nat.ltb_spec d (gdim g)); [|lia]. destruct Vg as (_ & Hn & _). specialize (Hn d Hd). pose proof (pow2_pos (lev - groot g)). nia.
Qed.
Lemma inr_domain : forall x, groot g <= level x -> (in_domain g x <-> inr (level x) 0 (lx1 x) /\ inr (level x) 1 (lx2 x) /\ inr (level x) 2 (lx3 x)).
Proof.
  intros x Hr.
  assert (H : forall d, d < 3 -> (inr (level x) d (coord d x) <-> (0 <= coord d x)%Z /\ (d < gdim g -> (coord d x * 2 ^ Z.of_nat (groot g) < gnrb g d * 2 ^ Z.of_nat (level x))%Z) /\
    (gdim g <= d -> coord d x = 0%Z))).
  { intros d Hd. unfold inr, nmax. pose proof (pow2_pos (groot g)) as Hp. assert (E : (2 ^ Z.of_nat (level x) = 2 ^ Z.of_nat (level x - groot g) * 2 ^ Z.of_nat (groot g))%Z).
    { rewrite <- Z.pow_add_r by lia. f_equal. lia. }
    rewrite E. destruct (Nat.ltb_spec d (gdim g)) as [Hdd|Hdd].
    - split; [intros [H0 H1]; split; [exact H0|split; [intros _; nia|lia]]|intros (H0 & H1 & _); specialize (H1 Hdd); split; [exact H0|nia]].
    - split; [intros [H0 H1]; split; [exact H0|split; lia]|intros (H0 & _ & H2); specialize (H2 Hdd); lia]. }
  split.
  - intros D. repeat split; (apply (H 0); [lia|apply D; lia]) || (apply (H 1); [lia|apply D; lia]) || (apply (H 2); [lia|apply D; lia]).
  - intros (A0 & A1 & A2) d Hd. destruct d as [|[|[|d]]]; [apply (H 0)|apply (H 1)|apply (H 2)|]; try lia; assumption.
Qed.
Lemma offs_range : forall d o, In o (offs g d) -> (-1 <= o <= 1)%Z.
Proof. intros d o H. unfold offs in H. destruct (Nat.ltb d (gdim g)); cbn in H; lia. Qed.
Lemma wrap_per_range : forall d lev x o y, d < 3 -> inr lev d x -> (-1 <= o <= 1)%Z -> wrap_per g d (nmax g d lev) (x + o) = Some y -> inr lev d y.
Proof.
  intros d lev x o y Hd Hx Ho H. unfold inr in *. pose proof (nmax_pos d lev Hd) as Hn. unfold wrap_per in H.
  destruct (Z.ltb_spec (x + o) 0) as [H0|H0].
  - destruct (is_per (gbc g d false)); [|discriminate H]. destruct (Z.leb_spec (nmax g d lev) (nmax g d lev - 1)); [lia|]. injection H as <-. lia.
  - destruct (Z.leb_spec (nmax g d lev) (x + o)); [|injection H as <-; lia]. destruct (is_per (gbc g d true)); [|discriminate H]. injection H as <-. lia.
Qed.
Lemma wrap2_range : forall lev x o y pol, inr lev 1 x -> (-1 <= o <= 1)%Z -> wrap2 g (nmax g 1 lev) (x + o) = Some (y, pol) -> inr lev 1 y.
Proof.
  intros lev x o y pol Hx Ho H. unfold inr in *. pose proof (nmax_pos 1 lev ltac:(lia)) as Hn. unfold wrap2 in H.
  destruct (Z.ltb_spec (x + o) 0) as [H0|H0].
  - destruct (is_per (gbc g 1 false)); [|destruct (is_polar (gbc g 1 false)); [|discriminate H]].
    + destruct (Z.leb_spec (nmax g 1 lev) (nmax g 1 lev - 1)); [lia|]. injection H as <- _. lia.
    + destruct (Z.leb_spec (nmax g 1 lev) 0); [lia|]. injection H as <- _. lia.
  - destruct (Z.leb_spec (nmax g 1 lev) (x + o)); [|injection H as <- _; lia].
    destruct (is_per (gbc g 1 true)); [|destruct (is_polar (gbc g 1 true)); [|discriminate H]]; injection H as <- _; lia.
Qed.
Lemma row_spec : forall l y z c m, In m (row g l y z c) <-> level m = level l /\ lx2 m = y /\ lx3 m = z /\
  exists o, In o (offs g 0) /\ wrap_per g 0 (nmax g 0 (level l)) (lx1 l + o) = Some (lx1 m) /\ (c = true -> o <> 0%Z).
Proof.
  intros l y z c m. unfold row. rewrite in_flat_map. split.
  - intros (o & Ho & H). destruct c; cbn [andb] in H.
    + destruct (Z.eqb_spec o 0) as [->|Ho0]; [destruct H|]. destruct (wrap_per g 0 (nmax g 0 (level l)) (lx1 l + o)) as [w|] eqn:E; [|destruct H].
      destruct H as [<-|[]]. cbn [level lx1 lx2 lx3]. repeat split. exists o. repeat split; [exact Ho|exact E|]. intros _. exact Ho0.
    + destruct (wrap_per g 0 (nmax g 0 (level l)) (lx1 l + o)) as [w|] eqn:E; [|destruct H].
      destruct H as [<-|[]]. cbn [level lx1 lx2 lx3]. repeat split. exists o. repeat split; [exact Ho|exact E|discriminate].
  - intros (Hl & Hy & Hz & o & Ho & E & Hc). exists o. split; [exact Ho|].
    assert (Hb : c && Z.eqb o 0 = false) by (destruct c; [cbn [andb]; apply Z.eqb_neq, Hc; reflexivity|reflexivity]). rewrite Hb, E. left.
    destruct m as [v w1 w2 w3]. cbn [level lx1 lx2 lx3] in *. congruence.
Qed.
Lemma rows_range : forall l oz oys z m, inr (level l) 0 (lx1 l) -> inr (level l) 1 (lx2 l) -> inr (level l) 2 z -> (forall o, In o oys -> (-1 <= o <= 1)%Z) ->
  In m (rows g l oz z oys) -> level m = level l /\ inr (level l) 0 (lx1 m) /\ inr (level l) 1 (lx2 m) /\ inr (level l) 2 (lx3 m).
Proof.
  intros l oz. induction oys as [|oy oys IH]; intros z m H1 H2 Hz Ho H; [destruct H|]. cbn [rows] in H.
  assert (Ho' : forall o, In o oys -> (-1 <= o <= 1)%Z) by (intros o Hin; apply Ho; right; exact Hin).
  destruct (wrap2 g (nmax g 1 (level l)) (lx2 l + oy)) as [[y pol]|] eqn:E; [|exact (IH z m H1 H2 Hz Ho' H)].
  apply wrap2_range in E; [|exact H2|apply Ho; left; reflexivity].
  assert (Hz' : inr (level l) 2 (if pol then Z.rem (z + nmax g 2 (level l) / 2) (nmax g 2 (level l)) else z)).
  { destruct pol; [|exact Hz]. unfold inr in *. pose proof (nmax_pos 2 (level l) ltac:(lia)) as Hn. apply Z.rem_bound_pos; [|lia].
    assert (0 <= nmax g 2 (level l) / 2)%Z by (apply Z.div_pos; lia). lia. }
  apply in_app_or in H as [H|H]; [|exact (IH _ m H1 H2 Hz' Ho' H)].
  apply row_spec in H as (Hl & Hy & Hz2 & o & Hin & Hw & _). rewrite Hy, Hz2. repeat split; try assumption; try apply E; try apply Hz'.
  - apply wrap_per_range in Hw; [apply Hw|lia|exact H1|apply offs_range in Hin; exact Hin].
  - apply wrap_per_range in Hw; [apply Hw|lia|exact H1|apply offs_range in Hin; exact Hin].
Qed.
(** the neighbours are positions of the same level inside the domain, for every boundary setting *)
Lemma nlocs_dom : forall l m, in_domain g l -> groot g <= level l -> In m (nlocs g l) -> in_domain g m /\ level m = level l.
Proof.
  intros l m Hl Hr H. unfold nlocs in H. apply in_flat_map in H as (oz & Hoz & H).
  apply (inr_domain l Hr) in Hl as (H1 & H2 & H3).
  destruct (wrap_per g 2 (nmax g 2 (level l)) (lx3 l + oz)) as [z|] eqn:E; [|destruct H].
  apply wrap_per_range in E; [|lia|exact H3|apply offs_range in Hoz; exact Hoz].
  apply rows_range in H; [|assumption|assumption|assumption|intros o; apply offs_range]. destruct H as (Hlv & Hin). split; [|exact Hlv].
  apply inr_domain; [lia|]. rewrite Hlv. exact Hin.
Qed.

(** ** Refine and AddMeshBlock *)
Let nl := nleaf (gdim g).
Definition newbal (t t' : tree) : Prop := forall x, canon x -> K t' x = KNode -> K t x = KNode \/ (groot g <= level x /\ forall m, In m (nlocs g x) -> K t' m <> KNull).
Lemma newbal_refl : forall t, newbal t t.
Proof. intros t x _ H. left. exact H. Qed.
Lemma newbal_trans : forall a b c, wf g b -> newbal a b -> newbal b c -> ext b c -> newbal a c.
Proof.
  intros a b c W H1 H2 He x Hx Hk. destruct (H2 x Hx Hk) as [Hb|Hb]; [|right; exact Hb].
  destruct (H1 x Hx Hb) as [Ha|[Hr Ha]]; [left; exact Ha|right]. split; [exact Hr|]. intros m Hm. apply He; [|apply Ha, Hm].
  apply (dom_canon g Vg). apply (nlocs_dom x m); [|exact Hr|exact Hm]. apply (wf_dom g b W); [exact Hx|congruence].
Qed.
Variable Q : loc -> Prop.
Hypothesis Qr : forall x, Q x -> groot g <= level x.
Hypothesis Qn : forall l m k, in_domain g l -> Q l -> In m (nlocs g l) -> groot g <= k < level m -> Q (ancl k m).
Definition result (t t' : tree) (k : nat) : Prop := splits g Q t t' k /\ newbal t t'.
Lemma result_trans : forall a b c k m, wf g a -> result a b k -> result b c m -> result a c (k + m).
Proof.
  intros a b c k m W [S1 B1] [S2 B2]. split; [exact (splits_trans g Q a b k S1 c m S2)|].
  apply (newbal_trans a b c); [|exact B1|exact B2|exact (splits_ext g Q b c m S2)].
  exact (splits_wf g Vg Q a b k Qr S1 W).
Qed.
Definition refine_ok (rf : st -> loc -> option st) (v : nat) : Prop := forall t n l, wf g t -> in_domain g l -> K t l <> KNull -> groot g <= level l ->
  level l < v -> Q l -> exists t' k, rf (t, n) l = Some (t', n + k * (nl - 1)) /\ result t t' k /\ K t' l = KNode.
Lemma dom_ancl : forall k m, in_domain g m -> k <= level m -> in_domain g (ancl k m).
Proof. intros k m H Hk. rewrite ancl_anc by exact Hk. apply dom_anc; [exact H|lia]. Qed.
Lemma ex_next : forall t m k, wf g t -> in_domain g m -> k < level m -> K t (ancl k m) = KNode -> K t (ancl (S k) m) <> KNull.
Proof.
  intros t m k W Hm Hk H. assert (D : in_domain g (ancl (S k) m)) by (apply dom_ancl; [exact Hm|lia]).
  destruct (Nat.lt_ge_cases k (groot g)) as [Hr|Hr]; [apply (wf_root g t W); [exact D|rewrite ancl_level; lia]|].
  destruct (dom_child_of g (ancl (S k) m) D) as (j & Hj & E); [rewrite ancl_level; lia|]. rewrite E, ancl_S by exact Hk.
  apply (wf_child g t W); [|exact H|rewrite ancl_level; exact Hr|exact Hj]. apply (dom_canon g Vg), dom_ancl; [exact Hm|lia].
Qed.
Lemma add_steps : forall rf m len a t n, refine_ok rf (level m) -> wf g t -> in_domain g m -> groot g <= level m -> a + len = level m ->
  (forall k, groot g <= k < level m -> Q (ancl k m)) -> K t (ancl a m) <> KNull ->
  exists t' k, foldo (fun s k => match FindMeshBlock (fst s) (ancl k m) with Null => None | Leaf _ => rf s (ancl k m) | Node _ _ => Some s end) (t, n) (seq a len)
    = Some (t', n + k * (nl - 1)) /\ result t t' k /\ K t' m <> KNull.
Proof.
  intros rf m len. induction len as [|len IH]; intros a t n Hrf W Hm Hr Ha HQ Hk.
  - exists t, 0. cbn [seq foldo]. split; [f_equal; f_equal; lia|]. split; [split; [constructor|apply newbal_refl]|].
    rewrite Nat.add_0_r in Ha. rewrite Ha, ancl_self in Hk. exact Hk.
  - cbn [seq foldo]. cbn [fst].
    assert (D : in_domain g (ancl a m)) by (apply dom_ancl; [exact Hm|lia]).
    assert (Hstep : exists t1 k1, match FindMeshBlock t (ancl a m) with Null => None | Leaf _ => rf (t, n) (ancl a m) | Node _ _ => Some (t, n) end = Some (t1, n + k1 * (nl - 1)) /\
      result t t1 k1 /\ K t1 (ancl a m) = KNode).
    { unfold FindMeshBlock. unfold K in Hk. destruct (sub t (path (ancl a m))) as [|z|z ch] eqn:E; [contradiction Hk; reflexivity| |].
      - destruct (Nat.lt_ge_cases a (groot g)) as [Har|Har].
        + pose proof (wf_low g t W (ancl a m) D) as Hl. rewrite ancl_level in Hl. specialize (Hl Har). unfold K in Hl. rewrite E in Hl. discriminate Hl.
        + apply Hrf; try assumption; try (rewrite ancl_level; lia); [unfold K; rewrite E; discriminate|apply HQ; lia].
      - exists t, 0. split; [f_equal; f_equal; lia|]. split; [split; [constructor|apply newbal_refl]|]. unfold K. rewrite E. reflexivity. }
    destruct Hstep as (t1 & k1 & -> & R1 & K1).
    assert (W1 : wf g t1) by (destruct R1 as [S1 _]; exact (splits_wf g Vg Q t t1 k1 Qr S1 W)).
    destruct (IH (S a) t1 (n + k1 * (nl - 1)) Hrf W1 Hm Hr ltac:(lia) HQ) as (t2 & k2 & E2 & R2 & K2).
    { apply ex_next; [exact W1|exact Hm|lia|exact K1]. }
    exists t2, (k1 + k2). split; [rewrite E2; f_equal; f_equal; lia|]. split; [exact (result_trans t t1 t2 k1 k2 W R1 R2)|exact K2].
Qed.
Lemma add_ok : forall rf m t n, refine_ok rf (level m) -> wf g t -> in_domain g m -> groot g <= level m ->
  (forall k, groot g <= k < level m -> Q (ancl k m)) ->
  exists t' k, add_with rf (t, n) m = Some (t', n + k * (nl - 1)) /\ result t t' k /\ K t' m <> KNull.
Proof.
  intros rf m t n Hrf W Hm Hr HQ. destruct (add_steps rf m (level m) 0 t n Hrf W Hm Hr eq_refl HQ) as (t' & k & E & R & Hk).
  - apply (wf_root g t W); [apply dom_ancl; [exact Hm|lia]|rewrite ancl_level; lia].
  - exists t', k. unfold add_with. rewrite E. cbn [fst]. unfold FindMeshBlock. unfold K in Hk. split; [|split; [exact R|exact Hk]].
    destruct (sub t' (path m)); [contradiction Hk; reflexivity| |]; reflexivity.
Qed.
Lemma adds_ok : forall rf l ms t n, refine_ok rf (level l) -> wf g t -> in_domain g l -> Q l -> (forall m, In m ms -> In m (nlocs g l)) ->
  exists t' k, foldo (add_with rf) (t, n) ms = Some (t', n + k * (nl - 1)) /\ result t t' k /\ forall m, In m ms -> K t' m <> KNull.
Proof.
  intros rf l. induction ms as [|m ms IH]; intros t n Hrf W Hl HQ Hms.
  - exists t, 0. cbn [foldo]. split; [f_equal; f_equal; lia|]. split; [split; [constructor|apply newbal_refl]|]. intros m [].
  - assert (Hm : In m (nlocs g l)) by (apply Hms; left; reflexivity).
    destruct (nlocs_dom l m Hl (Qr l HQ) Hm) as (Dm & Lm).
    destruct (add_ok rf m t n) as (t1 & k1 & E1 & R1 & K1); [rewrite Lm; exact Hrf|exact W|exact Dm|rewrite Lm; apply Qr, HQ| |].
    { intros k Hk. apply (Qn l); assumption. }
    assert (W1 : wf g t1) by (destruct R1 as [S1 _]; exact (splits_wf g Vg Q t t1 k1 Qr S1 W)).
    destruct (IH t1 (n + k1 * (nl - 1)) Hrf W1 Hl HQ) as (t2 & k2 & E2 & R2 & K2); [intros x Hx; apply Hms; right; exact Hx|].
    exists t2, (k1 + k2). cbn [foldo]. rewrite E1, E2. split; [f_equal; f_equal; lia|]. split; [exact (result_trans t t1 t2 k1 k2 W R1 R2)|].
    intros x [<-|Hx]; [|apply K2, Hx]. destruct R2 as [S2 _]. apply (splits_ext g Q t1 t2 k2 S2); [apply (dom_canon g Vg), Dm|exact K1].
Qed.
Theorem refine_spec : forall fuel, refine_ok (refine g fuel) fuel.
Proof.
  induction fuel as [|fuel IH]; intros t n l W Hl Hk Hr Hf HQ; [lia|]. cbn [refine fst snd].
  unfold FindMeshBlock. pose proof (dom_canon g Vg l Hl) as Cl.
  destruct (sub t (path l)) as [|z|z ch] eqn:E; [unfold K in Hk; rewrite E in Hk; contradiction Hk; reflexivity| |].
  - assert (Kl : K t l = KLeaf z) by (unfold K; rewrite E; reflexivity).
    fold nl. change (upd t (path l) (fun _ => Node z (repeat (Leaf z) nl))) with (split_at g t l z).
    assert (W1 : wf g (split_at g t l z)) by (apply wf_split; assumption).
    destruct (adds_ok (refine g fuel) l (nlocs g l) (split_at g t l z) n) as (t2 & k & E2 & [S2 B2] & K2); try assumption.
    { intros t0 n0 l0 W0 D0 N0 R0 F0 Q0. apply IH; try assumption. lia. }
    { intros m Hm. exact Hm. }
    rewrite E2.
    assert (Kl2 : K t2 l = KNode) by (apply (splits_ext g Q _ _ k S2); [exact Cl|apply split_l; congruence]).
    exists (upd t2 (path l) (set_gid (-1))), (S k). split; [f_equal; f_equal; lia|].
    assert (E3 : forall x, K (upd t2 (path l) (set_gid (-1))) x = K t2 x) by (intros x; apply setgid_K, Kl2).
    split; [split|rewrite E3; exact Kl2].
    + apply (sp_split g Q t l z); [exact Cl|exact Kl|exact HQ|]. apply splits_one_gid; assumption.
    + intros x Hx Hxk. rewrite E3 in Hxk. destruct (loc_eq_dec x l) as [->|Hxl].
      { right. split; [exact Hr|]. intros m Hm. rewrite E3. apply K2, Hm. }
      destruct (B2 x Hx Hxk) as [Hb|[Hb1 Hb2]]; [|right; split; [exact Hb1|intros m Hm; rewrite E3; apply Hb2, Hm]].
      left. destruct (is_child_dec g x l) as [(j & Hj & ->)|Hc]; [rewrite split_child in Hb by (assumption || congruence); discriminate Hb|].
      rewrite (split_other g t l z z) in Hb; assumption.
  - exists t, 0. split; [f_equal; f_equal; lia|]. split; [split; [constructor|apply newbal_refl]|]. unfold K. rewrite E. reflexivity.
Qed.
Corollary Refine_spec : forall t n l, wf g t -> in_domain g l -> K t l <> KNull -> groot g <= level l -> Q l ->
  exists t' k, Refine g (t, n) l = Some (t', n + k * (nl - 1)) /\ result t t' k /\ K t' l = KNode.
Proof. intros t n l W Hl Hk Hr HQ. apply refine_spec; try assumption. lia. Qed.
End Refine.
