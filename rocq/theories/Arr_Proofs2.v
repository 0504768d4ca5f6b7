From Coq Require Import List Arith ZArith Bool Lia.
From Verif Require Import Arr_Model Arr_Spec Arr_Proofs.
Import ListNotations.
Local Open Scope Z_scope.

(** Rearranging the objects over the same storage. *)
Lemma Inv_move : forall w w' (f : nat -> nat), Inv w -> heap w' = heap w ->
  (forall i o, nth_error (objs w') i = Some (Some o) -> okobj (heap w) o) ->
  (forall i b, own w' i b -> own w (f i) b) -> (forall i k b, own w' i b -> own w' k b -> f i = f k -> i = k) ->
  (forall i b, own w i b -> exists k, own w' k b) -> Inv w'.
Proof.
  intros w w' f (I1 & I2 & I3) Hh Hok Hf Hinj Hb. split; [|split].
  - intros i o H. rewrite Hh. apply (Hok i o H).
  - intros b n H. rewrite Hh in H. destruct (I2 b n H) as (i & Hi). apply (Hb i b Hi).
  - intros i j b Hi Hj. apply (Hinj i j b Hi Hj). apply (I3 _ _ b); apply Hf; assumption.
Qed.
Lemma Inv_new : forall w o, Inv w -> okobj (heap w) o -> st o <> Salloc -> Inv (newobj w o).
Proof.
  intros w o I Ho Hn. apply (Inv_move w _ (fun i => i) I); [reflexivity|..].
  - intros i o' H. apply app_cases in H as [[-> E]|[_ H]]; [injection E as ->; exact Ho|apply (proj1 I i o' H)].
  - intros i b (o' & H & H1 & H2). apply app_cases in H as [[-> E]|[_ H]]; [injection E as ->; contradiction|exists o'; repeat split; assumption].
  - intros; assumption.
  - intros i b (o' & H & H1 & H2). exists i, o'. split; [apply app_old, H|split; assumption].
Qed.
Lemma Inv_set : forall w i old o, Inv w -> nth_error (objs w) i = Some (Some old) -> st old <> Salloc -> okobj (heap w) o -> st o <> Salloc -> Inv (setobj w i o).
Proof.
  intros w i old o I Hi Hold Ho Hn. pose proof (nth_lt _ _ _ Hi) as Li. apply (Inv_move w _ (fun i => i) I); [reflexivity|..].
  - intros k o' H. apply set_cases in H as [[-> E]|[_ H]]; [injection E as ->; exact Ho|apply (proj1 I k o' H)|exact Li].
  - intros k b (o' & H & H1 & H2). apply set_cases in H as [[-> E]|[_ H]]; [injection E as ->; contradiction|exists o'; repeat split; assumption|exact Li].
  - intros; assumption.
  - intros k b (o' & H & H1 & H2). exists k, o'. split; [|split; assumption]. cbn. destruct (Nat.eq_dec k i) as [->|Hk]; [congruence|]. rewrite set_other by exact Hk. exact H.
Qed.
(** Fresh storage. *)
Lemma okobj_old : forall h x o, okobj h o -> okobj (h ++ [x]) o.
Proof. intros h x o. unfold okobj. destruct (st o); try exact (fun H => H). intros (b & E & H). exists b. split; [exact E|apply app_old, H]. Qed.
Lemma fresh_not_owned : forall w i, Inv w -> ~ own w i (length (heap w)).
Proof. intros w i (I1 & _) (o & H & H1 & H2). pose proof (I1 i o H) as K. unfold okobj in K. rewrite H1 in K. destruct K as (b & E & Hb). rewrite E in H2. injection H2 as ->. apply nth_lt in Hb. lia. Qed.
Lemma Inv_alloc : forall w i D os, Inv w -> (forall k o, nth_error os k = Some (Some o) -> k = i \/ (nth_error (objs w) k = Some (Some o))) ->
  nth_error os i = Some (Some (mkO (Pto (length (heap w)) 0) D Salloc)) ->
  (forall k b, own w k b -> k <> i /\ exists o, nth_error os k = Some (Some o) /\ nth_error (objs w) k = Some (Some o)) -> Inv (mkW (heap w ++ [Some (size D)]) os).
Proof.
  intros w i D os I Hold Hi Hkeep. pose proof I as (I1 & I2 & I3). split; [|split]; cbn [heap objs].
  - intros k o H. destruct (Nat.eq_dec k i) as [->|Hk]; [rewrite Hi in H; injection H as <-; exists (length (heap w)); split; [reflexivity|apply app_last]|]. destruct (Hold k o H) as [E|E]; [contradiction|]. apply okobj_old, (I1 k o E).
  - intros b n H. apply app_cases in H as [[-> _]|[_ H]]; [exists i; eexists; split; [exact Hi|split; reflexivity]|]. destruct (I2 b n H) as (k & Hk). exists k. destruct (Hkeep k b Hk) as (_ & o & O1 & O2). destruct Hk as (o' & H0 & H1 & H2). exists o. cbn. split; [exact O1|]. rewrite O2 in H0. injection H0 as ->. split; assumption.
  - intros k j b (o1 & A1 & A2 & A3) (o2 & B1 & B2 & B3). cbn in A1, B1.
    destruct (Nat.eq_dec k i) as [->|Hk], (Nat.eq_dec j i) as [->|Hj]; [reflexivity|exfalso|exfalso|].
    + rewrite Hi in A1. injection A1 as <-. injection A3 as <-. destruct (Hold j o2 B1) as [E|E]; [contradiction|]. apply (fresh_not_owned w j I). exists o2. repeat split; assumption.
    + rewrite Hi in B1. injection B1 as <-. injection B3 as <-. destruct (Hold k o1 A1) as [E|E]; [contradiction|]. apply (fresh_not_owned w k I). exists o1. repeat split; assumption.
    + destruct (Hold k o1 A1) as [E|E]; [contradiction|]. destruct (Hold j o2 B1) as [E'|E']; [contradiction|]. apply (I3 k j b); [exists o1|exists o2]; repeat split; assumption.
Qed.
Lemma Inv_alloc_new : forall w D, Inv w -> Inv (newobj (mkW (heap w ++ [Some (size D)]) (objs w)) (mkO (Pto (length (heap w)) 0) D Salloc)).
Proof.
  intros w D I. unfold newobj. cbn [heap objs]. apply (Inv_alloc w (length (objs w))); [exact I|..].
  - intros k o H. apply app_cases in H as [[-> _]|[_ H]]; [left; reflexivity|right; exact H].
  - apply app_last.
  - intros k b (o & H & _). split; [apply nth_lt in H; lia|]. exists o. split; [apply app_old, H|exact H].
Qed.
Lemma Inv_alloc_set : forall w i old D, Inv w -> nth_error (objs w) i = Some (Some old) -> st old <> Salloc -> Inv (setobj (mkW (heap w ++ [Some (size D)]) (objs w)) i (mkO (Pto (length (heap w)) 0) D Salloc)).
Proof.
  intros w i old D I Hi Hn. pose proof (nth_lt _ _ _ Hi) as Li. unfold setobj. cbn [heap objs]. apply (Inv_alloc w i); [exact I|..].
  - intros k o H. apply set_cases in H as [[-> _]|[_ H]]; [left; reflexivity|right; exact H|exact Li].
  - apply set_same, Li.
  - intros k b (o & H & H1 & _). assert (k <> i) by congruence. split; [assumption|]. exists o. split; [rewrite set_other by assumption; exact H|exact H].
Qed.
(** Deletion. *)
Lemma Inv_delete : forall w i o, Inv w -> nth_error (objs w) i = Some (Some o) -> exists w' o', Delete w o = Some (w', o') /\ objs w' = objs w /\ pdata o' = Pnull /\ st o' <> Salloc /\ st o' <> Sindet /\
  length (heap w') = length (heap w) /\
  forall os, os = set (objs w) i (Some o') \/ os = set (objs w) i None -> Inv (mkW (heap w') os).
Proof.
  intros w i o I Hi. pose proof I as (I1 & I2 & I3). pose proof (I1 i o Hi) as K. pose proof (nth_lt _ _ _ Hi) as Li. unfold okobj in K. unfold Delete. destruct (st o) eqn:Es.
  - exists w, (mkO Pnull (ext o) Sempty). repeat (split; [reflexivity || discriminate|]). intros os Hos. apply (Inv_move w _ (fun i => i) I); [reflexivity|..]; cbn [objs].
    + intros k o' H. destruct Hos as [->| ->]; apply set_cases in H as [[-> E]|[_ H]]; try exact Li; try (injection E as ->; reflexivity); try discriminate E; apply (I1 k o' H).
    + intros k b (o' & H & H1 & H2). cbn in H. destruct Hos as [->| ->]; apply set_cases in H as [[-> E]|[_ H]]; try exact Li; try (injection E as ->; discriminate H1); try discriminate E; exists o'; repeat split; assumption.
    + intros; assumption.
    + intros k b (o' & H & H1 & H2). exists k, o'. assert (k <> i) by congruence. cbn. split; [|split; assumption]. destruct Hos as [->| ->]; rewrite set_other by assumption; exact H.
  - exists w, (mkO Pnull (ext o) Sslice). repeat (split; [reflexivity || discriminate|]). intros os Hos. apply (Inv_move w _ (fun i => i) I); [reflexivity|..]; cbn [objs].
    + intros k o' H. destruct Hos as [->| ->]; apply set_cases in H as [[-> E]|[_ H]]; try exact Li; try (injection E as ->; cbn; discriminate); try discriminate E; apply (I1 k o' H).
    + intros k b (o' & H & H1 & H2). cbn in H. destruct Hos as [->| ->]; apply set_cases in H as [[-> E]|[_ H]]; try exact Li; try (injection E as ->; discriminate H1); try discriminate E; exists o'; repeat split; assumption.
    + intros; assumption.
    + intros k b (o' & H & H1 & H2). exists k, o'. assert (k <> i) by congruence. cbn. split; [|split; assumption]. destruct Hos as [->| ->]; rewrite set_other by assumption; exact H.
  - destruct K as (b & Eb & Hb). rewrite Eb, Hb. exists (mkW (set (heap w) b None) (objs w)), (mkO Pnull (ext o) Sempty). repeat (split; [reflexivity || discriminate|]). split; [apply set_length|]. pose proof (nth_lt _ _ _ Hb) as Lb. cbn [heap].
    assert (OI : own w i b) by (exists o; repeat split; assumption).
    assert (KP : forall k o', nth_error (objs w) k = Some (Some o') -> k <> i -> okobj (set (heap w) b None) o').
    { intros k o' H Hk. pose proof (I1 k o' H) as K. unfold okobj in *. destruct (st o') eqn:E'; try exact K. destruct K as (c & Ec & Hc). exists c. split; [exact Ec|]. rewrite set_other; [exact Hc|]. intros ->. apply Hk. apply (I3 k i b); [exists o'; repeat split; assumption|exact OI]. }
    intros os Hos. split; [|split]; cbn [heap objs].
    + intros k o' H. destruct Hos as [->| ->]; apply set_cases in H as [[-> E]|[Hk H]]; try exact Li; try (injection E as ->; reflexivity); try discriminate E; apply (KP k o' H Hk).
    + intros c n H. apply set_cases in H as [[-> E]|[Hc H]]; [discriminate E| |exact Lb]. destruct (I2 c n H) as (k & o' & H0 & H1 & H2). exists k, o'. cbn. assert (Hk : k <> i) by (intros ->; rewrite Hi in H0; injection H0 as <-; rewrite Eb in H2; injection H2 as ->; contradiction). split; [|split; assumption]. destruct Hos as [->| ->]; rewrite set_other by exact Hk; exact H0.
    + assert (OW : forall k c, own (mkW (set (heap w) b None) os) k c -> own w k c). { intros k c (o' & H & H1 & H2). cbn in H. destruct Hos as [->| ->]; apply set_cases in H as [[-> E]|[Hk H]]; try exact Li; try (injection E as ->; discriminate H1); try discriminate E; exists o'; repeat split; assumption. }
      intros k j c Hk Hj. apply (I3 k j c); apply OW; assumption.
  - contradiction.
Qed.
Lemma live_data : forall w o, live w o -> hasdata (pdata o) = Some true /\ accessible w (pdata o) (size (ext o)) = true.
Proof.
  intros w o (b & off & m & E & H & H1 & H2). rewrite E. split; [reflexivity|]. unfold accessible. rewrite H. destruct (Z.leb_spec 0 off); [|lia]. destruct (Z.leb_spec (off + size (ext o)) m); [|lia]. apply orb_true_r.
Qed.
Ltac gobj H := rewrite (proj2 (getobj_nth _ _ _) H).
Lemma step_proper : forall w c, Inv w -> proper w c -> exists w', step w c = Some w' /\ Inv w'.
Proof.
  intros w c I P. pose proof I as (I1 & I2 & I3). destruct c; cbn [proper] in P; unfold step.
  - eexists. split; [reflexivity|]. apply Inv_new; [exact I|reflexivity|discriminate].
  - destruct P as [[->| ->] HD]; eexists; (split; [reflexivity|]); [apply Inv_alloc_new, I|apply Inv_new; [exact I|reflexivity|discriminate]].
  - destruct P as (o & Ho & L). gobj Ho. destruct (live_data w o L) as [-> ->]. eexists. split; [reflexivity|]. apply Inv_alloc_new, I.
  - destruct P as (o & Ho & L). gobj Ho. destruct (live_data w o L) as [-> _]. eexists. split; [reflexivity|]. pose proof (nth_lt _ _ _ Ho) as Li.
    assert (C : forall k o', nth_error (objs (newobj (setobj w src emptyobj) o)) k = Some (Some o') -> (k = length (objs w) /\ o' = o) \/ (k = src /\ o' = emptyobj) \/ (k <> src /\ nth_error (objs w) k = Some (Some o'))).
    { intros k o' H. cbn in H. apply app_cases in H as [[-> E]|[_ H]]; [left; rewrite set_length; split; congruence|right]. apply set_cases in H as [[-> E]|[Hk H]]; [left; split; congruence|right; split; assumption|exact Li]. }
    apply (Inv_move w _ (fun k => if Nat.eqb k (length (objs w)) then src else k) I); [reflexivity|..].
    + intros k o' H. apply C in H as [[-> ->]|[[-> ->]|[_ H]]]; [apply (I1 _ _ Ho)|reflexivity|apply (I1 _ _ H)].
    + intros k b (o' & H & H1 & H2). apply C in H as [[-> ->]|[[-> ->]|[Hk H]]]; [rewrite Nat.eqb_refl; exists o; repeat split; assumption|discriminate H1|]. destruct (Nat.eqb_spec k (length (objs w))) as [E|E]; [apply nth_lt in H; lia|]. exists o'. repeat split; assumption.
    + intros k j b (o1 & A & A1 & A2) (o2 & B & B1 & B2) E. apply C in A. apply C in B. destruct A as [[-> ->]|[[-> ->]|[Hk A]]]; [|discriminate A1|]; destruct B as [[-> ->]|[[-> ->]|[Hj B]]]; try discriminate B1; [reflexivity|..].
      * rewrite Nat.eqb_refl in E. destruct (Nat.eqb_spec j (length (objs w))); [congruence|congruence].
      * rewrite Nat.eqb_refl in E. destruct (Nat.eqb_spec k (length (objs w))); [congruence|congruence].
      * apply nth_lt in A. apply nth_lt in B. destruct (Nat.eqb_spec k (length (objs w))); [lia|]. destruct (Nat.eqb_spec j (length (objs w))); [lia|exact E].
    + intros k b (o' & H & H1 & H2). destruct (Nat.eq_dec k src) as [->|Hk].
      * exists (length (objs w)), o'. rewrite H in Ho. injection Ho as ->. cbn. split; [|split; assumption]. rewrite <- (set_length (objs w) src (Some emptyobj)). apply app_last.
      * exists k, o'. cbn. split; [|split; assumption]. apply app_old. rewrite set_other by exact Hk. exact H.
  - destruct P as (o & Ho & HO & s & Hs & L & Es). gobj Ho. gobj Hs. destruct (Nat.eqb_spec dst src) as [_|Hne]; [exists w; split; [reflexivity|exact I]|]. destruct (live_data w s L) as [_ ->]. pose proof (I1 dst o Ho) as K. unfold okobj in K. rewrite HO in K. destruct K as (b & Eb & Hb).
    assert (A : accessible w (pdata o) (size (ext s)) = true). { rewrite Eb, Es. unfold accessible. rewrite Hb. rewrite Z.add_0_l, !Z.leb_refl. apply orb_true_r. } rewrite A. cbn [andb]. eexists. split; [reflexivity|]. rewrite Es. replace (mkO (pdata o) (ext o) Salloc) with o by (destruct o; cbn in *; unfold owns in HO; cbn in HO; congruence).
    apply (Inv_move w _ (fun i => i) I); [reflexivity|..]; pose proof (nth_lt _ _ _ Ho) as Li.
    + intros k o' H. apply set_cases in H as [[-> E]|[_ H]]; [injection E as ->; apply (I1 _ _ Ho)|apply (I1 _ _ H)|exact Li].
    + intros k c (o' & H & H1 & H2). apply set_cases in H as [[-> E]|[_ H]]; [injection E as ->; exists o; repeat split; assumption|exists o'; repeat split; assumption|exact Li].
    + intros; assumption.
    + intros k c (o' & H & H1 & H2). exists k, o'. split; [|split; assumption]. cbn. destruct (Nat.eq_dec k dst) as [->|Hk]; [rewrite set_same by exact Li; congruence|rewrite set_other by exact Hk; exact H].
  - destruct P as (o & Ho & s & Hs & _). gobj Ho. gobj Hs. destruct (Nat.eqb_spec dst src) as [_|Hne]; [exists w; split; [reflexivity|exact I]|].
    destruct (Inv_delete w dst o I Ho) as (w' & o' & ED & Eo & Ep & En & Ei & El & HI). rewrite ED. specialize (HI _ (or_introl eq_refl)).
    assert (Hss : nth_error (set (objs w) dst (Some o')) src = Some (Some s)) by (rewrite set_other by congruence; exact Hs).
    assert (Hh : hasdata (pdata s) = Some false \/ hasdata (pdata s) = Some true). { pose proof (I1 src s Hs) as K. unfold okobj in K. destruct (pdata s) eqn:E; cbn; [left; reflexivity|right; reflexivity|]. exfalso. destruct (st s); try discriminate K; [apply K; reflexivity|destruct K as (? & X & _); discriminate X|exact K]. }
    destruct Hh as [-> | ->].
    + eexists. split; [reflexivity|]. unfold setobj. rewrite Eo. exact HI.
    + eexists. split; [reflexivity|]. unfold setobj. cbn [heap objs]. rewrite Eo. set (w1 := mkW (heap w') (set (objs w) dst (Some o'))) in *. pose proof (nth_lt _ _ _ Ho) as Li. pose proof (nth_lt _ _ _ Hs) as Lj.
      assert (C : forall k x, nth_error (set (set (objs w) dst (Some s)) src (Some emptyobj)) k = Some (Some x) -> (k = src /\ x = emptyobj) \/ (k = dst /\ x = s) \/ (k <> src /\ k <> dst /\ nth_error (objs w1) k = Some (Some x))).
      { intros k x H. apply set_cases in H as [[-> E]|[Hk H]]; [left; split; congruence| |rewrite set_length; exact Lj]. apply set_cases in H as [[-> E]|[Hk' H]]; [right; left; split; congruence| |exact Li]. right. right. split; [exact Hk|]. split; [exact Hk'|]. cbn. rewrite set_other by exact Hk'. exact H. }
      apply (Inv_move w1 _ (fun k => if Nat.eqb k dst then src else k) HI); [reflexivity|..]; cbn [objs heap].
      * intros k x H. apply C in H as [[-> ->]|[[-> ->]|(_ & _ & H)]]; [reflexivity|apply (proj1 HI _ _ Hss)|apply (proj1 HI _ _ H)].
      * intros k b (x & H & H1 & H2). apply C in H as [[-> ->]|[[-> ->]|(N1 & N2 & H)]]; [discriminate H1| |]; [rewrite Nat.eqb_refl; exists s; repeat split; assumption|]. destruct (Nat.eqb_spec k dst); [contradiction|]. exists x. repeat split; assumption.
      * intros k j b (x & A & A1 & A2) (y & B & B1 & B2) E. apply C in A. apply C in B. destruct A as [[-> ->]|[[-> ->]|(N1 & N2 & A)]]; [discriminate A1| |]; destruct B as [[-> ->]|[[-> ->]|(M1 & M2 & B)]]; try discriminate B1; [reflexivity|..].
        -- rewrite Nat.eqb_refl in E. destruct (Nat.eqb_spec j dst); congruence.
        -- rewrite Nat.eqb_refl in E. destruct (Nat.eqb_spec k dst); congruence.
        -- destruct (Nat.eqb_spec k dst); [contradiction|]. destruct (Nat.eqb_spec j dst); [contradiction|exact E].
      * intros k b (x & H & H1 & H2). cbn in H. destruct (Nat.eq_dec k src) as [->|Hk].
        -- exists dst, x. rewrite Hss in H. injection H as <-. cbn. split; [|split; assumption]. rewrite set_other by congruence. apply set_same, Li.
        -- apply set_cases in H as [[-> E]|[Hk' H]]; [injection E as ->; contradiction| |exact Li]. exists k, x. cbn. split; [|split; assumption]. rewrite !set_other by assumption. exact H.
  - destruct P as ((o & Ho & HO) & HD). gobj Ho. eexists. split; [reflexivity|]. apply (Inv_alloc_set w i o D I Ho HO).
  - destruct P as (o & Ho & _). gobj Ho. destruct (Inv_delete w i o I Ho) as (w' & o' & -> & Eo & _ & _ & _ & _ & HI). eexists. split; [reflexivity|]. unfold setobj. rewrite Eo. apply HI. left. reflexivity.
  - destruct P as (o & Ho & _). gobj Ho. destruct (Inv_delete w i o I Ho) as (w' & o' & -> & Eo & _ & _ & _ & _ & HI). eexists. split; [reflexivity|]. rewrite Eo. apply HI. right. reflexivity.
  - destruct P as (a & Ha & HA & b & Hb & HB & Es). gobj Ha. gobj Hb. eexists. split; [reflexivity|]. pose proof (nth_lt _ _ _ Ha) as Li. pose proof (nth_lt _ _ _ Hb) as Lj.
    destruct (Nat.eqb_spec i j) as [<-|Hne].
    + rewrite Ha in Hb. injection Hb as <-. replace (mkO (pdata a) (ext a) (st a)) with a by (destruct a; reflexivity).
      apply (Inv_move w _ (fun i => i) I); [reflexivity|..]; unfold setobj; cbn [objs].
      * intros k o' H. apply set_cases in H as [[-> E]|[_ H]]; [injection E as ->; apply (I1 _ _ Ha)| |rewrite set_length; exact Li]. apply set_cases in H as [[-> E]|[_ H]]; [injection E as ->; apply (I1 _ _ Ha)|apply (I1 _ _ H)|exact Li].
      * intros k c (o' & H & H1 & H2). cbn in H. apply set_cases in H as [[-> E]|[_ H]]; [injection E as ->; exists a; repeat split; assumption| |rewrite set_length; exact Li]. apply set_cases in H as [[-> E]|[_ H]]; [injection E as ->; exists a; repeat split; assumption|exists o'; repeat split; assumption|exact Li].
      * intros; assumption.
      * intros k c (o' & H & H1 & H2). exists k, o'. split; [|split; assumption]. cbn. destruct (Nat.eq_dec k i) as [->|Hk]; [rewrite set_same by (rewrite set_length; exact Li); congruence|rewrite !set_other by exact Hk; exact H].
    + set (a' := mkO (pdata b) (ext a) (st a)). set (b' := mkO (pdata a) (ext b) (st b)).
      assert (C : forall k x, nth_error (set (set (objs w) i (Some a')) j (Some b')) k = Some (Some x) -> (k = j /\ x = b') \/ (k = i /\ x = a') \/ (k <> j /\ k <> i /\ nth_error (objs w) k = Some (Some x))).
      { intros k x H. apply set_cases in H as [[-> E]|[Hk H]]; [left; split; congruence| |rewrite set_length; exact Lj]. apply set_cases in H as [[-> E]|[Hk' H]]; [right; left; split; congruence|right; right; repeat split; assumption|exact Li]. }
      apply (Inv_move w _ (fun k => if Nat.eqb k i then j else if Nat.eqb k j then i else k) I); [reflexivity|..]; unfold setobj; cbn [objs].
      * intros k x H. apply C in H as [[-> ->]|[[-> ->]|(_ & _ & H)]]; [pose proof (I1 _ _ Ha) as K|pose proof (I1 _ _ Hb) as K|apply (I1 _ _ H)]; unfold okobj in *; unfold owns in *; [rewrite HA in K; unfold b'; cbn; rewrite HB, Es; exact K|rewrite HB in K; unfold a'; cbn; rewrite HA, <- Es; exact K].
      * intros k c (x & H & H1 & H2). cbn in H. apply C in H as [[-> ->]|[[-> ->]|(N1 & N2 & H)]].
        -- destruct (Nat.eqb_spec j i); [congruence|]. rewrite Nat.eqb_refl. exists a. repeat split; assumption.
        -- rewrite Nat.eqb_refl. exists b. repeat split; assumption.
        -- destruct (Nat.eqb_spec k i); [contradiction|]. destruct (Nat.eqb_spec k j); [contradiction|]. exists x. repeat split; assumption.
      * intros k l c _ _ E. destruct (Nat.eqb_spec k i), (Nat.eqb_spec l i), (Nat.eqb_spec k j), (Nat.eqb_spec l j); congruence.
      * intros k c (x & H & H1 & H2). cbn. destruct (Nat.eq_dec k i) as [->|Hk]; [|destruct (Nat.eq_dec k j) as [->|Hk']].
        -- rewrite Ha in H. injection H as <-. exists j, b'. cbn. split; [apply set_same; rewrite set_length; exact Lj|]. split; assumption.
        -- rewrite Hb in H. injection H as <-. exists i, a'. cbn. split; [rewrite set_other by exact Hne; apply set_same, Li|]. split; assumption.
        -- exists k, x. cbn. split; [rewrite !set_other by assumption; exact H|split; assumption].
  - destruct P as (a & Ha & b & Hb & _). gobj Ha. gobj Hb. eexists. split; [reflexivity|]. pose proof (nth_lt _ _ _ Ha) as Li. pose proof (nth_lt _ _ _ Hb) as Lj.
    assert (C : forall k x, nth_error (set (set (objs w) i (Some b)) j (Some a)) k = Some (Some x) -> (k = j /\ x = a) \/ (k = i /\ k <> j /\ x = b) \/ (k <> j /\ k <> i /\ nth_error (objs w) k = Some (Some x))).
    { intros k x H. apply set_cases in H as [[-> E]|[Hk H]]; [left; split; congruence| |rewrite set_length; exact Lj]. apply set_cases in H as [[-> E]|[Hk' H]]; [right; left; repeat split; congruence|right; right; repeat split; assumption|exact Li]. }
    apply (Inv_move w _ (fun k => if Nat.eqb k i then j else if Nat.eqb k j then i else k) I); [reflexivity|..]; unfold setobj; cbn [objs].
    + intros k x H. apply C in H as [[-> ->]|[(-> & _ & ->)|(_ & _ & H)]]; [apply (I1 _ _ Ha)|apply (I1 _ _ Hb)|apply (I1 _ _ H)].
    + intros k c (x & H & H1 & H2). cbn in H. apply C in H as [[-> ->]|[(-> & Hij & ->)|(N1 & N2 & H)]].
      * destruct (Nat.eqb_spec j i) as [->|]; [exists a; repeat split; assumption|]. rewrite Nat.eqb_refl. exists a. repeat split; assumption.
      * rewrite Nat.eqb_refl. exists b. repeat split; assumption.
      * destruct (Nat.eqb_spec k i); [contradiction|]. destruct (Nat.eqb_spec k j); [contradiction|]. exists x. repeat split; assumption.
    + intros k l c _ _ E. destruct (Nat.eqb_spec k i), (Nat.eqb_spec l i), (Nat.eqb_spec k j), (Nat.eqb_spec l j); congruence.
    + intros k c (x & H & H1 & H2). cbn. destruct (Nat.eq_dec k i) as [->|Hk]; [|destruct (Nat.eq_dec k j) as [->|Hk']].
      * rewrite Ha in H. injection H as <-. exists j, a. cbn. split; [apply set_same; rewrite set_length; exact Lj|]. split; assumption.
      * rewrite Hb in H. injection H as <-. exists i, b. cbn. split; [rewrite set_other by congruence; apply set_same, Li|]. split; assumption.
      * exists k, x. cbn. split; [rewrite !set_other by assumption; exact H|split; assumption].
  - destruct P as (o & Ho & HO). gobj Ho. exists w. split; [|exact I]. pose proof (I1 _ _ Ho) as K. unfold okobj in K. destruct HO as [->|L]; [reflexivity|]. destruct (live_data w o L) as [_ ->]. destruct (st o); reflexivity || contradiction.
  - destruct P as ((o & Ho & HO) & s & Hs & L & Hd & H1 & H2 & H3). gobj Ho. gobj Hs. destruct L as (b & off & m & E & Hm & L1 & L2). rewrite E. assert (exists d D, slice (ext s) dim indx nvar = Some (d, D)) as (d & D & ->).
    { unfold slice. assert (Hc : dim = 1 \/ dim = 2 \/ dim = 3 \/ dim = 4 \/ dim = 5 \/ dim = 6) by lia. destruct Hc as [->|[->|[->|[->|[->| ->]]]]]; do 2 eexists; reflexivity. }
    eexists. split; [reflexivity|]. apply (Inv_set w i o); try assumption; [cbn; discriminate|discriminate].
  - destruct P as ((o & Ho & HO) & s & Hs & (b & off & m & E & Hm & L1 & L2)). gobj Ho. gobj Hs. rewrite E. eexists. split; [reflexivity|]. apply (Inv_set w i o); try assumption; [cbn; discriminate|discriminate].
  - destruct P as (o & Ho & (b & off & m & E & Hm & L1 & L2) & He). gobj Ho. rewrite E. cbn [shift]. exists w. split; [|exact I]. unfold accessible. rewrite Hm. destruct (Z.leb_spec 0 e); [|lia]. destruct (Z.leb_spec 0 (off + e)); [|lia]. destruct (Z.leb_spec (off + e + 1) m); [|lia]. reflexivity.
Qed.
Lemma Inv_start : Inv start.
Proof. split; [|split]; unfold start; cbn. - intros [|i] o H; discriminate H. - intros [|b] n H; discriminate H. - intros i j b (o & H & _). destruct i; discriminate H. Qed.
Lemma run_proper : forall cs w, Inv w -> used_properly w cs -> exists w', run w cs = Some w' /\ Inv w'.
Proof.
  intros cs. induction cs as [|c cs IH]; intros w I U; cbn [run]; [exists w; split; [reflexivity|exact I]|]. destruct U as [P U]. destruct (step_proper w c I P) as (w' & E & I'). rewrite E in *. apply IH; assumption.
Qed.
Lemma all_destroyed : forall w, Inv w -> (forall i o, nth_error (objs w) i <> Some (Some o)) -> forall b n, nth_error (heap w) b <> Some (Some n).
Proof. intros w (_ & I2 & _) H b n E. destruct (I2 b n E) as (i & o & H1 & _). apply (H i o H1). Qed.
(** A slice refers to existing elements as long as its source's storage exists. *)
Lemma mul_le1 : forall a b, 0 <= a -> 1 <= b -> a <= a * b.
Proof. intros. nia. Qed.
Lemma slice_size : forall D dim indx nvar d D', 1 <= dim <= 6 -> 0 <= indx -> 0 <= nvar -> indx + nvar <= extent D dim -> (forall k, 1 <= k <= 6 -> 1 <= extent D k) -> slice D dim indx nvar = Some (d, D') -> 0 <= d /\ d + size D' <= size D.
Proof.
  intros [a b c d e f] dim indx nvar dd D' Hd H1 H2 H3 HP HS. pose proof (HP 1 ltac:(lia)) as P1. pose proof (HP 2 ltac:(lia)) as P2. pose proof (HP 3 ltac:(lia)) as P3. pose proof (HP 4 ltac:(lia)) as P4. pose proof (HP 5 ltac:(lia)) as P5. pose proof (HP 6 ltac:(lia)) as P6. clear HP. cbn in P1, P2, P3, P4, P5, P6.
  assert (Q2 : 1 <= a * b) by nia. assert (Q3 : 1 <= a * b * c) by nia. assert (Q4 : 1 <= a * b * c * d) by nia. assert (Q5 : 1 <= a * b * c * d * e) by nia.
  assert (Hc : dim = 1 \/ dim = 2 \/ dim = 3 \/ dim = 4 \/ dim = 5 \/ dim = 6) by lia. unfold size. destruct Hc as [->|[->|[->|[->|[->| ->]]]]]; cbn in HS, H3; injection HS as <- <-; cbn [nx1 nx2 nx3 nx4 nx5 nx6]; rewrite ?Z.mul_1_r.
  - split; [lia|]. assert (a <= a * b * c * d * e * f). { rewrite <- !Z.mul_assoc. apply mul_le1; nia. } lia.
  - split; [nia|]. assert (a * b <= a * b * c * d * e * f). { rewrite <- !Z.mul_assoc, Z.mul_assoc. apply mul_le1; nia. } nia.
  - split; [nia|]. assert (a * b * c <= a * b * c * d * e * f). { rewrite <- (Z.mul_assoc (a * b * c)), <- (Z.mul_assoc (a * b * c)). apply mul_le1; nia. } nia.
  - split; [nia|]. assert (a * b * c * d <= a * b * c * d * e * f). { rewrite <- (Z.mul_assoc (a * b * c * d)). apply mul_le1; nia. } nia.
  - split; [nia|]. assert (a * b * c * d * e <= a * b * c * d * e * f). { apply mul_le1; nia. } nia.
  - split; nia.
Qed.
Lemma slice_live : forall w i j dim indx nvar w' s, nth_error (objs w) j = Some (Some s) -> i <> j -> (forall k, 1 <= k <= 6 -> 1 <= extent (ext s) k) ->
  proper w (Slice i j dim indx nvar) -> step w (Slice i j dim indx nvar) = Some w' -> exists o, nth_error (objs w') i = Some (Some o) /\ live w' o.
Proof.
  intros w i j dim indx nvar w' s Hs Hne HP ((o & Ho & HO) & s' & Hs' & L & Hd & H1 & H2 & H3) E. rewrite Hs in Hs'. injection Hs' as <-. cbn [step] in E. rewrite (proj2 (getobj_nth _ _ _) Ho), (proj2 (getobj_nth _ _ _) Hs) in E.
  destruct L as (b & off & m & Ep & Hm & L1 & L2). rewrite Ep in E. destruct (slice (ext s) dim indx nvar) as [[d D]|] eqn:ES; [|discriminate E]. injection E as <-. destruct (slice_size _ _ _ _ _ _ Hd H1 H2 H3 HP ES) as [S1 S2].
  eexists. split; [apply set_same, (nth_lt _ _ _ Ho)|]. exists b, (off + d), m. cbn. repeat split; try assumption; lia.
Qed.
