(** The reaction networks. *)
From Coq Require Import Reals List Lra Lia ZArith.
From Verif Require Import Chem_Model Chem_Spec Chem_Proofs.
Import ListNotations.
Open Scope R_scope.

(** ** H2 *)
Lemma H2_conserves kcr kgr nH tcgs y : weigh [1; 2] (H2_RHS kcr kgr nH tcgs y) = 0.
Proof. unfold H2_RHS. destruct y as [|a [|b [|c y]]]; unfold weigh, sum; cbn; ring. Qed.
Lemma H2_positive kcr kgr nH tcgs yH yH2 : 0 <= kcr -> 0 <= kgr -> 0 <= nH -> 0 <= tcgs -> 0 <= yH -> 0 <= yH2 ->
  (yH = 0 -> 0 <= nth 0 (H2_RHS kcr kgr nH tcgs [yH; yH2]) 0) /\ (yH2 = 0 -> 0 <= nth 1 (H2_RHS kcr kgr nH tcgs [yH; yH2]) 0).
Proof.
  intros A B C D E F. unfold H2_RHS. cbn [nth]. split; intros ->; apply Rmult_le_pos; auto.
  - pose proof (Rmult_le_pos _ _ A F). lra.
  - pose proof (Rmult_le_pos _ _ (Rmult_le_pos _ _ B C) E). lra.
Qed.

(** ** gow17: amounts *)
Lemma elements xC xO xHe xSi y : let z := GetGhostSpecies xC xO xHe xSi y in
  over all_species (atoms Carbon) z = xC /\ over all_species (atoms Oxygen) z = xO /\ over all_species (atoms Helium) z = xHe /\ over all_species (atoms Silicon) z = xSi /\
  over all_species (atoms Hydrogen) z = 1 /\ over all_species charge z = 0 /\ (forall s, In s gow_species -> z s = y s).
Proof.
  cbv zeta. unfold over, all_species, gow_species, gow_ghosts, sum. cbn [app map fold_right atoms charge GetGhostSpecies]. refine (conj _ (conj _ (conj _ (conj _ (conj _ (conj _ _)))))); try ring.
  intros s H. repeat (destruct H as [<-|H]; [reflexivity|]). destruct H.
Qed.

(** ** gow17: the sum over reactions *)
Definition ind (s i : gsp) : Z := if gsp_eq s i then 1 else 0.
Lemma add_at i x f s : add gsp_eq i x f s = f s + IZR (ind s i) * x.
Proof. unfold add, ind. destruct (gsp_eq s i); ring. Qed.
Definition contrib (y : gsp -> R) (s : gsp) (p : R * rx) : R := speed (fst p) (snd p) y * IZR (net (snd p) s).
Lemma count_cons s a l : count s (a :: l) = (ind s a + count s l)%Z.
Proof. unfold count, ind. cbn [count_occ]. destruct (gsp_eq a s) as [->|N]; [destruct (gsp_eq s s); [lia|contradiction]|]. destruct (gsp_eq s a) as [->|_]; [contradiction|]. lia. Qed.
Lemma count_nil s : count s [] = 0%Z. Proof. reflexivity. Qed.
Definition as_rx1 (p : gsp * gsp) : rx := formula [fst p] [snd p].
Definition as_rx2 (p : (gsp * gsp) * (gsp * gsp)) : rx := formula [fst (fst p); snd (fst p)] [fst (snd p); snd (snd p)].
Lemma contrib1 y s k i o : contrib y s (k, as_rx1 (i, o)) = k * y i * (IZR (ind s o) - IZR (ind s i)).
Proof. unfold contrib, speed, net, as_rx1, formula. cbn [fst snd law reactants products map fold_right]. rewrite !count_cons, !count_nil, minus_IZR, !plus_IZR. ring. Qed.
Lemma contrib2 y s k i1 i2 o1 o2 : contrib y s (k, as_rx2 ((i1, i2), (o1, o2))) = k * y i1 * y i2 * (IZR (ind s o1) + IZR (ind s o2) - IZR (ind s i1) - IZR (ind s i2)).
Proof. unfold contrib, speed, net, as_rx2, formula. cbn [fst snd law reactants products map fold_right]. rewrite !count_cons, !count_nil, minus_IZR, !plus_IZR. ring. Qed.
Lemma sum_cons a l : sum (a :: l) = a + sum l. Proof. reflexivity. Qed.
Lemma fold1 y s : forall l ks d, fold_left (react1 y) (combine ks l) d s = d s + sum (map (contrib y s) (combine ks (map as_rx1 l))).
Proof.
  induction l as [|[i o] l IH]; intros [|k ks] d; cbn [combine map fold_left]; try (unfold sum; cbn; ring). rewrite IH, sum_cons, contrib1. unfold react1. cbv zeta. rewrite !add_at. ring.
Qed.
Lemma rate2_pos k a b : 0 <= a -> 0 <= b -> rate2 k a b = k * (a * (b * 1)).
Proof. intros A B. unfold rate2. destruct (Rlt_dec a 0); [lra|]. ring. Qed.
Lemma fold2 y s : (forall s, 0 <= y s) -> forall l ks d, fold_left (react2 y) (combine ks l) d s = d s + sum (map (contrib y s) (combine ks (map as_rx2 l))).
Proof.
  intros Y. induction l as [|[[i1 i2] [o1 o2]] l IH]; intros [|k ks] d; cbn [combine map fold_left]; try (unfold sum; cbn; ring). rewrite IH, sum_cons, contrib2. unfold react2. cbv zeta. rewrite !add_at, rate2_pos by auto. ring.
Qed.
(** Two lists of reactions with the same speeds and the same effect on [s]. *)
Lemma same_effect y s : forall a b ks, map law a = map law b -> map (fun r => net r s) a = map (fun r => net r s) b -> sum (map (contrib y s) (combine ks a)) = sum (map (contrib y s) (combine ks b)).
Proof.
  induction a as [|x a IH]; intros [|z b] [|k ks] L Nt; cbn in L, Nt; try discriminate; try reflexivity. injection L as L0 L. injection Nt as N0 Nt. cbn [combine map].
  unfold sum in *. cbn [fold_right]. rewrite (IH b ks L Nt). f_equal. unfold contrib, speed. cbn [fst snd]. rewrite L0, N0. reflexivity.
Qed.
Lemma combine_app {A B} : forall (a a' : list A) (b b' : list B), length a = length b -> combine (a ++ a') (b ++ b') = combine a b ++ combine a' b'.
Proof. induction a as [|x a IH]; intros a' [|z b] b' H; cbn in *; try discriminate; auto. rewrite IH by lia. reflexivity. Qed.
Lemma sum_app a b : sum (a ++ b) = sum a + sum b.
Proof. induction a as [|x a IH]; unfold sum in *; cbn; [ring|]. rewrite IH. ring. Qed.
Lemma gow_sum xC xO xHe xSi tcgs K y s : let z := GetGhostSpecies xC xO xHe xSi y in fits K -> (forall s, 0 <= z s) -> In s gow_species ->
  gow_RHS xC xO xHe xSi tcgs K y s = tcgs * sum (map (contrib z s) (combine (rates K) formulas)).
Proof.
  intros z (L1 & L2 & L3 & L4 & _) Z Hs. unfold gow_RHS. cbv zeta. fold z. rewrite fold1, fold1, (fold2 z s Z), fold1. unfold rates, formulas.
  rewrite !combine_app by (rewrite ?L1, ?L2, ?L3, ?L4; reflexivity). rewrite !map_app, !sum_app.
  rewrite (same_effect z s (map as_rx1 (combine incr outcr)) cosmic), (same_effect z s (map as_rx2 (combine (combine in2body1 in2body2) (combine out2body1 out2body2))) twobody),
    (same_effect z s (map as_rx1 (combine inph outph1)) photo), (same_effect z s (map as_rx1 (combine ingr outgr)) grain); try reflexivity; [ring|..];
  (unfold gow_species in Hs; repeat (destruct Hs as [<-|Hs]; [reflexivity|])); destruct Hs.
Qed.

(** ** gow17: nothing is driven below zero *)
Definition weight (w : gsp -> Z) (r : rx) : Z := fold_right Z.add 0%Z (map (fun s => w s * net r s)%Z gow_species).
Definition safe (w : gsp -> Z) (g : gsp) (r : rx) : bool := orb (0 <=? weight w r)%Z (if in_dec gsp_eq g (law r) then true else false).
Lemma over_lin w f l : forall (k : R), over l w (fun s => k * f s) = k * over l w f.
Proof. intros k. unfold over. induction l as [|a l IH]; unfold sum in *; cbn; [ring|]. rewrite IH. ring. Qed.
Lemma over_swap (w : gsp -> Z) z : forall L l, over l w (fun s => sum (map (contrib z s) L)) = sum (map (fun p => over l w (fun s => contrib z s p)) L).
Proof.
  intros L. induction l as [|s l IH].
  - unfold over, sum. cbn. induction L as [|p L IH]; cbn; [reflexivity|]. rewrite <- IH. ring.
  - assert (E : forall f, over (s :: l) w f = IZR (w s) * f s + over l w f) by reflexivity. rewrite E, IH. clear IH. induction L as [|p L IH]; [unfold sum; cbn; ring|]. cbn [map]. unfold sum in *. cbn [fold_right]. rewrite E, <- IH. ring.
Qed.
Lemma over_contrib w z p : over gow_species w (fun s => contrib z s p) = speed (fst p) (snd p) z * IZR (weight w (snd p)).
Proof.
  unfold contrib, weight, over. induction gow_species as [|s l IH]; unfold sum in *; cbn [map fold_right]; [ring|]. rewrite IH, plus_IZR, mult_IZR. ring.
Qed.
Lemma speed_pos k r z : 0 <= k -> (forall s, 0 <= z s) -> 0 <= speed k r z.
Proof. intros Kp Z. unfold speed. apply Rmult_le_pos; auto. induction (law r); cbn; [lra|]. apply Rmult_le_pos; auto. Qed.
Lemma speed_zero k r z g : In g (law r) -> z g = 0 -> speed k r z = 0.
Proof. intros I Z. unfold speed. induction (law r) as [|a l IH]; [destruct I|]. cbn. destruct I as [->|I]; [rewrite Z; ring|]. specialize (IH I). replace (k * (z a * fold_right Rmult 1 (map z l))) with (z a * (k * fold_right Rmult 1 (map z l))) by ring. rewrite IH. ring. Qed.
Lemma over_ext l w f g : (forall s, In s l -> f s = g s) -> over l w f = over l w g.
Proof. intros H. unfold over. f_equal. apply map_ext_in. intros s Hs. rewrite H; auto. Qed.
Lemma safe_sum (w : gsp -> Z) g z : (forall s, 0 <= z s) -> z g = 0 -> forall L, Forall (fun p => 0 <= fst p) L -> Forall (fun p => safe w g (snd p) = true \/ speed (fst p) (snd p) z = 0) L -> 0 <= sum (map (fun p => over gow_species w (fun s => contrib z s p)) L).
Proof.
  intros Z G. induction L as [|p L IH]; intros F C; [unfold sum; cbn; lra|]. inversion C as [|? ? C0 D]; subst. inversion F; subst. cbn [map]. rewrite sum_cons.
  apply Rplus_le_le_0_compat; [|apply IH; auto]. rewrite over_contrib. destruct C0 as [C0|C0]; [|rewrite C0; lra]. unfold safe in C0. apply Bool.orb_prop in C0. destruct C0 as [C0|C0].
  - apply Z.leb_le in C0. apply Rmult_le_pos; [apply speed_pos; auto|apply IZR_le in C0; exact C0].
  - destruct (in_dec gsp_eq g (law (snd p))); [|discriminate]. rewrite (speed_zero _ _ _ g) by auto. lra.
Qed.
Lemma forallb_comb (f : rx -> bool) (Q : R * rx -> Prop) : forall (ks : list R) l, forallb f l = true -> Forall (fun p => f (snd p) = true \/ Q p) (combine ks l).
Proof. induction ks as [|k ks IH]; intros [|r l] H; cbn in *; auto. apply andb_prop in H. constructor; [left; apply H|apply IH, H]. Qed.
Lemma Forall_comb {B} : forall ks (l : list B), Forall (fun k => 0 <= k) ks -> Forall (fun p : R * B => 0 <= fst p) (combine ks l).
Proof. induction ks as [|k ks IH]; intros [|r l] H; cbn; auto. inversion H; subst. constructor; auto. Qed.
Lemma gow_drive xC xO xHe xSi tcgs K y w g : let z := GetGhostSpecies xC xO xHe xSi y in fits K -> 0 <= tcgs -> (forall s, 0 <= z s) -> z g = 0 -> forallb (safe w g) formulas = true ->
  0 <= over gow_species w (gow_RHS xC xO xHe xSi tcgs K y).
Proof.
  intros z F T Z G C. rewrite (over_ext _ _ _ (fun s => tcgs * sum (map (contrib z s) (combine (rates K) formulas)))) by (intros s Hs; apply gow_sum; auto).
  rewrite over_lin, over_swap. apply Rmult_le_pos; auto. apply (safe_sum w g z Z G); [apply Forall_comb, F|apply (forallb_comb (safe w g)); auto].
Qed.
Lemma over_ind s f : In s gow_species -> over gow_species (ind s) f = f s.
Proof. unfold over, gow_species, sum. intros H. repeat (destruct H as [<-|H]; [cbn [map fold_right ind gsp_eq]; unfold ind; cbn; ring|]). destruct H. Qed.
Lemma gow_positive xC xO xHe xSi tcgs K y s : let z := GetGhostSpecies xC xO xHe xSi y in fits K -> 0 <= tcgs -> (forall s, 0 <= z s) -> In s gow_species -> z s = 0 -> 0 <= gow_RHS xC xO xHe xSi tcgs K y s.
Proof.
  intros z F T Z Hs G. rewrite <- (over_ind s (gow_RHS xC xO xHe xSi tcgs K y)) by auto. apply (gow_drive xC xO xHe xSi tcgs K y (ind s) s); auto.
  clear -Hs. unfold gow_species in Hs. repeat (destruct Hs as [<-|Hs]; [reflexivity|]). destruct Hs.
Qed.
Lemma over_neg w f l : over l (fun s => - w s)%Z f = - over l w f.
Proof. unfold over. induction l as [|a l IH]; unfold sum in *; cbn; [ring|]. rewrite IH, opp_IZR. ring. Qed.
Lemma gow_free xC xO xHe xSi tcgs K y el : let z := GetGhostSpecies xC xO xHe xSi y in fits K -> 0 <= tcgs -> (forall s, 0 <= z s) -> el <> Hydrogen -> z (free el) = 0 ->
  over gow_species (atoms el) (gow_RHS xC xO xHe xSi tcgs K y) <= 0.
Proof.
  intros z F T Z Hs G. enough (0 <= over gow_species (fun s => - atoms el s)%Z (gow_RHS xC xO xHe xSi tcgs K y)) by (rewrite over_neg in H; lra).
  apply (gow_drive xC xO xHe xSi tcgs K y _ (free el)); auto. destruct el; [contradiction|reflexivity..].
Qed.
(** Without the cosmic-ray ionization of CO, the same for atomic hydrogen. *)
Lemma gow_free_H xC xO xHe xSi tcgs K y : let z := GetGhostSpecies xC xO xHe xSi y in fits K -> 0 <= tcgs -> (forall s, 0 <= z s) -> z gH = 0 -> nth 5 (kcr K) 0 * z CO = 0 ->
  over gow_species (atoms Hydrogen) (gow_RHS xC xO xHe xSi tcgs K y) <= 0.
Proof.
  intros z F T Z G Q. enough (0 <= over gow_species (fun s => - atoms Hydrogen s)%Z (gow_RHS xC xO xHe xSi tcgs K y)) by (rewrite over_neg in H; lra).
  rewrite (over_ext _ _ _ (fun s => tcgs * sum (map (contrib z s) (combine (rates K) formulas)))) by (intros s Hs; apply gow_sum; auto).
  rewrite over_lin, over_swap. apply Rmult_le_pos; auto. set (w := fun s => (- atoms Hydrogen s)%Z).
  apply (safe_sum w gH z Z G); [apply Forall_comb, F|]. apply Forall_forall. intros p Hp. apply (In_nth _ _ (0, formula [] [])) in Hp. destruct Hp as (n & Hn & Ep).
  destruct F as (L1 & L2 & L3 & L4 & _). assert (Lr : length (rates K) = length formulas) by (unfold rates; rewrite !app_length, L1, L2, L3, L4; reflexivity).
  rewrite combine_length, Lr, Nat.min_id in Hn. rewrite combine_nth in Ep by auto. subst p. cbn [fst snd]. destruct (Nat.eq_dec n 5) as [->|N].
  - right. unfold rates. rewrite app_nth1 by (rewrite L1; lia). change (nth 5 formulas (formula [] [])) with (formula [CO] [HCOP; ge]). unfold speed. cbn [law formula map fold_right]. rewrite Rmult_1_r. exact Q.
  - left. assert (C : forallb (fun n => orb (Nat.eqb n 5) (safe w gH (nth n formulas (formula [] [])))) (seq 0 (length formulas)) = true) by reflexivity.
    rewrite forallb_forall in C. specialize (C n (proj2 (in_seq _ _ _) (conj (Nat.le_0_l n) Hn))). apply Nat.eqb_neq in N. rewrite N in C. exact C.
Qed.
(** In a cloud without free hydrogen atoms, cosmic rays make HCO+ out of CO and of nothing. *)
Definition dark (s : gsp) : R := match s with H2 => / 2 | CO => / 10000 | _ => 0 end.
Definition only_cr5 : grates := mkGR [0; 0; 0; 0; 0; 1; 0] (repeat 0 31) (repeat 0 6) (repeat 0 5).
Lemma speed_0 r z : speed 0 r z = 0. Proof. unfold speed. ring. Qed.
Lemma dark_H : let z := GetGhostSpecies (/ 10000) (3 / 10000) (/ 10) 0 dark in fits only_cr5 /\ (forall s, 0 <= z s) /\ z gH = 0 /\ 0 < over gow_species (atoms Hydrogen) (gow_RHS (/ 10000) (3 / 10000) (/ 10) 0 1 only_cr5 dark).
Proof.
  cbv zeta. assert (Fi : fits only_cr5). { unfold fits, only_cr5, rates. cbn. repeat split; repeat (constructor; try lra). }
  assert (Z : forall s, 0 <= GetGhostSpecies (/ 10000) (3 / 10000) (/ 10) 0 dark s) by (intros []; cbn [GetGhostSpecies dark]; lra).
  refine (conj Fi (conj Z (conj _ _))); [cbn [GetGhostSpecies dark]; field|].
  rewrite (over_ext _ _ _ (fun s => 1 * sum (map (contrib (GetGhostSpecies (/ 10000) (3 / 10000) (/ 10) 0 dark) s) (combine (rates only_cr5) formulas)))) by (intros s Hs; apply gow_sum; auto).
  rewrite over_lin, over_swap. unfold rates, only_cr5, formulas. cbn [kcr k2body kph kgr repeat app cosmic twobody photo grain combine map]. rewrite !sum_cons, !over_contrib. cbn [fst snd]. rewrite !speed_0.
  unfold sum. cbn [fold_right]. change (weight (atoms Hydrogen) (formula [CO] [HCOP; ge])) with 1%Z. cbn [law formula map fold_right GetGhostSpecies dark]. unfold speed. cbn [law formula map fold_right GetGhostSpecies dark]. lra.
Qed.
