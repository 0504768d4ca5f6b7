(** The loop over the coarser neighbours. *)
From Coq Require Import List Arith NArith ZArith Bool Lia Permutation.
From Verif Require Import Loc LB_Spec Tags_Model Tags_Spec Tags_Proofs AMR_Model AMR_Spec AMR_Proofs AMR_Proofs2 Tree_Model Tree_Spec Tree_Proofs1 Tree_Proofs2 Tree_Proofs3 Tree_Proofs4 Tree_Proofs5 Tree_Proofs6 Tree_Proofs7 Tree_Proofs8 Tree_Restart Tree_Proofs9 Tree_Proofs10 Nbr_Model Nbr_Spec Nbr_Proofs Nbr_Proofs2 Nbr_Proofs3 Buf_Model Gho_Model Gho_Spec Gho_Proofs Gho_Proofs2 Gho_Proofs3 Gho_Proofs4 Gho_Proofs5 Pro_Model Pro_Spec Pro_Proofs Pro_Proofs2.
Import ListNotations.
Local Open Scope Z_scope.

Lemma inrange_iff : forall r (x : cell), inrange r (x 2%nat) (x 1%nat) (x 0%nat) = true <-> inbox r x.
Proof.
  intros r x. unfold inrange. rewrite !andb_true_iff, !Z.leb_le. split.
  - intros H [|[|[|d]]] Hd; lia.
  - intros H. pose proof (H 0%nat ltac:(lia)). pose proof (H 1%nat ltac:(lia)). pose proof (H 2%nat ltac:(lia)). tauto.
Qed.
Lemma write_in : forall X r (f v : arr4 (A := X)) x, inbox r x -> value (write r f v) 0 x = value f 0 x.
Proof. intros X r f v x H. unfold value, write. apply inrange_iff in H. rewrite H. reflexivity. Qed.
Lemma write_out : forall X r (f v : arr4 (A := X)) x, ~ inbox r x -> value (write r f v) 0 x = value v 0 x.
Proof. intros X r f v x H. unfold value, write. destruct (inrange r (x 2%nat) (x 1%nat) (x 0%nat)) eqn:E; [|reflexivity]. apply inrange_iff in E. contradiction. Qed.
Lemma fold_writes : forall X Y (cond : Y -> bool) (r : Y -> nat -> rangez) (f : arr4 (A := X)) l v s, let res := fold_left (fun c o => if cond o then write (r o) f c else c) l v in
  ((exists o, In o l /\ cond o = true /\ inbox (r o) s) -> value res 0 s = value f 0 s) /\ ((forall o, In o l -> cond o = true -> ~ inbox (r o) s) -> value res 0 s = value v 0 s) /\ (value v 0 s = value f 0 s -> value res 0 s = value f 0 s).
Proof.
  intros X Y cond r f l. induction l as [|o l IH]; intros v s; cbn [fold_left]; cbv zeta.
  - split; [intros (o & [] & _)|]. split; [reflexivity|auto].
  - destruct (IH (if cond o then write (r o) f v else v) s) as (I1 & I2 & I3). cbv zeta in *. split; [|split].
    + intros (o' & [->|Ho] & Hc & Hi); [|apply I1; exists o'; auto]. apply I3. rewrite Hc. apply write_in, Hi.
    + intros H. rewrite I2 by (intros o' Ho; apply H; right; exact Ho). destruct (cond o) eqn:Ec; [|reflexivity]. apply write_out. apply H; [left; reflexivity|exact Ec].
    + intros H. apply I3. destruct (cond o); [|exact H]. destruct (inbox_dec (r o) s) as [Hi|Hi]; [apply write_in, Hi|rewrite write_out by exact Hi; exact H].
Qed.

Lemma faces_in : forall d hi, In (d, hi) faces <-> (d < 3)%nat.
Proof.
  intros d hi. split; [intros H; cbn in H; repeat (destruct H as [H|H]; [injection H as H _; lia|]); contradiction|]. intros H. destruct d as [|[|[|d]]]; [| | |lia]; destruct hi; cbn; tauto.
Qed.

Section N.
Variable g : grid.
Hypothesis Vg : valid_grid g.
Hypothesis NP : no_pole g.
Hypothesis NS : no_shear g.
Hypothesis PL : plain g.
Variable t : tree.
Hypothesis W : wf g t.
Hypothesis Bt : B g t.
Variable ml : bool.
Hypothesis ML : declared g ml (blocks t).
Local Notation dim := (gdim g).
Local Notation E := (E g t ml).
Variable Bz : bsz.
Hypothesis FT : fitting g Bz ml.
Hypothesis NG : ng Bz = 2.
Local Notation D13 := (dim13 g Vg).
Variable a : loc.
Hypothesis Ha : In a (blocks t).
Hypothesis Hm : ml = true.
Local Notation bs := (blocks t).
Context {A P : Type}.
Variable Rs : arr4 (A := A) -> arr4 (A := A).
Variable c2p : Z -> Z -> Z -> A -> P.
Variable p2c : Z -> Z -> Z -> P -> A.
Variable Pr : arr4 (A := P) -> arr4 (A := P).
Variable bc : nat -> bool -> arr4 (A := P) -> arr4 (A := P).
Hypothesis LR : local_restriction g Bz Rs.
Hypothesis LB : local_boundary g Bz bc.
Variable V : loc -> arr4 (A := A).
Variable u1 : arr4 (A := A).

Section Entry.
Variable e : nblock.
Hypothesis He : E a e.
Hypothesis Hl : (level (n_loc e) < level a)%nat.
Let lev_root := lev_root g Vg NP t W Bt ml ML a Ha e He Hl.
Let e_ox := e_ox g Vg NP NS t W Bt ml ML a Ha e He Hl.
Let box_active := box_active g Vg NP NS t W Bt ml ML Bz FT NG a Ha Hm e He Hl.
Let box_inactive := box_inactive g Vg NP NS t W Bt ml ML Bz FT a Ha e He Hl.
Let box_set := box_set g Vg NP NS t W Bt ml ML Bz FT NG a Ha Hm e He Hl.
Let set_place := set_place g Vg NP NS t W Bt ml ML Bz FT NG a Ha Hm e He Hl.
Let around := around g Vg NP NS PL t W Bt ml ML Bz FT NG a Ha Hm e He Hl.

(** Fine cells and the coarse ones around them. *)
Lemma fine_box : forall x, inbox (fine_range Bz a e) x <-> inbox (box Bz a e) (coarse_cell g Bz x).
Proof using Vg NP NS W Bt ML FT NG Ha Hm He Hl.
  intros x. split; intros H d Hd; specialize (H d Hd); unfold fine_range, coarse_cell in *; (destruct (Nat.ltb_spec d dim) as [Hdd|Hdd];
    [destruct (box_active d Hdd) as (h & G1 & G2 & G3 & G4 & C1 & C2 & C3 & _); destruct (active_facts g Bz ml D13 FT d Hdd) as (E1 & _); rewrite C1, C3, E1, NG in *; destruct (box Bz a e d) as [lo hi]; cbn [fst snd] in *; pose proof (Z.div_mod (x d - 2) 2 ltac:(lia)); pose proof (Z.mod_pos_bound (x d - 2) 2 ltac:(lia)); lia
    |destruct (box_inactive d Hdd Hd) as (_ & _ & C1 & C2 & C3 & _ & _ & _ & Q & _); rewrite C1, C2, C3, Q in *; exact H]).
Qed.
Lemma fine_near : forall x, inbox (fine_range Bz a e) x -> near Bz dim false (ng Bz) x.
Proof using Vg NP NS W Bt ML FT NG Ha Hm He Hl.
  intros x H d Hd. specialize (H d Hd). unfold fine_range in H. destruct (Nat.ltb_spec d dim) as [Hdd|Hdd]; cbv zeta.
  - destruct (box_active d Hdd) as (h & G1 & G2 & G3 & G4 & C1 & C2 & C3 & Q4 & _ & Q5 & Cs). destruct (active_facts g Bz ml D13 FT d Hdd) as (E1 & _). rewrite C1, C3, E1 in H. rewrite Q4, Q5, NG in *. destruct Cs as [(_ & _ & Q & _)|[(_ & _ & Q & _)|[(_ & _ & Q & _)|(_ & _ & Q & _)]]]; rewrite Q in H; cbn [fst snd] in H; lia.
  - destruct (box_inactive d Hdd Hd) as (_ & _ & C1 & C2 & C3 & Q4 & Q5 & _). rewrite C1, C2, C3 in H. rewrite Q4, Q5. cbn [fst snd] in H. lia.
Qed.

(** Step 1. *)
Definition rcond (o : dirt) : bool := let '(n1, n2, n3) := o in negb (Z.eqb (Z.abs n1 + Z.abs n2 + Z.abs n3) 0 || negb (Z.eqb (nblevel g t a o) (Z.of_nat (level a)))).
Lemma rg_fold : forall u cu, RestrictGhosts Rs g t Bz a e u cu = fold_left (fun c o => if rcond o then write (same_range Bz e o) (Rs u) c else c) (ndirs Bz e) cu.
Proof using.
  intros u cu. unfold RestrictGhosts. generalize (ndirs Bz e) cu. clear cu. induction l as [|[[n1 n2] n3] l IH]; intros cu; [reflexivity|]. cbn [fold_left]. rewrite IH. f_equal. unfold rcond. destruct (Z.eqb _ _ || _); reflexivity.
Qed.
Lemma ndirs_in : forall n1 n2 n3, In (n1, n2, n3) (ndirs Bz e) -> In n1 (ints (nrange Bz e 0)) /\ In n2 (ints (nrange Bz e 1)) /\ In n3 (ints (nrange Bz e 2)).
Proof using.
  intros n1 n2 n3 H. unfold ndirs in H. apply in_flat_map in H as (z & Hz & H). apply in_flat_map in H as (y & Hy & H). apply in_map_iff in H as (x & Ex & Hx). injection Ex as -> -> ->. auto.
Qed.
Lemma ndirs_ok : forall o, In o (ndirs Bz e) -> rcond o = true -> okdir dim o /\ nblevel g t a o = Z.of_nat (level a).
Proof using Vg NP NS W Bt ML FT Ha He Hl.
  intros [[n1 n2] n3] Hin Hc. unfold rcond in Hc. apply negb_true_iff, orb_false_elim in Hc as [Hc1 Hc2]. apply Z.eqb_neq in Hc1. apply negb_false_iff, Z.eqb_eq in Hc2. split; [|exact Hc2].
  apply ndirs_in in Hin as (H1 & H2 & H3). pose proof D13. apply in_ints in H1, H2, H3. unfold nrange in *. pose proof (e_ox 0%nat ltac:(lia)) as (X1 & _). pose proof (e_ox 1%nat ltac:(lia)) as (X2 & _). pose proof (e_ox 2%nat ltac:(lia)) as (X3 & _).
  assert (I2 : (dim < 2)%nat -> actv Bz 1 = false) by (intros X; apply (box_inactive 1%nat); lia). assert (I3 : (dim < 3)%nat -> actv Bz 2 = false) by (intros X; apply (box_inactive 2%nat); lia).
  unfold okdir. assert (Y1 : (dim < 2)%nat -> n2 = 0) by (intros X; rewrite (I2 X) in H2; cbn [fst snd] in H2; lia). assert (Y2 : (dim < 3)%nat -> n3 = 0) by (intros X; rewrite (I3 X) in H3; cbn [fst snd] in H3; lia).
  assert (Z1 : -1 <= n1 <= 1) by (clear - H1 X1; destruct (actv Bz 0); cbn [fst snd] in H1; lia). assert (Z2 : -1 <= n2 <= 1) by (clear - H2 X2; destruct (actv Bz 1); cbn [fst snd] in H2; lia). assert (Z3 : -1 <= n3 <= 1) by (clear - H3 X3; destruct (actv Bz 2); cbn [fst snd] in H3; lia).
  clear - Hc1 Y1 Y2 Z1 Z2 Z3. repeat split; try assumption; lia.
Qed.
Lemma same_range_side : forall o s, In o (ndirs Bz e) -> rcond o = true -> inbox (same_range Bz e o) s -> near Bz dim true (cng Bz) s /\ forall d, (d < 3)%nat -> side Bz dim true s d = od o d.
Proof using Vg NP NS W Bt ML FT NG Ha Hm He Hl.
  intros o s Hin Hc Hs. pose proof (proj1 (ndirs_ok o Hin Hc)) as Ok. destruct o as [[n1 n2] n3].
  assert (R : forall d, (d < 3)%nat -> (od (n1, n2, n3) d = -1 \/ od (n1, n2, n3) d = 0 \/ od (n1, n2, n3) d = 1) /\ ((dim <= d)%nat -> od (n1, n2, n3) d = 0)). { pose proof D13. unfold okdir in Ok. intros [|[|[|d]]] Hd; cbn [od off3]; lia. }
  assert (Q : forall d, (d < 3)%nat -> fst (same_range Bz e (n1, n2, n3) d) <= s d <= snd (same_range Bz e (n1, n2, n3) d) -> (let w := if Nat.ltb d dim then cng Bz else 0 in first Bz dim d - w <= s d < first Bz dim d + size Bz dim true d + w) /\ side Bz dim true s d = od (n1, n2, n3) d).
  { intros d Hd H. unfold same_range in H. replace (match d with 0%nat => fst (fst (n1, n2, n3)) | 1%nat => snd (fst (n1, n2, n3)) | _ => snd (n1, n2, n3) end) with (od (n1, n2, n3) d) in H by (destruct d as [|[|[|d]]]; [reflexivity|reflexivity|reflexivity|lia]).
    destruct (R d Hd) as [R1 R2]. destruct (e_ox d Hd) as (X & _). unfold side. destruct (Nat.ltb_spec d dim) as [Hdd|Hdd].
    - destruct (box_active d Hdd) as (h & G1 & G2 & G3 & G4 & C1 & C2 & C3 & Q4 & Q5 & _). rewrite C1, C2 in H. rewrite Q4, Q5, G4. cbv zeta. destruct R1 as [R1|[R1|R1]]; rewrite R1 in *; cbn [Z.eqb Pos.eqb fst snd] in H;
        destruct (Z.eqb_spec (ox e d) 1), (Z.eqb_spec (ox e d) (-1)), (Z.ltb_spec (s d) 2), (Z.leb_spec (2 + h) (s d)); cbn [fst snd] in *; lia.
    - destruct (box_inactive d Hdd Hd) as (C1 & C2 & _ & _ & _ & Q4 & Q5 & Q6 & _). rewrite (R2 Hdd), C1, C2, Q6 in H. rewrite Q4, Q5, (R2 Hdd). cbn [Z.eqb Pos.eqb fst snd] in H. cbv zeta. destruct (Z.ltb_spec (s d) 0), (Z.leb_spec (0 + 1) (s d)); lia. }
  split; intros d Hd; destruct (Q d Hd (Hs d Hd)); assumption.
Qed.
Lemma restricted_level : forall o s, In o (ndirs Bz e) -> rcond o = true -> inbox (same_range Bz e o) s -> in_level g Bz bs a s /\ ~ own Bz dim true s.
Proof using Vg NP NS W Bt ML FT NG Ha Hm He Hl.
  intros o s Hin Hc Hs. destruct (ndirs_ok o Hin Hc) as [Ok Nb]. destruct (same_range_side o s Hin Hc Hs) as [N Sd]. pose proof D13. split.
  - destruct (nblevel_same g Vg NP NS t W Bt a Ha o Ok Nb) as (b & Hb & NB). apply (level_place g Vg t W ml Bz FT a Ha Hm s b lev_root N Hb). apply (np_ext g a (od o)); [|exact NB]. intros d Hd. symmetry. apply Sd. lia.
  - intros O. apply (proj2 (side_own g Bz true s)) in O as O' || pose proof (proj2 (side_own g Bz true s) O) as O'. destruct o as [[n1 n2] n3]. pose proof (Sd 0%nat ltac:(lia)) as S0. pose proof (Sd 1%nat ltac:(lia)) as S1. pose proof (Sd 2%nat ltac:(lia)) as S2. cbn [od off3] in *. rewrite (O' 0%nat ltac:(lia)) in S0. rewrite (O' 1%nat ltac:(lia)) in S1. rewrite (O' 2%nat ltac:(lia)) in S2. unfold okdir in Ok. lia.
Qed.

(** The arrays before an entry is treated. *)
Definition ok_u (u : arr4 (A := A)) : Prop := forall x, value u 0 x = value u1 0 x \/ (near Bz dim false (ng Bz) x /\ exists b y, in_coarser g Bz bs a (coarse_cell g Bz x) b y).
Definition ok_c (cu : arr4 (A := A)) : Prop := forall s b y, near Bz dim true (cng Bz) s -> in_coarser g Bz bs a s b y -> value cu 0 s = value (V b) 0 y.
Definition ok_o (cu : arr4 (A := A)) : Prop := forall s e, E a e -> (level (n_loc e) < level a)%nat -> own Bz dim true s -> inbox (load_coarser Bz e) s -> value cu 0 s = value (Rs u1) 0 s.
Lemma rs_level : forall u s, ok_u u -> in_level g Bz bs a s -> value (Rs u) 0 s = value (Rs u1) 0 s.
Proof using Vg W Hm FT LR.
  intros u s Hu Hs. apply LR. intros x Hx. destruct (Hu x) as [H|(_ & b & y & H)]; [exact H|]. exfalso. apply (level_excl g Vg t W ml Bz FT a Hm s b y); [|exact Hs]. apply (in_coarser_ext g t Bz a (coarse_cell g Bz x) s b y Hx H).
Qed.
Lemma step1 : forall u cu, ok_u u -> ok_c cu -> ok_o cu -> let cu' := RestrictGhosts Rs g t Bz a e u cu in
  ok_c cu' /\ ok_o cu' /\ forall s, in_level g Bz bs a s -> region_ok g t Bz a e s -> value cu' 0 s = value (Rs u1) 0 s.
Proof using Vg NP NS W Bt ML FT NG Ha Hm He Hl LR.
  intros u cu Hu Hc Ho cu'. unfold cu'. rewrite rg_fold. pose proof (fold_writes A dirt rcond (same_range Bz e) (Rs u) (ndirs Bz e) cu) as F. cbv zeta in F.
  assert (O' : ok_o (fold_left (fun c o => if rcond o then write (same_range Bz e o) (Rs u) c else c) (ndirs Bz e) cu)).
  { intros s e0 He0 Hl0 O Hs. destruct (F s) as (_ & F2 & _). rewrite F2; [apply (Ho s e0); assumption|]. intros o Hin Hr Hi. destruct (restricted_level o s Hin Hr Hi) as [_ X]. contradiction. }
  split; [|split; [exact O'|]].
  - intros s b y N Pl. destruct (F s) as (_ & F2 & _). rewrite F2; [apply Hc; assumption|]. intros o Hin Hr Hi. destruct (restricted_level o s Hin Hr Hi) as [X _]. apply (level_excl g Vg t W ml Bz FT a Hm s b y Pl X).
  - intros s Ls [[O Hi]|(o & Hin & Ok & Nb & Hi)]; [apply (O' s e); assumption|]. destruct (F s) as (F1 & _). rewrite F1; [apply rs_level; assumption|]. exists o. split; [exact Hin|]. split; [|exact Hi]. destruct o as [[n1 n2] n3]. unfold rcond. rewrite Nb, Z.eqb_refl. cbn [negb]. rewrite orb_false_r. apply negb_true_iff, Z.eqb_neq. unfold okdir in Ok. lia.
Qed.

(** Step 2. *)
Definition actb (f : nat * bool) : bool := let (d, hi) := f in Z.eqb (ox e d) 0 && actv Bz d && applies g a d hi.
Definition hits (f : nat * bool) (s : cell) : Prop := actb f = true /\ inbox (wall_range Bz a e (fst f) (snd f)) s.
Lemma walls_none : forall fs c s, (forall f, In f fs -> ~ hits f s) -> value (ApplyWalls bc g Bz a e fs c) 0 s = value c 0 s.
Proof using.
  unfold ApplyWalls. induction fs as [|[d hi] fs IH]; intros c s H; [reflexivity|]. cbn [fold_left]. rewrite IH by (intros f Hf; apply H; right; exact Hf). pose proof (H (d, hi) (or_introl eq_refl)) as Hh. unfold hits, actb in Hh. cbn [fst snd] in Hh. destruct (_ && _) eqn:Ea; [|reflexivity]. apply write_out. intros Hi. apply Hh. split; [reflexivity|exact Hi].
Qed.
Lemma walls_one : forall d hi fs c s, (forall s', row Bz dim d s s' -> forall f, In f fs -> ~ hits f s') -> (forall f, In f fs -> hits f s -> f = (d, hi)) -> (exists f, In f fs /\ hits f s) ->
  value (ApplyWalls bc g Bz a e fs c) 0 s = value (bc d hi (ApplyWalls bc g Bz a e fs c)) 0 s.
Proof using LB.
  intros d hi. induction fs as [|f fs IH]; intros c s Hr Hu Hex; [destruct Hex as (f & [] & _)|].
  assert (DH : (exists f, In f fs /\ hits f s) \/ forall f, In f fs -> ~ hits f s).
  { clear. induction fs as [|f fs IH]; [right; intros f []|]. destruct IH as [(f' & H1 & H2)|IH]; [left; exists f'; split; [right; exact H1|exact H2]|]. unfold hits in *. destruct (actb f) eqn:Ea; [destruct (inbox_dec (wall_range Bz a e (fst f) (snd f)) s) as [Hi|Hi]; [left; exists f; split; [left; reflexivity|split; assumption]|]|];
      right; intros f' [<-|Hf'] [X1 X2]; first [contradiction|congruence|apply (IH f' Hf'); split; assumption]. }
  destruct DH as [DH|DH].
  - change (ApplyWalls bc g Bz a e (f :: fs) c) with (ApplyWalls bc g Bz a e fs (ApplyWalls bc g Bz a e [f] c)). apply IH; [intros s' Hs' f' Hf'; apply (Hr s' Hs'); right; exact Hf'|intros f' Hf'; apply Hu; right; exact Hf'|exact DH].
  - destruct Hex as (f' & [<-|Hf'] & Hh); [|contradiction (DH f' Hf' Hh)]. pose proof (Hu f (or_introl eq_refl) Hh) as ->.
    change (ApplyWalls bc g Bz a e ((d, hi) :: fs) c) with (ApplyWalls bc g Bz a e fs (ApplyWalls bc g Bz a e [(d, hi)] c)). rewrite walls_none by exact DH.
    transitivity (value (bc d hi c) 0 s).
    + unfold ApplyWalls. cbn [fold_left]. destruct Hh as [H1 H2]. unfold actb in H1. rewrite H1. apply write_in, H2.
    + apply LB. intros s' Hs'. symmetry. change (ApplyWalls bc g Bz a e fs (ApplyWalls bc g Bz a e [(d, hi)] c)) with (ApplyWalls bc g Bz a e ((d, hi) :: fs) c). apply walls_none. apply Hr, Hs'.
Qed.
Lemma hits_wall : forall d hi s, hits (d, hi) s -> at_wall g a d hi /\ ox e d = 0 /\ s d = (if hi then ce_ Bz d + 1 else cs_ Bz d - 1) /\ side Bz dim true s d = (if hi then 1 else -1) \/ (3 <= d)%nat.
Proof using Vg NP NS W Bt ML FT NG Ha Hm He Hl.
  intros d hi s [H1 H2]. destruct (Nat.lt_ge_cases d 3) as [Hd|Hd]; [left|right; exact Hd]. unfold actb in H1. apply andb_prop in H1 as [H1 H4]. apply andb_prop in H1 as [H1 H3]. apply Z.eqb_eq in H1.
  destruct (Nat.lt_ge_cases d dim) as [Hdd|Hdd]; [|exfalso; destruct (box_inactive d Hdd Hd) as (_ & _ & _ & _ & X & _); congruence]. apply (applies_iff g Vg a d hi Hdd) in H4. split; [exact H4|]. split; [exact H1|].
  specialize (H2 d Hd). cbn [fst snd] in H2. unfold wall_range in H2. rewrite Nat.eqb_refl in H2. destruct (box_active d Hdd) as (h & G1 & G2 & G3 & G4 & C1 & C2 & C3 & Q4 & Q5 & _). unfold side. rewrite Q4, Q5. rewrite C1, C2 in *. destruct hi; cbn [fst snd] in H2; (split; [lia|]); destruct (Z.ltb_spec (s d) 2), (Z.leb_spec (2 + h) (s d)); lia.
Qed.
Lemma step2 : forall cu cw0 c s, inbox (box Bz a e) c -> stencil g c s -> let cw := ApplyWalls bc g Bz a e faces (write (grown g t Bz a e) (pointwise c2p cu) cw0) in
  (exists d hi, at_wall g a d hi /\ side Bz dim true s d = (if hi then 1 else -1) /\ value cw 0 s = value (bc d hi cw) 0 s) \/
  (regular g t Bz a e s /\ value cw 0 s = c2p (s 2%nat) (s 1%nat) (s 0%nat) (value cu 0 s)).
Proof using Vg NP NS PL W Bt ML FT NG Ha Hm He Hl LB.
  intros cu cw0 c s Hc St cw. pose proof D13 as D. destruct (around c s Hc St) as [(d & hi & (Hw & Hox & Hsd & Hs & Hb))|Rg].
  - left. exists d, hi. split; [exact Hw|]. split; [exact Hsd|]. assert (Hd : (d < dim)%nat) by apply Hw. destruct (box_active d Hd) as (h & G1 & G2 & G3 & G4 & C1 & C2 & C3 & Q4 & Q5 & _).
    assert (Other : forall s' d2 hi2, (d2 < 3)%nat -> d2 <> d -> s' d2 = s d2 -> ~ hits (d2, hi2) s').
    { intros s' d2 hi2 Hd2 Hne Es' Hh. destruct (hits_wall d2 hi2 s' Hh) as [(Hw2 & Hox2 & Hs2 & _)|X]; [|lia]. pose proof (wall_parity g a d2 hi2 lev_root Hw2) as Ev. rewrite <- lx_coord in Ev. specialize (Hb d2 Hd2 Hne). rewrite Es' in Hs2. assert (Hdd2 : (d2 < dim)%nat) by apply Hw2.
      destruct (box_active d2 Hdd2) as (h2 & _ & _ & G & _ & C21 & C22 & _ & _ & _ & _ & Cs). rewrite C21, C22 in Hs2. destruct hi2; cbn [negb] in Ev; destruct Cs as [(Y0 & Y1 & Y2 & _)|[(Y0 & Y1 & Y2 & _)|[(Y0 & _)|(Y0 & _)]]]; try lia; try congruence; rewrite Y2 in Hb; cbn [fst snd] in Hb; lia. }
    apply walls_one.
    + intros s' (R1 & R2) [d2 hi2] Hin Hh. apply faces_in in Hin. destruct (Nat.eq_dec d2 d) as [->|Hne]; [|apply (Other s' d2 hi2 Hin Hne (R2 d2 Hin Hne) Hh)]. destruct (hits_wall d hi2 s' Hh) as [(_ & _ & X & _)|X]; [|lia]. rewrite C1, C2 in X. rewrite Q4, Q5 in R1. destruct hi2; lia.
    + intros [d2 hi2] Hin Hh. apply faces_in in Hin. destruct (Nat.eq_dec d2 d) as [->|Hne]; [|contradiction (Other s d2 hi2 Hin Hne eq_refl Hh)]. f_equal. destruct (hits_wall d hi2 s Hh) as [(_ & _ & X & _)|X]; [|lia]. rewrite C1, C2 in *. destruct hi, hi2; first [reflexivity|lia].
    + exists (d, hi). split; [apply faces_in; lia|]. split; [unfold actb; rewrite Hox, C3; cbn [Z.eqb andb]; apply (applies_iff g Vg a d hi Hd), Hw|]. intros d' Hd'. cbn [fst snd]. unfold wall_range. destruct (Nat.eqb_spec d' d) as [->|Hne]; [rewrite Hs; destruct hi; cbn [fst snd]; lia|apply Hb; assumption].
  - right. split; [exact Rg|]. destruct Rg as (N & NW & _). unfold cw. rewrite walls_none.
    + rewrite write_in; [reflexivity|]. destruct St as (k & Hk & Hsk & Hs). intros d Hd. pose proof (Hc d Hd) as Hcd. unfold grown. cbn [fst snd].
      assert (Gr : forall hi, 0 <= grow g t Bz a e d hi) by (intros hi; unfold grow; destruct (actv Bz d); [|lia]; destruct (Z.eqb _ _); [|lia]; destruct (Z.eqb _ _); lia).
      destruct (Nat.eq_dec d k) as [->|Hne]; [|rewrite (Hs d Hd Hne); pose proof (Gr false); pose proof (Gr true); lia].
      destruct (box_active k Hk) as (h & G1 & G2 & G3 & G4 & C1 & C2 & C3 & Q4 & Q5 & _ & Cs).
      assert (G1' : forall hi : bool, side Bz dim true s k = (if hi then 1 else -1) -> grow g t Bz a e k hi = 1).
      { intros hi Hside. unfold grow. rewrite C3. destruct (Z.eqb_spec (ox e k) 0); [|reflexivity]. destruct (Z.eqb_spec (nblevel g t a (face_dir k hi)) (-1)) as [X|]; [|reflexivity]. exfalso. apply (face_level g Vg NP NS PL t W Bt a Ha k hi Hk) in X; [exact X|]. intros Hw. apply (NW k hi Hw Hside). }
      unfold side in G1'. rewrite Q4, Q5 in G1'. pose proof (Gr false). pose proof (Gr true). pose proof (G1' true) as T. pose proof (G1' false) as F. cbv iota in T, F.
      destruct (Z.ltb_spec (s k) 2), (Z.leb_spec (2 + h) (s k)); try lia; destruct Cs as [(Y & _ & Q & _)|[(Y & _ & Q & _)|[(Y & _ & Q & _)|(Y & _ & Q & _)]]]; rewrite Q in *; cbn [fst snd] in *; try specialize (F eq_refl); try specialize (T eq_refl); try lia.
      all: assert (X : grow g t Bz a e k true = 1 /\ grow g t Bz a e k false = 1 \/ ox e k = 0) by (unfold grow; rewrite C3; destruct (Z.eqb_spec (ox e k) 0); [right; assumption|left; split; reflexivity]); lia.
    + intros [d hi] Hin Hh. apply faces_in in Hin. destruct (hits_wall d hi s Hh) as [(Hw & _ & _ & X)|X]; [|lia]. apply (NW d hi Hw X).
Qed.
End Entry.
End N.
