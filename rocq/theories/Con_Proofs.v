(** Sums over pairs; the face entries of a neighbour list, side by side. *)
From Coq Require Import List Arith NArith ZArith Bool Lia Permutation Reals Lra.
From Verif Require Import Loc LB_Spec Tags_Model Tags_Spec Tags_Proofs AMR_Model AMR_Spec AMR_Proofs AMR_Proofs2 Tree_Model Tree_Spec Tree_Proofs1 Tree_Proofs2 Tree_Proofs3 Tree_Proofs4 Tree_Proofs5 Tree_Proofs6 Tree_Proofs7 Tree_Proofs8 Tree_Restart Tree_Proofs9 Tree_Proofs10 Nbr_Model Nbr_Spec Nbr_Proofs Nbr_Proofs2 Nbr_Proofs3 Buf_Model Gho_Model Gho_Spec Gho_Proofs Gho_Proofs2 Con_Model Con_Spec.
From Verif Require Fv_Spec.
Import ListNotations.
Local Open Scope nat_scope.

Local Notation sum := Fv_Spec.sum.
Lemma sum_cons' : forall x a, sum (x :: a) = (x + sum a)%R.
Proof. reflexivity. Qed.
Lemma sum_nil' : sum [] = 0%R.
Proof. reflexivity. Qed.
Lemma sum_app' : forall a b, sum (a ++ b) = (sum a + sum b)%R.
Proof. intros a b. induction a as [|x a IH]; cbn [app]; [rewrite sum_nil'; ring|]. rewrite !sum_cons', IH. ring. Qed.
(** Terms that cancel in pairs. *)
Lemma sum_pairing : forall (T : Type) (phi : T -> R) (rel : T -> T -> Prop) (n : nat) (P : list T), length P <= n -> NoDup P -> (forall p, In p P -> exists q, In q P /\ rel p q) -> (forall p q, In p P -> In q P -> rel p q -> rel q p) ->
  (forall p q q', In p P -> In q P -> In q' P -> rel p q -> rel p q' -> q = q') -> (forall p q, In p P -> In q P -> rel p q -> phi q = (- phi p)%R) -> sum (map phi P) = 0%R.
Proof.
  intros T phi rel n. induction n as [|n IH]; intros P Hn ND Ex Sy Fu Op.
  - destruct P; [reflexivity|cbn [length] in Hn; lia].
  - destruct P as [|p P]; [reflexivity|]. cbn [map]. rewrite sum_cons'. apply NoDup_cons_iff in ND as [Np ND]. destruct (Ex p (or_introl eq_refl)) as (q & Hq & Rq). cbn [length] in Hn.
    destruct Hq as [<-|Hq].
    + assert (Z : phi p = (- phi p)%R) by (apply (Op p p); [left; reflexivity|left; reflexivity|exact Rq]). rewrite (IH P); [lra|lia|exact ND| | | |].
      * intros r Hr. destruct (Ex r (or_intror Hr)) as (r' & [<-|Hr'] & Rr); [|exists r'; split; assumption]. exfalso. apply Np.
        rewrite (Fu p p r); [exact Hr|left; reflexivity|left; reflexivity|right; exact Hr|exact Rq|apply Sy; [right; exact Hr|left; reflexivity|exact Rr]].
      * intros x y Hx Hy. apply Sy; right; assumption.
      * intros x y y' Hx Hy Hy'. apply Fu; right; assumption.
      * intros x y Hx Hy. apply Op; right; assumption.
    + apply in_split in Hq as (l1 & l2 & EP). assert (Rqp : rel q p) by (apply Sy; [left; reflexivity|right; rewrite EP; apply in_or_app; right; left; reflexivity|exact Rq]).
      assert (Hop : phi q = (- phi p)%R) by (apply Op; [left; reflexivity|right; rewrite EP; apply in_or_app; right; left; reflexivity|exact Rq]).
      assert (Iq : In q P) by (rewrite EP; apply in_or_app; right; left; reflexivity).
      assert (In12 : forall x, In x (l1 ++ l2) -> In x P /\ x <> q). { intros x Hx. split; [rewrite EP; apply in_or_app; apply in_app_or in Hx as [Hx|Hx]; [left; exact Hx|right; right; exact Hx]|]. intros ->. rewrite EP in ND. apply NoDup_remove_2 in ND. contradiction. }
      assert (Es : sum (map phi P) = (phi q + sum (map phi (l1 ++ l2)))%R). { rewrite EP, !map_app, !sum_app'. cbn [map]. rewrite sum_cons'. lra. }
      rewrite Es, (IH (l1 ++ l2)); [lra| | | | | |].
      * assert (length P = S (length (l1 ++ l2))) by (rewrite EP, !app_length; cbn [length]; lia). lia.
      * rewrite EP in ND. apply NoDup_remove_1 in ND. exact ND.
      * intros r Hr. destruct (In12 r Hr) as [Hr' Hrq]. destruct (Ex r (or_intror Hr')) as (r' & Hr2 & Rr). exists r'. split; [|exact Rr]. destruct Hr2 as [<-|Hr2].
        { exfalso. apply Hrq. apply (Fu p r q); [left; reflexivity|right; exact Hr'|right; exact Iq|apply Sy; [right; exact Hr'|left; reflexivity|exact Rr]|exact Rq]. }
        rewrite EP in Hr2. apply in_app_or in Hr2 as [Hr2|[<-|Hr2]]; [apply in_or_app; left; exact Hr2| |apply in_or_app; right; exact Hr2]. exfalso. apply Np.
        assert (p = r) by (apply (Fu q p r); [right; exact Iq|left; reflexivity|right; exact Hr'|exact Rqp|apply Sy; [right; exact Hr'|right; exact Iq|exact Rr]]). subst r. exact Hr'.
      * intros x y Hx Hy. apply Sy; right; apply In12; assumption.
      * intros x y y' Hx Hy Hy'. apply Fu; right; apply In12; assumption.
      * intros x y Hx Hy. apply Op; right; apply In12; assumption.
Qed.
Lemma sum_zero : forall (T : Type) (l : list T), sum (map (fun _ => 0%R) l) = 0%R.
Proof. intros T l. induction l as [|x l IH]; [reflexivity|]. cbn [map]. rewrite sum_cons', IH. lra. Qed.
(** Sorting a sum by a key. *)
Lemma sum_key : forall (T : Type) (phi : T -> R) (key : T -> nat) ks l, NoDup ks -> (forall x, In x l -> In (key x) ks) ->
  sum (map phi l) = sum (map (fun k => sum (map phi (filter (fun x => Nat.eqb (key x) k) l))) ks).
Proof.
  intros T phi key ks l ND. induction l as [|x l IH]; intros H.
  - cbn [filter map]. rewrite sum_zero. reflexivity.
  - cbn [map]. rewrite sum_cons', IH by (intros y Hy; apply H; right; exact Hy). specialize (H x (or_introl eq_refl)). clear IH. induction ks as [|k ks IHk]; [contradiction H|].
    apply NoDup_cons_iff in ND as [Nk ND]. cbn [map]. rewrite !sum_cons'. cbn [filter]. destruct (Nat.eqb_spec (key x) k) as [->|Hk].
    + cbn [map]. rewrite sum_cons'. assert (E : map (fun k0 => sum (map phi (if Nat.eqb k k0 then x :: filter (fun x0 => Nat.eqb (key x0) k0) l else filter (fun x0 => Nat.eqb (key x0) k0) l))) ks = map (fun k0 => sum (map phi (filter (fun x0 => Nat.eqb (key x0) k0) l))) ks).
      { apply map_ext_in. intros k0 Hk0. destruct (Nat.eqb_spec k k0) as [<-|]; [contradiction|reflexivity]. }
      rewrite E. lra.
    + destruct H as [->|H]; [contradiction Hk; reflexivity|]. specialize (IHk ND H). cbn [filter] in IHk. rewrite <- IHk. lra.
Qed.
Lemma single : forall (T : Type) (l : list T) e, NoDup l -> (forall x, In x l <-> x = e) -> l = [e].
Proof.
  intros T l e ND H. destruct l as [|x [|y l]]; [destruct (proj2 (H e) eq_refl)| |].
  - f_equal. apply H. left. reflexivity.
  - exfalso. apply NoDup_cons_iff in ND as [N1 _]. apply N1. left. rewrite (proj1 (H x) (or_introl eq_refl)), (proj1 (H y) (or_intror (or_introl eq_refl))). reflexivity.
Qed.

(** The loop that stops at the first neighbour that is not across a face meets all that are. *)
Lemma seqo_inv : forall (T : Type) (l : list (option T)) r, seqo l = Some r -> l = map Some r.
Proof. intros T l. induction l as [|[x|] l IH]; intros r H; cbn [seqo] in H; [injection H as <-; reflexivity| |discriminate H]. destruct (seqo l) as [r'|]; [|discriminate H]. injection H as <-. cbn [map]. rewrite <- (IH r' eq_refl). reflexivity. Qed.
Lemma direction_type : forall g ml t l bid o r, direction g ml t l bid o = Some r -> forall e, In e r -> n_type e = dtype o.
Proof.
  intros g ml t l bid [[o1 o2] o3] r H e He. unfold direction in H. destruct (FindNeighbor g t l o1 o2 o3 false) as [[b|]|]; [|injection H as <-; contradiction He|discriminate H].
  destruct (FindMeshBlock t b) eqn:Eb.
  all: try discriminate H.
  all: try (apply seqo_inv in H; apply (in_map Some) in He; rewrite <- H in He; apply in_flat_map in He as (f2 & _ & He); apply in_map_iff in He as (f1 & He & _); destruct (FindMeshBlock t (getleaf b (o1, o2, o3) _ f1 f2)); try discriminate He; injection He as <-; reflexivity).
  all: destruct (Nat.eqb (level b) (level l)); [injection H as <-; destruct He as [<-|[]]; reflexivity|].
  all: destruct (_ || _)%bool; injection H as <-; [destruct He as [<-|[]]; reflexivity|contradiction He].
Qed.
Lemma search_type : forall g ml t l os bid r, search g ml t l bid os = Some r -> forall e, In e r -> exists o, In o os /\ n_type e = dtype o.
Proof.
  intros g ml t l os. induction os as [|o os IH]; intros bid r H e He; cbn [search] in H; [injection H as <-; contradiction He|].
  destruct (direction g ml t l bid o) as [r1|] eqn:E1; [|discriminate H]. destruct (search g ml t l _ os) as [r2|] eqn:E2; [|discriminate H]. injection H as <-. apply in_app_or in He as [He|He].
  - exists o. split; [left; reflexivity|apply (direction_type _ _ _ _ _ _ _ E1 e He)].
  - destruct (IH _ _ E2 e He) as (o' & Ho & T). exists o'. split; [right; exact Ho|exact T].
Qed.
Lemma search_app : forall g ml t l os1 os2 bid r, search g ml t l bid (os1 ++ os2) = Some r -> exists r1 r2 bid', r = r1 ++ r2 /\ search g ml t l bid os1 = Some r1 /\ search g ml t l bid' os2 = Some r2.
Proof.
  intros g ml t l os1. induction os1 as [|o os1 IH]; intros os2 bid r H.
  - exists [], r, bid. split; [reflexivity|]. split; [reflexivity|exact H].
  - cbn [app search] in H. destruct (direction g ml t l bid o) as [r1|] eqn:E1; [|discriminate H]. destruct (search g ml t l _ (os1 ++ os2)) as [r2|] eqn:E2; [|discriminate H]. injection H as <-.
    destruct (IH _ _ _ E2) as (s1 & s2 & bid' & -> & S1 & S2). exists (r1 ++ s1), s2, bid'. split; [apply app_assoc|]. split; [cbn [search]; rewrite E1, S1; reflexivity|exact S2].
Qed.
Lemma dirs_split : forall dim, 1 <= dim <= 3 -> exists os1 os2, dirs dim = os1 ++ os2 /\ (forall o, In o os1 -> dtype o = face) /\ (forall o, In o os2 -> dtype o <> face).
Proof.
  intros dim H. exists (firstn (2 * dim) (dirs dim)), (skipn (2 * dim) (dirs dim)). split; [symmetry; apply firstn_skipn|].
  assert (E : dim = 1 \/ dim = 2 \/ dim = 3) by lia. destruct E as [->|[->| ->]]; cbn; split; intros o Ho; repeat match type of Ho with _ \/ _ => destruct Ho as [<-|Ho] | False => contradiction Ho end; try reflexivity; discriminate.
Qed.
Lemma face_loop_app : forall r1 r2, (forall e, In e r1 -> n_type e = face) -> (forall e, In e r2 -> n_type e <> face) -> face_loop (r1 ++ r2) = filter is_face (r1 ++ r2).
Proof.
  intros r1 r2 H1 H2. induction r1 as [|e r1 IH].
  - cbn [app]. assert (E : filter is_face r2 = []). { clear H1. induction r2 as [|e r2 IH]; [reflexivity|]. cbn [filter]. unfold is_face at 1. specialize (H2 e (or_introl eq_refl)) as He. destruct (n_type e); [contradiction He; reflexivity| |]; apply IH; intros x Hx; apply H2; right; exact Hx. }
    rewrite E. destruct r2 as [|e r2]; [reflexivity|]. cbn [face_loop]. unfold is_face. specialize (H2 e (or_introl eq_refl)). destruct (n_type e); [contradiction H2; reflexivity|reflexivity|reflexivity].
  - assert (He : is_face e = true) by (unfold is_face; rewrite (H1 e (or_introl eq_refl)); reflexivity). cbn [app face_loop filter]. rewrite He. f_equal. apply IH. intros x Hx. apply H1. right. exact Hx.
Qed.
Lemma face_loop_filter : forall g, valid_grid g -> forall ml t l ns, SearchAndSetNeighbors g ml t l = Some ns -> face_loop ns = filter is_face ns.
Proof.
  intros g Vg ml t l ns H. unfold SearchAndSetNeighbors in H. destruct (dirs_split (gdim g) (dim13 g Vg)) as (os1 & os2 & Ed & D1 & D2). rewrite Ed in H. destruct (search_app _ _ _ _ _ _ _ _ H) as (r1 & r2 & bid' & -> & S1 & S2).
  apply face_loop_app.
  - intros e He. destruct (search_type _ _ _ _ _ _ _ S1 e He) as (o & Ho & ->). apply D1, Ho.
  - intros e He. destruct (search_type _ _ _ _ _ _ _ S2 e He) as (o & Ho & ->). apply D2, Ho.
Qed.

(** The direction of a side. *)
Definition dir_of (fid : nat) : dirt := match fid with 0 => (-1, 0, 0)%Z | 1 => (1, 0, 0)%Z | 2 => (0, -1, 0)%Z | 3 => (0, 1, 0)%Z | 4 => (0, 0, -1)%Z | _ => (0, 0, 1)%Z end.
Lemma dir_of_face : forall fid, dtype (dir_of fid) = face.
Proof. intros fid. do 6 (destruct fid as [|fid]; [reflexivity|]). reflexivity. Qed.
Lemma dir_of_ok : forall dim fid, 1 <= dim <= 3 -> fid < 2 * dim -> okdir dim (dir_of fid).
Proof. intros dim fid H1 H2. do 6 (destruct fid as [|fid]; [cbn; lia|]). lia. Qed.
Lemma face_id_mkn : forall c z fid k ts f1 f2, fid < 6 -> face_id (mkn c z (dir_of fid) k ts f1 f2) = fid.
Proof. intros c z fid k ts f1 f2 H. do 6 (destruct fid as [|fid]; [reflexivity|]). lia. Qed.
Lemma edir_face_id : forall dim e, okdir dim (edir e) -> dtype (edir e) = face -> 1 <= dim <= 3 -> face_id e < 2 * dim /\ edir e = dir_of (face_id e).
Proof.
  intros dim e Ho Hf Hd. unfold edir, face_id, dtype, nz, okdir in *. destruct Ho as (R1 & R2 & R3 & D2 & D3 & Hn).
  destruct (three _ R1) as [E1|[E1|E1]], (three _ R2) as [E2|[E2|E2]], (three _ R3) as [E3|[E3|E3]]; rewrite E1, E2, E3 in *; cbn in *; try discriminate Hf; try (exfalso; lia); split; try reflexivity; lia.
Qed.
Lemma od_dir_of : forall fid d, fid < 6 -> d < 3 -> od (dir_of fid) d = if Nat.eqb d (fid / 2) then (if Nat.eqb (fid mod 2) 1 then 1 else -1)%Z else 0%Z.
Proof. intros fid d H1 H2. do 6 (destruct fid as [|fid]; [do 3 (destruct d as [|d]; [reflexivity|]); lia|]). lia. Qed.

Section N.
Variable g : grid.
Hypothesis Vg : valid_grid g.
Hypothesis NP : no_pole g.
Hypothesis NS : no_shear g.
Variable t : tree.
Hypothesis W : wf g t.
Hypothesis Bt : B g t.
Variable ml : bool.
Hypothesis ML : declared g ml (blocks t).
Local Notation dim := (gdim g).
Local Notation E := (E g t ml).

(** A side has a neighbouring position unless it is a wall. *)
Lemma wall_nb : forall a fid, In a (blocks t) -> fid < 2 * dim -> if wall g a fid then forall m, ~ nb g a (od (dir_of fid)) m else exists m, nb g a (od (dir_of fid)) m.
Proof using Vg t W.
  intros a fid Ha Hf. pose proof (dim13 g Vg) as D13. apply (in_blocks g t a W) in Ha as [Ca (za & Ka)]. destruct (leaf_level g t a za W Ca Ka) as [Da Ra].
  assert (Hd2 : fid / 2 < dim) by (apply Nat.div_lt_upper_bound; lia). assert (Hm : fid mod 2 < 2) by (apply Nat.mod_upper_bound; lia).
  pose proof (dom_inr g a (fid / 2) Ra Da ltac:(lia)) as Hi. unfold inr in Hi. assert (En : nmax g (fid / 2) (level a) = (gnrb g (fid / 2) * 2 ^ Z.of_nat (level a - groot g))%Z) by (unfold nmax; rewrite (proj2 (Nat.ltb_lt _ _) Hd2); reflexivity).
  assert (Hw : wrap_per g (fid / 2) (nmax g (fid / 2) (level a)) (coord (fid / 2) a + od (dir_of fid) (fid / 2)) = None <-> wall g a fid = true).
  { rewrite od_dir_of by lia. rewrite Nat.eqb_refl. unfold wall, wrap_per. rewrite En in *. destruct (Nat.eqb_spec (fid mod 2) 1) as [Eo|Eo].
    - destruct (Z.ltb_spec (coord (fid / 2) a + 1) 0); [lia|]. destruct (Z.eqb_spec (coord (fid / 2) a) (gnrb g (fid / 2) * 2 ^ Z.of_nat (level a - groot g) - 1)) as [Ec|Ec].
      + destruct (Z.leb_spec (gnrb g (fid / 2) * 2 ^ Z.of_nat (level a - groot g)) (coord (fid / 2) a + 1)); [|lia]. destruct (is_per (gbc g (fid / 2) true)); split; intros X; try discriminate X; reflexivity.
      + destruct (Z.leb_spec (gnrb g (fid / 2) * 2 ^ Z.of_nat (level a - groot g)) (coord (fid / 2) a + 1)); [lia|]. split; intros X; discriminate X.
    - destruct (Z.eqb_spec (coord (fid / 2) a) 0) as [Ec|Ec].
      + rewrite Ec. cbn [Z.add Z.opp Z.ltb Z.compare]. destruct (is_per (gbc g (fid / 2) false)) eqn:Ep; cbn [negb andb]; [|split; reflexivity].
        destruct (Z.leb_spec (gnrb g (fid / 2) * 2 ^ Z.of_nat (level a - groot g)) (gnrb g (fid / 2) * 2 ^ Z.of_nat (level a - groot g) - 1)); [lia|]. split; intros X; discriminate X.
      + destruct (Z.ltb_spec (coord (fid / 2) a + -1) 0); [lia|]. destruct (Z.leb_spec (gnrb g (fid / 2) * 2 ^ Z.of_nat (level a - groot g)) (coord (fid / 2) a + -1)); [lia|]. split; intros X; discriminate X. }
  destruct (wall g a fid) eqn:Ew.
  - intros m [_ H]. destruct (H (fid / 2) ltac:(lia)) as [_ X]. rewrite (proj2 Hw eq_refl) in X. discriminate X.
  - destruct (wrap_per g (fid / 2) (nmax g (fid / 2) (level a)) (coord (fid / 2) a + od (dir_of fid) (fid / 2))) as [y|] eqn:Ey; [|discriminate (proj1 Hw eq_refl)].
    exists (mkLoc (level a) (if Nat.eqb (fid / 2) 0 then y else lx1 a) (if Nat.eqb (fid / 2) 1 then y else lx2 a) (if Nat.eqb (fid / 2) 2 then y else lx3 a)). split; [reflexivity|]. intros d Hd.
    assert (Ec : coord d (mkLoc (level a) (if Nat.eqb (fid / 2) 0 then y else lx1 a) (if Nat.eqb (fid / 2) 1 then y else lx2 a) (if Nat.eqb (fid / 2) 2 then y else lx3 a)) = if Nat.eqb (fid / 2) d then y else coord d a) by (do 3 (destruct d as [|d]; [reflexivity|]); lia).
    rewrite Ec. destruct (Nat.eqb_spec (fid / 2) d) as [<-|Hne].
    + split; [|exact Ey]. unfold offs. rewrite (proj2 (Nat.ltb_lt _ _) Hd2). rewrite od_dir_of by lia. rewrite Nat.eqb_refl. destruct (Nat.eqb (fid mod 2) 1); cbn; tauto.
    + assert (E0 : od (dir_of fid) d = 0%Z) by (rewrite od_dir_of by lia; destruct (Nat.eqb_spec d (fid / 2)); [congruence|reflexivity]). rewrite E0, Z.add_0_r. split; [apply offs0|]. apply wrap_in. apply dom_inr; assumption.
Qed.

Definition on_side (fid : nat) (ns : list nblock) : list nblock := filter (fun e => Nat.eqb (face_id e) fid) (filter is_face ns).
Definition halves (dim : nat) : list (Z * Z) := flat_map (fun f2 => map (fun f1 => (f1, f2)) (upto (nf1 dim true))) (upto (nf2 dim true)).
Lemma bufid_inj : forall (ns : list nblock) e1 e2, NoDup (map n_bufid ns) -> In e1 ns -> In e2 ns -> n_bufid e1 = n_bufid e2 -> e1 = e2.
Proof using .
  intros ns. induction ns as [|x l IH]; intros e1 e2 ND H1 H2 Eb; [contradiction H1|]. cbn [map] in ND. apply NoDup_cons_iff in ND as [N1 N2].
  destruct H1 as [->|H1], H2 as [->|H2]; [reflexivity| | |apply (IH e1 e2); assumption]; exfalso; apply N1; [rewrite Eb|rewrite <- Eb]; apply in_map; assumption.
Qed.
Lemma side_cases : forall a ns fid, In a (blocks t) -> SearchAndSetNeighbors g ml t a = Some ns -> fid < 2 * dim ->
  (wall g a fid = true /\ on_side fid ns = []) \/
  (wall g a fid = false /\ exists e, on_side fid ns = [e] /\ level (n_loc e) <= level a) \/
  (wall g a fid = false /\ ml = true /\ Permutation (map (fun e => (n_f1 e, n_f2 e)) (on_side fid ns)) (halves dim) /\ forall e, In e (on_side fid ns) -> level (n_loc e) = S (level a)).
Proof using Vg NP NS t W Bt ml ML.
  intros a ns fid Ha Es Hf. pose proof (dim13 g Vg) as D13. destruct (lists g Vg NP NS t W Bt ml ML a Ha) as (za & ns' & Ca & Ka & Es' & Hin & ND). assert (ns' = ns) by congruence. subst ns'. clear Es'.
  destruct (leaf_level g t a za W Ca Ka) as [Da Ra]. pose proof (dir_of_ok dim fid D13 Hf) as Ho. pose proof Ho as Hdir. apply (dirs_iff dim _ D13) in Hdir.
  assert (NDe : NoDup ns) by (apply (NoDup_map_inv n_bufid), ND). assert (NDs : NoDup (on_side fid ns)) by (apply NoDup_filter, NoDup_filter, NDe).
  assert (HI : forall e, In e (on_side fid ns) <-> exists m, nb g a (od (dir_of fid)) m /\ E1 g t ml a (dir_of fid) m e).
  { intros e. unfold on_side. rewrite !filter_In, Hin. split.
    - intros [[(o & m & Hi & Hnb & HE) Hfc] Hid]. exists m. pose proof HE as HE'.
      assert (Ed : edir e = o /\ n_type e = dtype o) by (destruct HE as [(z & k & _ & _ & ->)|[(_ & f1 & f2 & z & k & _ & _ & _ & _ & ->)|(_ & _ & z & k & _ & _ & ->)]]; match goal with |- context[mkn ?c ?z ?o ?k ?ts ?f1 ?f2] => destruct (mkn_fields c z o k ts f1 f2) as (_ & _ & F3 & _ & _ & F6) end; split; assumption).
      destruct Ed as [Ed Et]. apply (dirs_iff dim o D13) in Hi. unfold is_face in Hfc. rewrite Et in Hfc. assert (Df : dtype o = face) by (destruct (dtype o); [reflexivity|discriminate Hfc|discriminate Hfc]).
      rewrite <- Ed in Hi, Df. destruct (edir_face_id dim e Hi Df D13) as [_ X]. apply Nat.eqb_eq in Hid. rewrite Hid in X. rewrite <- X, Ed. split; assumption.
    - intros (m & Hnb & HE). split; [split|].
      + exists (dir_of fid), m. split; [exact Hdir|]. split; assumption.
      + assert (Et : n_type e = dtype (dir_of fid)) by (destruct HE as [(z & k & _ & _ & ->)|[(_ & f1 & f2 & z & k & _ & _ & _ & _ & ->)|(_ & _ & z & k & _ & _ & ->)]]; match goal with |- context[mkn ?c ?z ?o ?k ?ts ?f1 ?f2] => destruct (mkn_fields c z o k ts f1 f2) as (_ & _ & F3 & _ & _ & F6) end; assumption).
        unfold is_face. rewrite Et, dir_of_face. reflexivity.
      + apply Nat.eqb_eq. destruct HE as [(z & k & _ & _ & ->)|[(_ & f1 & f2 & z & k & _ & _ & _ & _ & ->)|(_ & _ & z & k & _ & _ & ->)]]; apply face_id_mkn; lia. }
  pose proof (wall_nb a fid Ha Hf) as Hw. destruct (wall g a fid) eqn:Ew.
  { left. split; [reflexivity|]. destruct (on_side fid ns) as [|e l]; [reflexivity|]. exfalso. destruct (proj1 (HI e) (or_introl eq_refl)) as (m & Hnb & _). exact (Hw m Hnb). }
  right. destruct Hw as (m & Hnb). assert (Lm : level m = level a) by apply Hnb.
  assert (HI1 : forall e, In e (on_side fid ns) <-> E1 g t ml a (dir_of fid) m e). { intros e. rewrite HI. split; [intros (m' & H1 & H2); rewrite (nb_det g a _ m m' Hnb H1); exact H2|intros H; exists m; split; assumption]. }
  assert (Hfl : (K t m <> KNull) \/ (groot g < level m /\ exists z', K t (anc 1 m) = KLeaf z')).
  { destruct (dir_of fid) as [[o1 o2] o3] eqn:Eo. destruct (find_leaf g Vg NP t a za o1 o2 o3 m false W Bt Ca Ka Hnb) as (r & _ & [[_ H]|(H1 & -> & H2)]); [left; exact H|right; split; [lia|exact H2]]. }
  destruct (slot_ex0 g Vg ml (dir_of fid) Ho) as (k0 & Ek0).
  destruct (K t m) as [|zm|] eqn:Em.
  - destruct Hfl as [H|(Hg & z' & Ez')]; [contradiction H; reflexivity|]. left. split; [reflexivity|]. pose proof (face_listed g Vg t W a za (dir_of fid) m Ho Ca Ka Hnb Em (dir_of_face fid)) as Li.
    eexists. split.
    + apply single; [exact NDs|]. intros e. rewrite HI1. split.
      * intros [(z1 & k & A & _)|[[A _]|(_ & _ & z1 & k & A & B' & ->)]]; try congruence. assert (z1 = z') by congruence. assert (k = k0) by congruence. subst. reflexivity.
      * intros ->. right. right. split; [exact Em|]. split; [exact Li|]. exists z', k0. split; [exact Ez'|]. split; [exact Ek0|reflexivity].
    + match goal with |- context[mkn ?c ?z ?o ?k ?ts ?f1 ?f2] => destruct (mkn_fields c z o k ts f1 f2) as (F1 & _) end. rewrite F1. cbn [anc level]. lia.
  - left. split; [reflexivity|]. eexists. split.
    + apply single; [exact NDs|]. intros e. rewrite HI1. split.
      * intros [(z1 & k & A & B' & ->)|[[A _]|[A _]]]; try congruence. assert (z1 = zm) by congruence. assert (k = k0) by congruence. subst. reflexivity.
      * intros ->. left. exists zm, k0. split; [exact Em|]. split; [exact Ek0|reflexivity].
    + match goal with |- context[mkn ?c ?z ?o ?k ?ts ?f1 ?f2] => destruct (mkn_fields c z o k ts f1 f2) as (F1 & _) end. rewrite F1. lia.
  - right. split; [reflexivity|].
    assert (HF : forall e, E1 g t ml a (dir_of fid) m e -> exists f1 f2 z k, In f1 (upto (cnt1 dim ml (dir_of fid))) /\ In f2 (upto (cnt2 dim ml (dir_of fid))) /\ K t (getleaf m (dir_of fid) false f1 f2) = KLeaf z /\
       slot dim ml (dir_of fid) f1 f2 = Some k /\ e = mkn (getleaf m (dir_of fid) false f1 f2) z (dir_of fid) k (slot dim ml (opp3 (dir_of fid)) 0 0) f1 f2).
    { intros e [(z1 & k & A & _)|[(_ & H)|[A _]]]; try congruence; exact H. }
    assert (Hml : ml = true).
    { destruct (cnt_pos dim ml (dir_of fid)) as [P1 P2]. destruct (finer_leaf g Vg NP t W Bt ml ML a za (dir_of fid) m 0 0 Ho Ca Ka Hnb Em (upto0 _ (proj1 P1)) (upto0 _ (proj1 P2))) as (Cc & (zc & Ec) & _).
      apply (ml_true g t W ml ML _ zc Cc Ec). rewrite getleaf_level. lia. }
    split; [exact Hml|]. assert (Ec1 : cnt1 dim ml (dir_of fid) = nf1 dim true) by (rewrite Hml; clear -Hf D13; do 6 (destruct fid as [|fid]; [reflexivity|]); lia).
    assert (Ec2 : cnt2 dim ml (dir_of fid) = nf2 dim true) by (rewrite Hml; clear -Hf D13; do 6 (destruct fid as [|fid]; [reflexivity|]); lia). rewrite Ec1, Ec2 in HF.
    assert (Ff : forall c z k ts f1 f2, n_f1 (mkn c z (dir_of fid) k ts f1 f2) = f1 /\ n_f2 (mkn c z (dir_of fid) k ts f1 f2) = f2) by (intros; destruct (dir_of fid) as [[? ?] ?]; split; reflexivity).
    split.
    + apply NoDup_Permutation.
      * apply NoDup_map_inj; [exact NDs|]. intros x y Hx Hy Exy. apply HI1, HF in Hx as (f1 & f2 & z & k & _ & _ & Ez & Ek & ->). apply HI1, HF in Hy as (f1' & f2' & z' & k' & _ & _ & Ez' & Ek' & ->).
        destruct (Ff (getleaf m (dir_of fid) false f1 f2) z k (slot dim ml (opp3 (dir_of fid)) 0 0) f1 f2) as [A1 A2]. destruct (Ff (getleaf m (dir_of fid) false f1' f2') z' k' (slot dim ml (opp3 (dir_of fid)) 0 0) f1' f2') as [A1' A2'].
        rewrite A1, A2, A1', A2' in Exy. injection Exy as <- <-. assert (z = z') by congruence. assert (k = k') by congruence. subst. reflexivity.
      * unfold halves. assert (Ed : dim = 1 \/ dim = 2 \/ dim = 3) by lia. destruct Ed as [->|[->| ->]]; cbn; repeat constructor; cbn; intuition congruence.
      * intros [f1 f2]. rewrite in_map_iff. unfold halves. rewrite in_flat_map. split.
        { intros (e & Ee & He). apply HI1, HF in He as (f1' & f2' & z & k & H1 & H2 & _ & _ & ->). destruct (Ff (getleaf m (dir_of fid) false f1' f2') z k (slot dim ml (opp3 (dir_of fid)) 0 0) f1' f2') as [A1 A2]. rewrite A1, A2 in Ee. injection Ee as <- <-.
          exists f2'. split; [exact H2|]. apply in_map_iff. exists f1'. split; [reflexivity|exact H1]. }
        { intros (f2' & H2 & H). apply in_map_iff in H as (f1' & E' & H1). injection E' as -> ->. rewrite <- Ec1 in H1. rewrite <- Ec2 in H2.
          destruct (finer_leaf g Vg NP t W Bt ml ML a za (dir_of fid) m f1 f2 Ho Ca Ka Hnb Em H1 H2) as (_ & (zc & Ec) & _). destruct (slot_ex g Vg ml (dir_of fid) f1 f2 Ho H1 H2) as (k & Ek).
          exists (mkn (getleaf m (dir_of fid) false f1 f2) zc (dir_of fid) k (slot dim ml (opp3 (dir_of fid)) 0 0) f1 f2). split; [destruct (Ff (getleaf m (dir_of fid) false f1 f2) zc k (slot dim ml (opp3 (dir_of fid)) 0 0) f1 f2) as [-> ->]; reflexivity|].
          apply HI1. right. left. split; [exact Em|]. exists f1, f2, zc, k. repeat (split; [assumption|]). reflexivity. }
    + intros e He. apply HI1, HF in He as (f1 & f2 & z & k & _ & _ & _ & _ & ->). match goal with |- context[mkn ?c ?z ?o ?k ?ts ?f1 ?f2] => destruct (mkn_fields c z o k ts f1 f2) as (F1 & _) end. rewrite F1, getleaf_level. lia.
Qed.
End N.
