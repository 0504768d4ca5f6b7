(** Fields that agree (C74) are consistent, restricted or not. *)
From Coq Require Import List Arith NArith ZArith Bool Lia Reals Lra.
From Verif Require Import Fv_Model.
From Verif Require Fv_Spec Ref_Model Ref_Spec Ref_Proofs.
From Verif Require Import Loc LB_Spec Tags_Model Tags_Spec Tags_Proofs AMR_Model AMR_Spec AMR_Proofs AMR_Proofs2 Tree_Model Tree_Spec Tree_Proofs1 Tree_Proofs2 Tree_Proofs3 Tree_Proofs4 Tree_Proofs5 Tree_Proofs6 Tree_Proofs7 Tree_Proofs8 Tree_Restart Tree_Proofs9 Tree_Proofs10 Nbr_Model Nbr_Spec Nbr_Proofs Nbr_Proofs2 Nbr_Proofs3 Buf_Model Gho_Model Gho_Spec Gho_Proofs Gho_Proofs2 Gho_Proofs3 Gho_Proofs4 Gho_Proofs5 Con_Model Con_Spec Con_Proofs Emf_Model Emf_Spec Mag_Spec Fgh_Model Fgh_Spec Fgh_Proofs Fgh_Proofs2 Fgh_Proofs3 Fgh_Proofs4 Fgh_Model2 Fgh_Spec2.
Import ListNotations.
Local Open Scope Z_scope.

Lemma in_two : forall s cs x k, In k (Ref_Spec.two s cs x) <-> k = s + 2 * (x - cs) \/ k = s + 2 * (x - cs) + 1.
Proof. intros s cs x k. unfold Ref_Spec.two. cbn [In]. split; intros [H|[H|H]] || intros [H|H]; subst; tauto. Qed.
Lemma nodup_two : forall s cs x, NoDup (Ref_Spec.two s cs x).
Proof. intros s cs x. unfold Ref_Spec.two. repeat constructor; cbn [In]; [intros [H|[]]; lia|tauto]. Qed.
Lemma nodup_one : forall (x : Z), NoDup [x].
Proof. intros x. repeat constructor. cbn [In]. tauto. Qed.
Lemma nodup_duo : forall n s cs x, NoDup (Ref_Spec.duo n s cs x).
Proof. intros. unfold Ref_Spec.duo. destruct (Z.ltb 1 n); [apply nodup_two|apply nodup_one]. Qed.
Lemma nodup_flat : forall (X Y : Type) (f : X -> list Y) l, NoDup l -> (forall x, In x l -> NoDup (f x)) -> (forall x x' y, In x l -> In x' l -> In y (f x) -> In y (f x') -> x = x') -> NoDup (flat_map f l).
Proof.
  intros X Y f l ND. induction ND as [|x l N ND IH]; intros H1 H2; [constructor|]. cbn [flat_map]. apply NoDup_app2; [apply H1; left; reflexivity| |].
  - apply IH; [intros z Hz; apply H1; right; exact Hz|]. intros z z' y Hz Hz'. apply H2; right; assumption.
  - intros y Hy Hy'. apply in_flat_map in Hy' as (z & Hz & Hy'). apply N. rewrite (H2 x z y (or_introl eq_refl) (or_intror Hz) Hy Hy'). exact Hz.
Qed.
Lemma nodup_combine : forall K J I, NoDup K -> NoDup J -> NoDup I -> NoDup (Ref_Spec.combine3 K J I).
Proof.
  intros K J I HK HJ HI. unfold Ref_Spec.combine3. apply nodup_flat; [exact HK| |].
  - intros k _. apply nodup_flat; [exact HJ| |].
    + intros j _. clear -HI. induction HI as [|i I N HI IH]; [constructor|]. cbn [map]. constructor; [|exact IH]. intros H. apply in_map_iff in H as (i' & E & H). injection E as ->. contradiction.
    + intros j j' q _ _ H1 H2. apply in_map_iff in H1 as (i & <- & _). apply in_map_iff in H2 as (i' & E & _). congruence.
  - intros k k' q _ _ H1 H2. apply in_flat_map in H1 as (j & _ & H1). apply in_flat_map in H2 as (j' & _ & H2). apply in_map_iff in H1 as (i & <- & _). apply in_map_iff in H2 as (i' & E & _). congruence.
Qed.
Lemma nodup_faces : forall B c y, NoDup (fine_faces B c y).
Proof. intros B c y. unfold fine_faces, fpos_of. destruct c as [|[|c]]; cbn [Ref_Spec.faces1 Ref_Spec.faces2 Ref_Spec.faces3]; apply nodup_combine; try apply nodup_duo; try apply nodup_two; apply nodup_one. Qed.
Lemma value_at_ : forall (v : arr4 (A := R)) n x, value v n x = Fv_Spec.at_ (v n) (fpos_of x).
Proof. reflexivity. Qed.
Lemma field4_at : forall u c q, (c < 3)%nat -> Fv_Spec.at_ (field4 u (Z.of_nat c)) q = normal u c q.
Proof. intros u c [[k j] i] Hc. destruct c as [|[|[|c]]]; [reflexivity|reflexivity|reflexivity|lia]. Qed.
Lemma index_of : forall x d, (d < 3)%nat -> index (fpos_of x) d = x d.
Proof. intros x d Hd. destruct d as [|[|[|d]]]; [reflexivity|reflexivity|reflexivity|lia]. Qed.

Section N.
Variable g : grid.
Hypothesis Vg : valid_grid g.
Variable ml : bool.
Hypothesis Hm : ml = true.
Local Notation dim := (gdim g).
Variable Bz : bsz.
Hypothesis FT : fitting g Bz ml.
Local Notation D13 := (dim13 g Vg).
Definition base (y : cell) (d : nat) : Z := ng Bz + 2 * (y d - ng Bz).
Definition digit (c : nat) (y : cell) (d : nat) (z : Z) : Prop := if Nat.ltb d dim then (if Nat.eqb d c then z = base y d else z = base y d \/ z = base y d + 1) else z = 0.

Lemma dims_nx : (forall d, (d < dim)%nat -> 1 < cells_in Bz d) /\ nx2 (block_dims Bz) = cells_in Bz 1 /\ nx3 (block_dims Bz) = cells_in Bz 2.
Proof using Vg FT.
  pose proof D13 as D. split; [intros d Hd; destruct FT as (_ & F2 & _); destruct (F2 d ltac:(lia)) as [G1 _]; apply G1, Hd|].
  unfold nx2, nx3, block_dims. cbn [js je ks ke]. split.
  - destruct (Nat.lt_ge_cases 1 dim) as [H|H]; [destruct (active_facts g Bz ml D13 FT 1%nat H) as (-> & -> & _); lia|destruct (inactive_facts g Bz ml D13 FT 1%nat H ltac:(lia)) as (-> & -> & _ & _ & _ & _ & _ & _ & ->); reflexivity].
  - destruct (Nat.lt_ge_cases 2 dim) as [H|H]; [destruct (active_facts g Bz ml D13 FT 2%nat H) as (-> & -> & _); lia|destruct (inactive_facts g Bz ml D13 FT 2%nat H ltac:(lia)) as (-> & -> & _ & _ & _ & _ & _ & _ & ->); reflexivity].
Qed.
Lemma duo_digit : forall c y d z, (d < 3)%nat -> d <> c -> In z (Ref_Spec.duo (cells_in Bz d) (s_ Bz d) (cs_ Bz d) (y d)) <-> digit c y d z.
Proof using Vg FT.
  intros c y d z Hd Hn. unfold digit, base, Ref_Spec.duo. destruct (Nat.ltb_spec d dim) as [Ha|Hi].
  - destruct (active_facts g Bz ml D13 FT d Ha) as (-> & _ & -> & _). pose proof (proj1 dims_nx d Ha) as P. apply Z.ltb_lt in P. rewrite P. apply Nat.eqb_neq in Hn. rewrite Hn. apply in_two.
  - destruct (inactive_facts g Bz ml D13 FT d Hi Hd) as (-> & _ & _ & _ & _ & _ & _ & _ & ->). cbn [Z.ltb Z.compare In]. split; [intros [<-|[]]; reflexivity|intros ->; left; reflexivity].
Qed.
Lemma one_digit : forall y c z, (c < dim)%nat -> In z [s_ Bz c + 2 * (y c - cs_ Bz c)] <-> digit c y c z.
Proof using Vg FT.
  intros y c z Hc. unfold digit, base. replace (Nat.ltb c dim) with true by (symmetry; apply Nat.ltb_lt, Hc). rewrite Nat.eqb_refl. destruct (active_facts g Bz ml D13 FT c Hc) as (-> & _ & -> & _). cbn [In]. split; [intros [<-|[]]; reflexivity|intros ->; left; reflexivity].
Qed.
Lemma fine_in : forall c y q, (c < dim)%nat -> In q (fine_faces Bz c y) <-> forall d, (d < 3)%nat -> digit c y d (index q d).
Proof using Vg FT.
  intros c y [[k j] i] Hc. destruct dims_nx as (N1 & N2 & N3). pose proof D13 as D.
  assert (T0 : In i (Ref_Spec.two (s_ Bz 0) (cs_ Bz 0) (y 0%nat)) <-> In i (Ref_Spec.duo (cells_in Bz 0) (s_ Bz 0) (cs_ Bz 0) (y 0%nat))) by (unfold Ref_Spec.duo; pose proof (N1 0%nat ltac:(lia)) as P; apply Z.ltb_lt in P; rewrite P; reflexivity).
  assert (Sp : (forall d, (d < 3)%nat -> digit c y d (index (k, j, i) d)) <-> digit c y 2 k /\ digit c y 1 j /\ digit c y 0 i).
  { split; [intros H; split; [apply (H 2%nat); lia|split; [apply (H 1%nat); lia|apply (H 0%nat); lia]]|]. intros (H2 & H1 & H0) d Hd. destruct d as [|[|[|d]]]; [exact H0|exact H1|exact H2|lia]. }
  rewrite Sp. unfold fine_faces, fpos_of. destruct c as [|[|[|c]]]; [| | |lia]; cbn [Ref_Spec.faces1 Ref_Spec.faces2 Ref_Spec.faces3]; rewrite Ref_Proofs.in_combine, ?N2, ?N3; cbn [block_dims is_ js ks coarse_offs Ref_Model.cis Ref_Model.cjs Ref_Model.cks].
  - rewrite (duo_digit 0 y 2 k), (duo_digit 0 y 1 j), (one_digit y 0 i) by lia. reflexivity.
  - rewrite T0, (duo_digit 1 y 2 k), (one_digit y 1 j), (duo_digit 1 y 0 i) by lia. reflexivity.
  - rewrite T0, (one_digit y 2 k), (duo_digit 2 y 1 j), (duo_digit 2 y 0 i) by lia. reflexivity.
Qed.
Lemma own_half : forall c y d, own_face Bz dim true c y -> (d < dim)%nat -> (d < 3)%nat -> exists h, cells_in Bz d = 2 * h /\ size Bz dim true d = h /\ first Bz dim d = ng Bz /\ ng Bz <= y d < ng Bz + h + (if Nat.eqb d c && Nat.ltb c dim then 1 else 0).
Proof using Vg FT Hm.
  intros c y d O Ha Hd. destruct (active_facts g Bz ml D13 FT d Ha) as (_ & _ & _ & _ & _ & _ & E3 & E4 & _). destruct (multi_facts g Bz ml D13 FT Hm d Ha) as (h & k & G1 & G2 & _). exists h. split; [exact G1|]. specialize (O d Hd). rewrite E3, E4, G2 in *. split; [reflexivity|]. split; [reflexivity|lia].
Qed.
Lemma fine_face_of : forall c y q, (c < dim)%nat -> own_face Bz dim true c y -> In q (fine_faces Bz c y) -> face_of g Bz c q.
Proof using Vg FT Hm.
  intros c y q Hc O H d Hd. apply (proj1 (fine_in c y q Hc)) with (d := d) in H; [|exact Hd]. unfold digit, base in H. destruct (Nat.ltb_spec d dim) as [Ha|Hi].
  - destruct (active_facts g Bz ml D13 FT d Ha) as (_ & _ & _ & _ & _ & _ & E3 & E4 & _). destruct (own_half c y d O Ha Hd) as (h & G1 & _ & _ & G2). rewrite E3, E4, G1. replace (Nat.ltb c dim) with true in G2 by (symmetry; apply Nat.ltb_lt, Hc). rewrite andb_true_r in G2. destruct (Nat.eqb d c); lia.
  - destruct (inactive_facts g Bz ml D13 FT d Hi Hd) as (_ & _ & _ & _ & _ & _ & E3 & E4 & _). rewrite E3, E4, H. destruct (Nat.eqb d c); lia.
Qed.
Lemma fine_some : forall c y, (c < dim)%nat -> fine_faces Bz c y <> [].
Proof using Vg FT.
  intros c y Hc H. assert (X : In (fpos_of (fun d => if Nat.ltb d dim then base y d else 0)) (fine_faces Bz c y)); [|rewrite H in X; exact X].
  apply fine_in; [exact Hc|]. intros d Hd. rewrite index_of by exact Hd. unfold digit. destruct (Nat.ltb d dim); [|reflexivity]. destruct (Nat.eqb d c); [reflexivity|left; reflexivity].
Qed.
Lemma restricted : forall G v c y, (forall dir p, (dir < dim)%nat -> face_of g Bz dir p -> (0 < area G dir p)%R) -> (c < dim)%nat -> own_face Bz dim true c y ->
  (value (RestrictField Bz G v) (Z.of_nat c) y * Fv_Spec.sum (map (area G c) (fine_faces Bz c y)) = Fv_Spec.sum (map (fun q => area G c q * Fv_Spec.at_ (v (Z.of_nat c)) q) (fine_faces Bz c y)))%R.
Proof using Vg FT Hm.
  intros G v c y PA Hc O. pose proof D13 as D. destruct dims_nx as (N1 & N2 & N3).
  assert (PP : forall q, In q (fine_faces Bz c y) -> (0 < area G c q)%R) by (intros q Hq; apply PA; [exact Hc|apply (fine_face_of c y q Hc O Hq)]).
  assert (LY : Ref_Spec.layout (block_dims Bz) (coarse_offs Bz)).
  { unfold Ref_Spec.layout. rewrite N2, N3. cbn [block_dims js je ks ke coarse_offs Ref_Model.cjs Ref_Model.cks]. destruct (Nat.lt_ge_cases 1 dim) as [H1|H1], (Nat.lt_ge_cases 2 dim) as [H2|H2]; try lia.
    - destruct (active_facts g Bz ml D13 FT 1%nat H1) as (-> & -> & -> & _ & _ & _ & _ & _ & X1 & X2). destruct (active_facts g Bz ml D13 FT 2%nat H2) as (-> & -> & -> & _ & _ & _ & _ & _ & Y1 & Y2). pose proof (N1 1%nat H1). pose proof (N1 2%nat H2). lia.
    - destruct (active_facts g Bz ml D13 FT 1%nat H1) as (-> & -> & -> & _ & _ & _ & _ & _ & X1 & X2). destruct (inactive_facts g Bz ml D13 FT 2%nat H2 ltac:(lia)) as (-> & -> & -> & _). pose proof (N1 1%nat H1). lia.
    - destruct (inactive_facts g Bz ml D13 FT 1%nat H1 ltac:(lia)) as (-> & -> & -> & _). destruct (inactive_facts g Bz ml D13 FT 2%nat H2 ltac:(lia)) as (-> & -> & -> & _ & _ & _ & _ & _ & ->). lia. }
  assert (IB : Ref_Spec.in_box (block_dims Bz) (coarse_offs Bz) (coarse_box Bz c) (fpos_of y)).
  { unfold fpos_of, Ref_Spec.in_box, coarse_box. cbn [Ref_Model.si Ref_Model.ei Ref_Model.sj Ref_Model.ej Ref_Model.sk Ref_Model.ek coarse_offs Ref_Model.cjs Ref_Model.cks]. rewrite N2, N3.
    assert (Q : forall d, (d < 3)%nat -> if Nat.ltb d dim then cs_ Bz d <= y d <= ce_ Bz d + (if Nat.eqb d c && actv Bz d then 1 else 0) else y d = cs_ Bz d).
    { intros d Hd. destruct (Nat.ltb_spec d dim) as [Ha|Hi].
      - destruct (active_facts g Bz ml D13 FT d Ha) as (_ & _ & -> & -> & -> & _ & _ & _ & _). destruct (multi_facts g Bz ml D13 FT Hm d Ha) as (h & k & G1 & G2 & _). destruct (own_half c y d O Ha Hd) as (h' & G3 & _ & _ & G4). replace (Nat.ltb c dim) with true in G4 by (symmetry; apply Nat.ltb_lt, Hc). rewrite G2. destruct (Nat.eqb d c); cbn [andb] in *; lia.
      - destruct (inactive_facts g Bz ml D13 FT d Hi Hd) as (_ & _ & -> & _ & _ & _ & E3 & E4 & _). specialize (O d Hd). rewrite E3, E4 in O. destruct (Nat.eqb_spec d c); cbn [andb] in O; lia. }
    assert (L : forall d, (d < 3)%nat -> Z.ltb 1 (cells_in Bz d) = Nat.ltb d dim). { intros d Hd. destruct (Nat.ltb_spec d dim) as [Ha|Hi]; [apply Z.ltb_lt, N1, Ha|]. destruct (inactive_facts g Bz ml D13 FT d Hi Hd) as (_ & _ & _ & _ & _ & _ & _ & _ & ->). reflexivity. }
    pose proof (Q 0%nat ltac:(lia)) as Q0. replace (Nat.ltb 0 dim) with true in Q0 by (symmetry; apply Nat.ltb_lt; lia). rewrite !L by lia. split; [exact Q0|]. split; [apply (Q 1%nat); lia|apply (Q 2%nat); lia]. }
  assert (BO : Ref_Spec.box_ok (block_dims Bz) (coarse_offs Bz) (coarse_box Bz c)) by (split; reflexivity).
  destruct c as [|[|[|c]]]; [| | |lia].
  - apply (proj1 (Ref_Proofs.restrict_x1 (block_dims Bz) (coarse_offs Bz) (A1 G) (v 0) (coarse_box Bz 0) (fun _ _ _ => 0%R) (fpos_of y) LY BO IB PP)).
  - apply (proj1 (Ref_Proofs.restrict_x2 (block_dims Bz) (coarse_offs Bz) (A2 G) (v 1) (fun _ => 0%R) (fun _ => 0%R) (fun _ => 0%R) (coarse_box Bz 1) (fun _ _ _ => 0%R) (fpos_of y) LY IB eq_refl PP)).
  - apply (proj1 (Ref_Proofs.restrict_x3 (block_dims Bz) (coarse_offs Bz) (A3 G) (v 2) (coarse_box Bz 2) (fun _ _ _ => 0%R) (fpos_of y) LY IB PP)).
Qed.
End N.
