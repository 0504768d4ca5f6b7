(** Ghost cells are free of magnetic charge. *)
From Coq Require Import List Arith NArith ZArith Bool Lia Reals Lra.
From Verif Require Import Fv_Model.
From Verif Require Fv_Spec Ref_Model Ref_Spec Ref_Proofs.
From Verif Require Import Loc LB_Spec Tags_Model Tags_Spec Tags_Proofs AMR_Model AMR_Spec AMR_Proofs AMR_Proofs2 Tree_Model Tree_Spec Tree_Proofs1 Tree_Proofs2 Tree_Proofs3 Tree_Proofs4 Tree_Proofs5 Tree_Proofs6 Tree_Proofs7 Tree_Proofs8 Tree_Restart Tree_Proofs9 Tree_Proofs10 Nbr_Model Nbr_Spec Nbr_Proofs Nbr_Proofs2 Nbr_Proofs3 Buf_Model Gho_Model Gho_Spec Gho_Proofs Gho_Proofs2 Gho_Proofs3 Gho_Proofs4 Gho_Proofs5 Con_Model Con_Spec Con_Proofs Emf_Model Emf_Spec Mag_Spec Fgh_Model Fgh_Spec Fgh_Proofs Fgh_Proofs2 Fgh_Proofs3 Fgh_Proofs4 Fgh_Model2 Fgh_Spec2 Fgh_Proofs6 Fgh_Proofs7.
Import ListNotations.
Local Open Scope Z_scope.

Definition at3 (k j i : Z) : cell := fun d => match d with 0%nat => i | 1%nat => j | _ => k end.
Section N.
Variable g : grid.
Hypothesis Vg : valid_grid g.
Variable ml : bool.
Local Notation dim := (gdim g).
Variable Bz : bsz.
Hypothesis FT : fitting g Bz ml.
Local Notation D13 := (dim13 g Vg).

(** Fluxes through the fine faces on the sides of a coarse cell, and out of the fine cells in it. *)
Definition fine_cells (y : cell) : list cell := let m d := base Bz y d in
  match dim with
  | 1%nat => [at3 0 0 (m 0%nat); at3 0 0 (m 0%nat + 1)]
  | 2%nat => [at3 0 (m 1%nat) (m 0%nat); at3 0 (m 1%nat) (m 0%nat + 1); at3 0 (m 1%nat + 1) (m 0%nat); at3 0 (m 1%nat + 1) (m 0%nat + 1)]
  | _ => [at3 (m 2%nat) (m 1%nat) (m 0%nat); at3 (m 2%nat) (m 1%nat) (m 0%nat + 1); at3 (m 2%nat) (m 1%nat + 1) (m 0%nat); at3 (m 2%nat) (m 1%nat + 1) (m 0%nat + 1);
          at3 (m 2%nat + 1) (m 1%nat) (m 0%nat); at3 (m 2%nat + 1) (m 1%nat) (m 0%nat + 1); at3 (m 2%nat + 1) (m 1%nat + 1) (m 0%nat); at3 (m 2%nat + 1) (m 1%nat + 1) (m 0%nat + 1)]
  end.
Definition out (f : nat -> fpos -> R) (z : cell) : R := Fv_Spec.sum (map (fun c => f c (fpos_of (cell_face z c true)) - f c (fpos_of (cell_face z c false)))%R (seq 0 dim)).
Lemma telescope : forall f y, Fv_Spec.sum (map (fun c => Fv_Spec.sum (map (f c) (fine_faces Bz c (cell_face y c true))) - Fv_Spec.sum (map (f c) (fine_faces Bz c (cell_face y c false))))%R (seq 0 dim)) = Fv_Spec.sum (map (out f) (fine_cells y)).
Proof using Vg FT.
  intros f y. pose proof D13 as D. destruct (dims_nx g Vg ml Bz FT) as (N1 & N2 & N3).
  assert (L : forall d, (d < 3)%nat -> Z.ltb 1 (cells_in Bz d) = Nat.ltb d dim). { intros d Hd. destruct (Nat.ltb_spec d dim) as [Ha|Hi]; [apply Z.ltb_lt, N1, Ha|]. destruct (inactive_facts g Bz ml D13 FT d Hi Hd) as (_ & _ & _ & _ & _ & _ & _ & _ & ->). reflexivity. }
  assert (SC : forall d, (d < 3)%nat -> s_ Bz d = (if Nat.ltb d dim then ng Bz else 0) /\ cs_ Bz d = (if Nat.ltb d dim then ng Bz else 0)).
  { intros d Hd. destruct (Nat.ltb_spec d dim) as [Ha|Hi]; [destruct (active_facts g Bz ml D13 FT d Ha) as (-> & _ & -> & _); split; reflexivity|destruct (inactive_facts g Bz ml D13 FT d Hi Hd) as (-> & _ & -> & _); split; reflexivity]. }
  destruct (SC 0%nat ltac:(lia)) as [S0 C0]. destruct (SC 1%nat ltac:(lia)) as [S1 C1]. destruct (SC 2%nat ltac:(lia)) as [S2 C2]. pose proof (L 1%nat ltac:(lia)) as L1. pose proof (L 2%nat ltac:(lia)) as L2. clear L SC.
  unfold fine_cells, out, fine_faces, fpos_of. assert (Ed : dim = 1%nat \/ dim = 2%nat \/ dim = 3%nat) by lia.
  assert (A1 : forall z, z + 1 + 1 = z + 2) by (intros; ring). assert (A2 : forall s z cs, s + 2 * (z + 1 - cs) = s + 2 * (z - cs) + 2) by (intros; ring).
  destruct Ed as [Ed|[Ed|Ed]]; rewrite Ed in *; cbn [Nat.ltb Nat.leb] in *; cbn [seq map Ref_Spec.faces1 Ref_Spec.faces2 Ref_Spec.faces3 block_dims Fv_Model.is_ js ks coarse_offs Ref_Model.cis Ref_Model.cjs Ref_Model.cks];
    unfold Ref_Spec.combine3, Ref_Spec.duo; rewrite ?N2, ?N3, ?L1, ?L2, ?S0, ?C0, ?S1, ?C1, ?S2, ?C2; unfold Ref_Spec.two, cell_face, at3; cbn [flat_map map app andb Nat.eqb]; rewrite ?A2, ?A1; unfold base; rewrite !sum_cons', !sum_nil'; ring.
Qed.
Lemma fine_own : forall y z, ml = true -> own Bz dim true y -> In z (fine_cells y) -> own Bz dim false z.
Proof using Vg FT.
  intros y z Hm O Hz d Hd. pose proof D13 as D. assert (Q : if Nat.ltb d dim then z d = base Bz y d \/ z d = base Bz y d + 1 else z d = 0).
  { unfold fine_cells in Hz. assert (Ed : dim = 1%nat \/ dim = 2%nat \/ dim = 3%nat) by lia. destruct Ed as [Ed|[Ed|Ed]]; rewrite Ed in *; cbn [In] in Hz; repeat (destruct Hz as [<-|Hz]); try contradiction; destruct d as [|[|[|d]]]; try lia; cbn; tauto. }
  specialize (O d Hd). unfold base in Q. destruct (Nat.ltb_spec d dim) as [Ha|Hi].
  - destruct (active_facts g Bz ml D13 FT d Ha) as (_ & _ & _ & _ & _ & _ & E3 & E4 & _). destruct (multi_facts g Bz ml D13 FT Hm d Ha) as (h & k & G1 & G2 & _). rewrite E3, E4 in *. rewrite G2 in O. rewrite G1. lia.
  - destruct (inactive_facts g Bz ml D13 FT d Hi Hd) as (_ & _ & _ & _ & _ & _ & E3 & E4 & _). rewrite E3, E4 in *. lia.
Qed.
Variable t : tree.
Hypothesis W : wf g t.
Hypothesis ML : declared g ml (blocks t).
Variables G Gc : loc -> geom.
Hypothesis PA : areas_positive g Bz (blocks t) G.
Hypothesis GA : ghost_areas g Bz (blocks t) G Gc.
Variable V : loc -> arr4 (A := R).
Hypothesis NC : forall b y, In b (blocks t) -> own Bz dim false y -> charge dim (G b) (V b) y = 0%R.
Lemma uncharged : forall a main coarse, In a (blocks t) -> faces_filled g Bz (blocks t) V (fun b => RestrictField Bz (G b)) a main coarse -> ghosts_uncharged g Bz (blocks t) G Gc a main coarse.
Proof using Vg FT W ML PA GA NC.
  intros a main coarse Ha [F1 F2]. pose proof D13 as D. destruct (in_dom g t W a Ha) as [_ Ra].
  assert (Up : forall c hi, (c < dim)%nat -> upper dim c hi = hi) by (intros c hi Hc; unfold upper; replace (Nat.ltb c dim) with true by (symmetry; apply Nat.ltb_lt, Hc); apply andb_true_r). split.
  - intros x b h y N NO Hb L O P. destruct h.
    + pose proof (finer_ml g t W ml ML b (level a) Hb L Ra) as Hm. unfold charge.
      rewrite (sum_map_ext _ _ (fun c => Fv_Spec.sum (map (fun q => area (G b) c q * Fv_Spec.at_ (V b (Z.of_nat c)) q) (fine_faces Bz c (cell_face y c true))) - Fv_Spec.sum (map (fun q => area (G b) c q * Fv_Spec.at_ (V b (Z.of_nat c)) q) (fine_faces Bz c (cell_face y c false))))%R).
      * rewrite (telescope (fun c q => area (G b) c q * Fv_Spec.at_ (V b (Z.of_nat c)) q)%R). rewrite (sum_map_ext _ _ (fun _ => 0%R)); [apply sum_zero|]. intros z Hz. apply (NC b z Hb). apply (fine_own y z Hm O Hz).
      * intros c Hc. apply in_seq in Hc. assert (Hcd : (c < dim)%nat) by lia. assert (T : forall hi, (area (G a) c (fpos_of (cell_face x c hi)) * value main (Z.of_nat c) (cell_face x c hi) = Fv_Spec.sum (map (fun q => area (G b) c q * Fv_Spec.at_ (V b (Z.of_nat c)) q) (fine_faces Bz c (cell_face y c hi))))%R).
        { intros hi. rewrite (proj1 GA a x b true y c hi Ha Hb Hcd N L O P), (F1 x b true y c hi ltac:(lia) N NO Hb L O P), Up by exact Hcd. unfold area_there, reading. rewrite Rmult_comm. apply (restricted g Vg ml Hm Bz FT (G b) (V b) c _ (fun dir p => PA b dir p Hb) Hcd). apply (face_own g Bz true y c hi (fun _ => Hcd) O). }
        rewrite !T. reflexivity.
    + unfold charge. rewrite <- (NC b y Hb O). unfold charge. apply sum_map_ext. intros c Hc. apply in_seq in Hc. assert (Hcd : (c < dim)%nat) by lia.
      rewrite !(proj1 GA a x b false y c _ Ha Hb Hcd N L O P), !(F1 x b false y c _ ltac:(lia) N NO Hb L O P), !Up by exact Hcd. reflexivity.
  - intros x b y N Hb L O P. unfold charge. rewrite <- (NC b y Hb O). unfold charge. apply sum_map_ext. intros c Hc. apply in_seq in Hc. assert (Hcd : (c < dim)%nat) by lia.
    rewrite !(proj2 GA a x b y c _ Ha Hb Hcd N L O P), !(F2 x b y c _ ltac:(lia) N Hb L O P), !Up by exact Hcd. reflexivity.
Qed.
End N.
(** Uniform Cartesian meshes. *)
Section U.
Variable g : grid.
Hypothesis Vg : valid_grid g.
Variable ml : bool.
Local Notation dim := (gdim g).
Variable Bz : bsz.
Hypothesis FT : fitting g Bz ml.
Local Notation D13 := (dim13 g Vg).
Variable t : tree.
Hypothesis W : wf g t.
Lemma area_level : forall dx a b c p q, level a = level b -> area (uniform g dx a) c p = area (uniform g dx b) c q.
Proof using . intros dx a b c [[k j] i] [[k' j'] i'] L. unfold area, uniform. rewrite L. destruct c as [|[|c]]; reflexivity. Qed.
Lemma uniform_ghosts : forall dx, ghost_areas g Bz (blocks t) (uniform g dx) (coarse_uniform g dx).
Proof using Vg FT W.
  intros dx. pose proof D13 as D. split.
  - intros a x b h y c hi Ha Hb Hc N L O P. unfold area_there. destruct h; [|apply area_level; congruence]. destruct (in_dom g t W a Ha) as [_ Ra]. destruct (dims_nx g Vg ml Bz FT) as (N1 & N2 & N3).
    assert (LL : forall d, (d < 3)%nat -> Z.ltb 1 (cells_in Bz d) = Nat.ltb d dim). { intros d Hd. destruct (Nat.ltb_spec d dim) as [Hx|Hi]; [apply Z.ltb_lt, N1, Hx|]. destruct (inactive_facts g Bz ml D13 FT d Hi Hd) as (_ & _ & _ & _ & _ & _ & _ & _ & ->). reflexivity. }
    pose proof (LL 1%nat ltac:(lia)) as L1. pose proof (LL 2%nat ltac:(lia)) as L2. clear LL.
    assert (Hh : forall d, cell_length g dx (level a) d = ((if Nat.ltb d dim then 2 else 1) * cell_length g dx (level b) d)%R). { intros d. unfold cell_length. destruct (Nat.ltb d dim); [|ring]. rewrite L, Nat.sub_succ_l by exact Ra. cbn [pow]. field. apply pow_nonzero. lra. }
    pose proof (Hh 0%nat) as H0. pose proof (Hh 1%nat) as H1. pose proof (Hh 2%nat) as H2. clear Hh.
    unfold fine_faces, fpos_of. assert (Ed : dim = 1%nat \/ dim = 2%nat \/ dim = 3%nat) by lia. destruct Ed as [Ed|[Ed|Ed]]; rewrite Ed in *; cbn [Nat.ltb Nat.leb] in *; destruct c as [|[|[|c]]]; try lia; cbn [Ref_Spec.faces1 Ref_Spec.faces2 Ref_Spec.faces3]; unfold Ref_Spec.combine3, Ref_Spec.duo; rewrite ?N2, ?N3, ?L1, ?L2;
      unfold Ref_Spec.two; cbn [flat_map map app]; rewrite !sum_cons', sum_nil'; unfold area, uniform, Fv_Spec.at_; cbn [A1 A2 A3]; rewrite ?H0, ?H1, ?H2; ring.
  - intros a x b y c hi Ha Hb Hc N L O P. unfold coarse_uniform. apply area_level. cbn [level]. lia.
Qed.
End U.
Section F.
Variable g : grid.
Hypothesis Vg : valid_grid g.
Variable ml : bool.
Local Notation dim := (gdim g).
Variable Bz : bsz.
Hypothesis FT : fitting g Bz ml.
Local Notation D13 := (dim13 g Vg).
Lemma charge_free : forall bs G b, no_charge Bz bs G b -> flat g Bz bs G b -> forall a y, In a bs -> own Bz dim false y -> charge dim (G a) (field4 (b a)) y = 0%R.
Proof using Vg FT.
  intros bs G b NC FL a y Ha O. pose proof D13 as D.
  assert (Q : Fv_Spec.is_active (block_dims Bz) (y 2%nat) (y 1%nat) (y 0%nat)).
  { assert (X : forall d, (d < 3)%nat -> s_ Bz d <= y d <= e_ Bz d). { intros d Hd. specialize (O d Hd). destruct (Nat.lt_ge_cases d dim) as [Hx|Hi]; [destruct (active_facts g Bz ml D13 FT d Hx) as (-> & -> & _ & _ & _ & _ & E3 & E4 & _)|destruct (inactive_facts g Bz ml D13 FT d Hi Hd) as (-> & -> & _ & _ & _ & _ & E3 & E4 & _)]; rewrite E3, E4 in O; lia. }
    split; [apply (X 2%nat); lia|split; [apply (X 1%nat); lia|apply (X 0%nat); lia]]. }
  specialize (NC a _ _ _ Ha Q). unfold Fv_Spec.net_flux in NC. unfold charge.
  assert (T : forall c, (c < 3)%nat -> forall hi, value (field4 (b a)) (Z.of_nat c) (cell_face y c hi) = normal (b a) c (fpos_of (cell_face y c hi))).
  { intros [|[|[|c]]] Hc hi; [reflexivity|reflexivity|reflexivity|lia]. }
  assert (F1 : (dim <= 1)%nat -> (A2 (G a) (y 2%nat) (y 1%nat + 1)%Z (y 0%nat) * x2 (b a) (y 2%nat) (y 1%nat + 1)%Z (y 0%nat) = A2 (G a) (y 2%nat) (y 1%nat) (y 0%nat) * x2 (b a) (y 2%nat) (y 1%nat) (y 0%nat))%R) by (intros H; exact (FL a y 1%nat Ha O ltac:(lia))).
  assert (F2 : (dim <= 2)%nat -> (A3 (G a) (y 2%nat + 1)%Z (y 1%nat) (y 0%nat) * x3 (b a) (y 2%nat + 1)%Z (y 1%nat) (y 0%nat) = A3 (G a) (y 2%nat) (y 1%nat) (y 0%nat) * x3 (b a) (y 2%nat) (y 1%nat) (y 0%nat))%R) by (intros H; exact (FL a y 2%nat Ha O ltac:(lia))).
  rewrite (sum_map_ext _ _ (fun c => area (G a) c (fpos_of (cell_face y c true)) * normal (b a) c (fpos_of (cell_face y c true)) - area (G a) c (fpos_of (cell_face y c false)) * normal (b a) c (fpos_of (cell_face y c false)))%R) by (intros c Hc; apply in_seq in Hc; rewrite !T by lia; reflexivity).
  assert (Ed : dim = 1%nat \/ dim = 2%nat \/ dim = 3%nat) by lia. destruct Ed as [Ed|[Ed|Ed]]; rewrite Ed in *; cbn [seq map]; rewrite !sum_cons', sum_nil'; unfold area, normal, Con_Spec.flux, fpos_of, cell_face, Fv_Spec.at_; cbn [andb Nat.eqb]; try specialize (F1 ltac:(lia)); try specialize (F2 ltac:(lia)); lra.
Qed.
Lemma uniform_positive : forall dx bs, (forall d, (d < 3)%nat -> (0 < dx d)%R) -> areas_positive g Bz bs (uniform g dx).
Proof using .
  intros dx bs Hdx a dir [[k j] i] _ _ _.
  assert (P : forall d, (d < 3)%nat -> (0 < cell_length g dx (level a) d)%R). { intros d Hd. unfold cell_length. specialize (Hdx d Hd). destruct (Nat.ltb d dim); [|exact Hdx]. apply Rdiv_lt_0_compat; [exact Hdx|apply pow_lt; lra]. }
  destruct dir as [|[|dir]]; unfold area, uniform, Fv_Spec.at_; cbn [A1 A2 A3]; apply Rmult_lt_0_compat; apply P; lia.
Qed.
End F.
