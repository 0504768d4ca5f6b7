(** Angular momentum, a fluid at rest, and refinement in all coordinate systems. *)
From Coq Require Import Reals ZArith List Bool Lra Lia.
From Verif Require Import Fv_Model Fv_Spec Fv_Proofs Fv_Proofs2 Ref_Model Ref_Spec Ref_Proofs Ref_Proofs2 Ref_Proofs3 Ref_Proofs4 Met_Model Met_Spec Met_Proofs Met_Proofs2 Met_Proofs3.
Import ListNotations.
Local Open Scope R_scope.

Lemma active_iff : forall d k j i, active d k j i = true <-> is_active d k j i.
Proof. intros. unfold active. rewrite !andb_true_iff, !within_iff. unfold is_active; tauto. Qed.

(** In spherical-polar coordinates: the sines of the two polar angles of a cell. *)
Lemma sines : forall g k j i, proper spherical_polar g k j i -> coord_area2_j g j = sin (x2f g j) /\ coord_area2_j g (j + 1)%Z = sin (x2f g (j + 1)%Z) /\
  (0 < sin (x2f g j) + sin (x2f g (j + 1)%Z) \/ (x2f g j = 0 /\ x2f g (j + 1)%Z = PI)).
Proof.
  intros g k j i P. destruct P as (_ & Q1 & _ & _ & Q2); cbn [angle_ok] in Q2. rewrite !area2_j_val by lra. split; [reflexivity|]. split; [reflexivity|].
  assert (N1 : 0 <= sin (x2f g j)) by (apply sin_nn; lra). assert (N2 : 0 <= sin (x2f g (j + 1)%Z)) by (apply sin_nn; lra).
  destruct (Rle_lt_or_eq_dec _ _ (proj1 Q2)) as [X|X]; [left; pose proof (sin_gt_0 _ X ltac:(lra)); lra|].
  destruct (Rle_lt_or_eq_dec _ _ (proj2 Q2)) as [Y|Y]; [left; pose proof (sin_gt_0 (x2f g (j + 1)%Z) ltac:(lra) Y); lra|right; split; [symmetry; exact X|exact Y]].
Qed.
Lemma sines_block : forall d g k j i, nonempty d -> proper_block spherical_polar d g -> is_active d k j i -> (1 < nx2 d)%Z -> 0 < sin (x2f g j) + sin (x2f g (j + 1)%Z).
Proof.
  intros d g k j i N (A & P & _) Ha Hn. destruct (sines g k j i (P k j i Ha)) as (_ & _ & [X|[X Y]]); [exact X|exfalso]. destruct N as ((N1 & N2 & N3) & _). unfold is_active in Ha.
  assert (Hj : (js d < j \/ j < je d)%Z) by (unfold nx2 in Hn; lia). destruct Hj as [Hj|Hj].
  - destruct (P k (j - 1)%Z i ltac:(unfold is_active; lia)) as (_ & Q1 & _ & _ & Q2). cbn [angle_ok] in Q2. replace (j - 1 + 1)%Z with j in Q1 by lia. lra.
  - destruct (P k (j + 1)%Z i ltac:(unfold is_active; lia)) as (_ & Q1 & _ & _ & Q2). cbn [angle_ok] in Q2. lra.
Qed.
Lemma one_cell : forall d j, nonempty d -> nx2 d = 1%Z -> (js d <= j <= je d)%Z -> j = js d.
Proof. intros d j _ H Hj. unfold nx2 in H. lia. Qed.

(** ** Angular momentum *)
Lemma angular : forall s d g dt f w u k j i, nonempty d -> proper_block s d g -> is_active d k j i -> s <> cartesian ->
  arm s g j i * azimuthal s (advance_momenta s d g dt f w u) k j i = AddFluxDivergence d (geometry s g) (torque s g (azimuthal_flux s f)) dt (fun k j i => arm s g j i * azimuthal s u k j i) k j i.
Proof.
  intros s d g dt f w u k j i N B Ha Hs. pose proof B as (A & P & S). specialize (P k j i Ha). pose proof (vi_pos s g k j i A P) as Hv. pose proof (vj_pos s g k j i A P) as Hw. pose proof (vk_pos s g k j i A P) as Hk.
  pose proof (proj2 (active_iff d k j i) Ha) as Act. pose proof (proj1 (A i)) as Hd. pose proof (proj1 (proj2 (A j))) as Hd2.
  destruct s; [congruence| |].
  - cbn [arm azimuthal azimuthal_flux torque advance_momenta AddCoordTermsDivergence M2]. unfold advance_momenta; cbv zeta; cbn [AddCoordTermsDivergence M2 azimuthal]. rewrite Act. unfold AddFluxDivergence; rewrite Act.
    unfold dflx; cbv zeta. cbn [A1 A2 A3 V geometry x1 x2 x3]. unfold GetFace1Area, GetFace2Area, GetFace3Area, GetCellVolume, coord_src2_i. unfold vi, coord_vol_i in Hv. unfold vj in Hw. unfold coord_vol_i.
    assert (E : coord_area3_i g i = mid (x1f g) i * dx1f g i) by (unfold coord_area3_i, coord_area2_i, mid; rewrite Hd; field).
    destruct P as (Q1 & Q2 & Q3 & Q4 & _); cbn [radius_ok] in Q4. rewrite E in *. assert (Hm : 0 < mid (x1f g) i) by (unfold mid; lra). assert (Hsum : x1f g i + x1f g (i + 1)%Z = 2 * mid (x1f g) i) by (unfold mid; field). assert (0 < dx1f g i) by lra.
    assert (Ha1 : x1f g i = mid (x1f g) i - dx1f g i / 2) by (unfold mid; rewrite Hd; field). assert (Hb1 : x1f g (i + 1)%Z = mid (x1f g) i + dx1f g i / 2) by (unfold mid; rewrite Hd; field).
    rewrite Hsum. rewrite Ha1, Hb1. set (m := mid (x1f g) i) in *. set (h := dx1f g i) in *. set (h2_ := dx2f g j) in *. set (h3_ := dx3f g k) in *. clearbody m h h2_ h3_.
    set (F1 := x1 (FM2 f) k j i). set (F2 := x1 (FM2 f) k j (i + 1)%Z). set (G1 := x2 (FM2 f) k j i). set (G2 := x2 (FM2 f) k (j + 1)%Z i). set (H1 := x3 (FM2 f) k j i). set (H2 := x3 (FM2 f) (k + 1)%Z j i). set (U := M2 u k j i). clearbody F1 F2 G1 G2 H1 H2 U.
    assert (h2_ <> 0) by (intro; subst; lra). assert (h3_ <> 0) by lra.
    destruct (Z.ltb 1 (nx2 d)); destruct (Z.ltb 1 (nx3 d)); field; repeat apply conj; try assumption; lra.
  - cbn [arm azimuthal azimuthal_flux torque]. unfold advance_momenta; cbv zeta; cbn [AddCoordTermsDivergence M3 azimuthal]. rewrite Act. unfold AddFluxDivergence; rewrite Act.
    unfold dflx; cbv zeta. cbn [A1 A2 A3 V geometry x1 x2 x3]. unfold GetFace1Area, GetFace2Area, GetFace3Area, GetCellVolume, coord_src2_i, coord_src1_i, coord_src2_j, coord_src3_j. unfold vi in Hv. unfold vj in Hw.
    destruct (sines g k j i P) as (E1 & E2 & _). rewrite !E1, !E2. change (coord_area1_j g j) with (coord_vol_j g j).
    assert (Hab : 0 < x1f g i + x1f g (i + 1)%Z) by (destruct P as (Q1 & Q2 & Q3 & Q4 & _); cbn [radius_ok] in Q4; lra).
    unfold coord_area1_i, mid. change (coord_area3_i g i) with (coord_area2_i g i). set (Vi := coord_vol_i spherical_polar g i) in *. set (Vj := coord_vol_j g j) in *. clearbody Vi Vj. set (A2i := coord_area2_i g i). clearbody A2i. rewrite Hd.
    set (a := x1f g i) in *. set (b := x1f g (i + 1)%Z) in *. set (h3_ := dx3f g k) in *.
    set (F1 := x1 (FM3 f) k j i). set (F2 := x1 (FM3 f) k j (i + 1)%Z). set (G1 := x2 (FM3 f) k j i). set (G2 := x2 (FM3 f) k (j + 1)%Z i). set (H1 := x3 (FM3 f) k j i). set (H2 := x3 (FM3 f) (k + 1)%Z j i). set (U := M3 u k j i).
    destruct (Z.ltb_spec 1 (nx2 d)) as [L|L].
    + pose proof (sines_block d g k j i N B Ha L) as Hs2. set (s1 := sin (x2f g j)) in *. set (s2 := sin (x2f g (j + 1)%Z)) in *. clearbody a b h3_ F1 F2 G1 G2 H1 H2 U s1 s2.
      destruct (Z.ltb 1 (nx3 d)); field; repeat apply conj; lra.
    + assert (Ej : j = js d) by (apply one_cell; [exact N|destruct N as (N0 & _); unfold nx2 in *; lia|unfold is_active in Ha; lia]). specialize (S ltac:(destruct N as (N0 & _); unfold nx2 in *; lia) eq_refl). rewrite <- Ej in S. rewrite S, sin_PI_x.
      set (s1 := sin (x2f g j)) in *. clearbody a b h3_ F1 F2 G1 G2 H1 H2 U s1. destruct (Z.ltb 1 (nx3 d)); field; repeat apply conj; lra.
Qed.

(** ** A fluid at rest *)
Lemma rest : forall s d g dt f w u p k j i, nonempty d -> proper_block s d g -> at_rest p w -> pressure_flux p f ->
  M1 (advance_momenta s d g dt f w u) k j i = M1 u k j i /\ M2 (advance_momenta s d g dt f w u) k j i = M2 u k j i /\ M3 (advance_momenta s d g dt f w u) k j i = M3 u k j i.
Proof.
  intros s d g dt f w u p k j i N B Hw Hf. unfold advance_momenta; cbv zeta. unfold AddCoordTermsDivergence. destruct (active d k j i) eqn:Act.
  2: { unfold AddFluxDivergence. destruct s; cbn [M1 M2 M3]; rewrite ?Act; auto. }
  pose proof (proj1 (active_iff d k j i) Act) as Ha. pose proof B as (A & P & S). specialize (P k j i Ha). pose proof (vi_pos s g k j i A P) as Hv. pose proof (vj_pos s g k j i A P) as Hj. pose proof (vk_pos s g k j i A P) as Hk.
  pose proof (proj1 (A i)) as Hd. pose proof (proj1 (proj2 (A j))) as Hd2. pose proof (P1 s g k j i P) as H1. pose proof (P2 s g k j i P) as H2.
  destruct (Hw k j i) as (W1 & W2 & W3 & W4 & W5 & W6).
  assert (E : forall k j i, x1 (FM1 f) k j i = p /\ x2 (FM1 f) k j i = 0 /\ x3 (FM1 f) k j i = 0 /\ x1 (FM2 f) k j i = 0 /\ x2 (FM2 f) k j i = p /\ x3 (FM2 f) k j i = 0 /\ x1 (FM3 f) k j i = 0 /\ x2 (FM3 f) k j i = 0 /\ x3 (FM3 f) k j i = p) by exact Hf.
  assert (D : forall v G, dflx d G v k j i = (A1 G k j (i + 1)%Z * x1 v k j (i + 1)%Z - A1 G k j i * x1 v k j i) + (if Z.ltb 1 (nx2 d) then A2 G k (j + 1)%Z i * x2 v k (j + 1)%Z i - A2 G k j i * x2 v k j i else 0) + (if Z.ltb 1 (nx3 d) then A3 G (k + 1)%Z j i * x3 v (k + 1)%Z j i - A3 G k j i * x3 v k j i else 0)).
  { intros v G. unfold dflx; cbv zeta. destruct (Z.ltb 1 (nx2 d)), (Z.ltb 1 (nx3 d)); ring. }
  assert (Q1 : forall G, dflx d G (FM1 f) k j i = (A1 G k j (i + 1)%Z - A1 G k j i) * p). { intro G. rewrite D. destruct (E k j i) as (-> & -> & -> & _). destruct (E k j (i + 1)%Z) as (-> & _). destruct (E k (j + 1)%Z i) as (_ & -> & _). destruct (E (k + 1)%Z j i) as (_ & _ & -> & _). destruct (Z.ltb 1 (nx2 d)), (Z.ltb 1 (nx3 d)); ring. }
  assert (Q2 : forall G, dflx d G (FM2 f) k j i = if Z.ltb 1 (nx2 d) then (A2 G k (j + 1)%Z i - A2 G k j i) * p else 0). { intro G. rewrite D. destruct (E k j i) as (_ & _ & _ & -> & -> & -> & _). destruct (E k j (i + 1)%Z) as (_ & _ & _ & -> & _). destruct (E k (j + 1)%Z i) as (_ & _ & _ & _ & -> & _). destruct (E (k + 1)%Z j i) as (_ & _ & _ & _ & _ & -> & _). destruct (Z.ltb 1 (nx2 d)), (Z.ltb 1 (nx3 d)); ring. }
  assert (Q3 : forall G, dflx d G (FM3 f) k j i = if Z.ltb 1 (nx3 d) then (A3 G (k + 1)%Z j i - A3 G k j i) * p else 0). { intro G. rewrite D. destruct (E k j i) as (_ & _ & _ & _ & _ & _ & -> & -> & ->). destruct (E k j (i + 1)%Z) as (_ & _ & _ & _ & _ & _ & -> & _). destruct (E k (j + 1)%Z i) as (_ & _ & _ & _ & _ & _ & _ & -> & _). destruct (E (k + 1)%Z j i) as (_ & _ & _ & _ & _ & _ & _ & _ & ->). destruct (Z.ltb 1 (nx2 d)), (Z.ltb 1 (nx3 d)); ring. }
  destruct (E k j i) as (_ & _ & _ & F1 & _ & _ & F2 & F3 & _). destruct (E k j (i + 1)%Z) as (_ & _ & _ & F1' & _ & _ & F2' & _ & _). destruct (E k (j + 1)%Z i) as (_ & _ & _ & _ & _ & _ & _ & F3' & _).
  destruct s; cbn [M1 M2 M3]; rewrite ?Act; unfold AddFluxDivergence; rewrite ?Act, Q1, Q2, Q3; cbn [A1 A2 A3 V geometry]; rewrite ?F1, ?F1', ?F2, ?F2', ?F3, ?F3', ?W1, ?W2, ?W3, ?W4, ?W5, ?W6; unfold SQR, GetFace1Area, GetFace2Area, GetFace3Area, GetCellVolume; unfold vi, vj in Hv, Hj.
  - assert (V0 : dx1f g i * dx2f g j * dx3f g k <> 0) by (apply Rgt_not_eq; repeat apply Rmult_lt_0_compat; assumption). repeat split; [field; repeat apply conj; lra| |]; destruct (Z.ltb 1 (nx2 d)), (Z.ltb 1 (nx3 d)); field; repeat apply conj; lra.
  - unfold coord_src1_i. set (Vi := coord_vol_i cylindrical g i) in *. clearbody Vi. rewrite Hd. set (a := x1f g i) in *. set (b := x1f g (i + 1)%Z) in *. set (c := dx2f g j) in *. set (e := dx3f g k) in *. clearbody a b c e.
    repeat split; [field; repeat apply conj; lra| |]; destruct (Z.ltb 1 (nx2 d)), (Z.ltb 1 (nx3 d)); field; repeat apply conj; lra.
  - unfold coord_src1_i, coord_src1_j. change (coord_area1_j g j) with (coord_vol_j g j). unfold coord_area1_i. assert (EA : (x1f g (i + 1)%Z * x1f g (i + 1)%Z - x1f g i * x1f g i) = 2 * coord_area2_i g i) by (unfold coord_area2_i; field).
    set (Vi := coord_vol_i spherical_polar g i) in *. set (Vj := coord_vol_j g j) in *. set (c := coord_area2_i g i) in *. set (aa := x1f g (i + 1)%Z * x1f g (i + 1)%Z) in *. set (bb := x1f g i * x1f g i) in *. set (e := dx3f g k) in *. assert (Eaa : aa = bb + 2 * c) by lra. rewrite Eaa.
    repeat split.
    + clearbody Vi Vj c bb e. field; repeat apply conj; lra.
    + destruct (Z.ltb_spec 1 (nx2 d)) as [L|L].
      * set (s1 := coord_area2_j g j). set (s2 := coord_area2_j g (j + 1)%Z). clearbody Vi Vj c bb e s1 s2. field; repeat apply conj; lra.
      * assert (Ej : j = js d) by (apply one_cell; [exact N|destruct N as (N0 & _); unfold nx2 in *; lia|unfold is_active in Ha; lia]). specialize (S ltac:(destruct N as (N0 & _); unfold nx2 in *; lia) eq_refl). rewrite <- Ej in S.
        replace (coord_area2_j g (j + 1)%Z) with (coord_area2_j g j) by (unfold coord_area2_j; rewrite S, sin_PI_x; reflexivity). clearbody Vi Vj c bb e. field; repeat apply conj; lra.
    + destruct (Z.ltb 1 (nx2 d)), (Z.ltb 1 (nx3 d)); unfold Rdiv; rewrite ?Rmult_0_r, ?Rplus_0_r; try ring.
Qed.

(** ** Refinement in all coordinate systems *)
Lemma in_combine3 : forall K J I k j i, In k K -> In j J -> In i I -> In (k, j, i) (combine3 K J I).
Proof. intros K J I k j i HK HJ HI. unfold combine3. apply in_flat_map. exists k; split; [exact HK|]. apply in_flat_map. exists j; split; [exact HJ|]. apply in_map_iff. exists i; auto. Qed.
Lemma duo_ne : forall n s cs x, exists m, In m (duo n s cs x).
Proof. intros n s cs x; unfold duo, two. destruct (Z.ltb 1 n); eexists; left; reflexivity. Qed.
Lemma nested_spans : forall s d c gf gc k j i, nested_cells s d c gf gc (k, j, i) -> spans1 s d c gf gc i /\ spans2 s d c gf gc j.
Proof.
  intros s d c gf gc k j i (Af & Ac & Rf & Pc & Pf & S). destruct (duo_ne (nx3 d) (ks d) (cks c) k) as (m3 & H3). destruct (duo_ne (nx2 d) (js d) (cjs c) j) as (m2 & H2).
  split; (split; [first [eapply span1_proper; exact Pc|eapply span2_proper; exact Pc]|]); intros m Hm.
  - eapply span1_proper. apply (Pf m3 m2 m). apply in_combine3; assumption.
  - eapply span2_proper. apply (Pf m3 m (is_ d + 2 * (i - cis c))%Z). apply in_combine3; try assumption. left; reflexivity.
Qed.
Lemma nested_positive : forall s d c gf gc q, nested_cells s d c gf gc q -> positive (GetCellVolume s gf) (cells d c q).
Proof.
  intros s d c gf gc [[k j] i] (Af & Ac & Rf & Pc & Pf & S) [[k' j'] i'] Hp. cbn [at_]. apply volume_pos; [exact Af|apply Pf; exact Hp].
Qed.
Lemma inverse_all : forall s d c gf gc b u v u' q, layout d c -> in_box d c b q -> nested_cells s d c gf gc q ->
  at_ (RestrictCC d c (GetCellVolume s gf) (ProlongateCC d c (centres s d gc) (centres s d gf) b u v) b u') q = at_ u q.
Proof.
  intros s d c gf gc b u v u' [[k j] i] L B N. pose proof (nested_spans s d c gf gc k j i N) as (S1 & S2_). pose proof (nested_positive s d c gf gc _ N) as P. destruct N as (Af & Ac & Rf & Pc & Pf & S).
  apply (inverse d c _ _ b u v _ (vi s gf) (vj s gf) (dx3f gf) u' (k, j, i) L B (volume_sep s gf) P); cbn [centres p1 p2 p3 fst snd].
  - apply (cen_x1v s d c gf gc k j i Af Ac Rf S1).
  - intro H. apply (cen_x2v s d c gf gc k j i Af Ac Rf H S2_).
  - intro H. apply (cen_x3v s d c gf gc k j i Af Ac Rf H).
Qed.
Lemma mean_all : forall s d c gf gc b u v q, layout d c -> in_box d c b q -> nested_cells s d c gf gc q ->
  sum (map (fun p => at_ (GetCellVolume s gf) p * at_ (ProlongateCC d c (centres s d gc) (centres s d gf) b u v) p) (cells d c q)) = at_ (GetCellVolume s gc) q * at_ u q.
Proof.
  intros s d c gf gc b u v [[k j] i] L B N. pose proof (nested_spans s d c gf gc k j i N) as (S1 & S2_). destruct N as (Af & Ac & Rf & Pc & Pf & S).
  fold (through (GetCellVolume s gf) (ProlongateCC d c (centres s d gc) (centres s d gf) b u v) (cells d c (k, j, i))). rewrite (prolong_mean d c (centres s d gc) (centres s d gf) b u v _ (vi s gf) (vj s gf) (dx3f gf) (k, j, i) L B (volume_sep s gf)); cbn [centres p1 p2 p3 fst snd].
  - rewrite (cells_sum s d c gf gc k j i Af Ac Rf S2_). cbn [at_]. ring.
  - apply (cen_x1v s d c gf gc k j i Af Ac Rf S1).
  - intro H. apply (cen_x2v s d c gf gc k j i Af Ac Rf H S2_).
  - intro H. apply (cen_x3v s d c gf gc k j i Af Ac Rf H).
Qed.
Lemma faces1_next : forall s d c gf gc k j i, aligned gf -> aligned gc -> refines d c gf gc (k, j, i) -> spans2 s d c gf gc j -> same_area (GetFace1Area s gf) (GetFace1Area s gc) (faces1 d c (k, j, (i + 1)%Z)) (k, j, (i + 1)%Z).
Proof.
  intros s d c gf gc k j i Af Ac Rf S. unfold same_area, faces1. rewrite (sum_combine _ _ _ _ _ _ _ (area1_sep s gf)), (sum_vj s d c gf gc k j i Af Ac Rf S), (sum_vk d c gf gc k j i Af Ac Rf), one_sum. cbn [at_]. rewrite (area1_sep s gc k j (i + 1)%Z).
  assert (E : x1f gf (is_ d + 2 * (i + 1 - cis c))%Z = x1f gc (i + 1)%Z). { destruct Rf as ((_ & E) & _). rewrite <- E. f_equal. lia. }
  unfold a1i, coord_area1_i. rewrite E. ring.
Qed.
Lemma faces2_next : forall s d c gf gc k j i, aligned gf -> aligned gc -> refines d c gf gc (k, j, i) -> (1 < nx2 d)%Z -> same_area (GetFace2Area s gf) (GetFace2Area s gc) (faces2 d c (k, (j + 1)%Z, i)) (k, (j + 1)%Z, i).
Proof.
  intros s d c gf gc k j i Af Ac Rf N. unfold same_area, faces2. rewrite (sum_combine _ _ _ _ _ _ _ (area2_sep s gf)), (sum_a2i s d c gf gc k j i Af Ac Rf), (sum_vk d c gf gc k j i Af Ac Rf), one_sum. cbn [at_]. rewrite (area2_sep s gc k (j + 1)%Z i).
  assert (E : x2f gf (js d + 2 * (j + 1 - cjs c))%Z = x2f gc (j + 1)%Z). { destruct Rf as (_ & H & _). unfold finer in H. destruct (Z.ltb_spec 1 (nx2 d)); [|lia]. destruct H as (_ & E). rewrite <- E. f_equal. lia. }
  unfold a2j, coord_area2_j. rewrite E. ring.
Qed.
Lemma faces3_next : forall s d c gf gc k j i, aligned gf -> aligned gc -> refines d c gf gc (k, j, i) -> same_area (GetFace3Area s gf) (GetFace3Area s gc) (faces3 d c ((k + 1)%Z, j, i)) ((k + 1)%Z, j, i).
Proof.
  intros s d c gf gc k j i Af Ac Rf. unfold same_area, faces3. rewrite (sum_combine _ _ _ _ _ _ _ (area3_sep s gf)), (sum_a3i s d c gf gc k j i Af Ac Rf), (sum_dj d c gf gc k j i Af Ac Rf), one_sum. cbn [at_]. rewrite (area3_sep s gc (k + 1)%Z j i). ring.
Qed.
Lemma divfree_all : forall tiny fl s d c gf gc S1 S2 S3 bx u v q, 0 < tiny -> layout d c -> in_box d c bx q -> nested_cells s d c gf gc q -> (fl = true -> off_axis s (x1f gc (snd q))) -> widths S1 S2 S3 ->
  coarse_out d (geometry s gc) u q = 0 -> forall p, In p (cells d c q) ->
  net_flux (geometry s gf) (ProlongateField tiny fl d c (geometry s gf) (geometry s gc) (centres1 s d gc) (centres1 s d gf) (centres2 s d gc) (centres2 s d gf) (centres3 s d gc) (centres3 s d gf)
    S1 S2 S3 bx (si bx) (ei bx + 1) (sj bx) (ej bx + 1) (sk bx) (ek bx + 1) u v) (fst (fst p)) (snd (fst p)) (snd p) = 0.
Proof.
  intros tiny fl s d c gf gc T1 T2 T3 bx u v [[ck cj] ci] Ht L B N OA W CO. pose proof (nested_spans s d c gf gc ck cj ci N) as (S1_ & S2_). pose proof N as (Af & Ac & Rf & Pc & Pf & Sy). cbn [snd] in OA.
  assert (PA1 : fl = true -> forall i, (i = ci \/ i = ci + 1)%Z -> at_ (GetFace1Area s gc) (ck, cj, i) <> 0).
  { intros E i Hi. specialize (OA E). cbn [at_]. rewrite (area1_sep s gc ck cj i). pose proof (vj_pos s gc ck cj ci Ac Pc). pose proof (vk_pos s gc ck cj ci Ac Pc). pose proof (P1 s gc ck cj ci Pc).
    apply Rgt_not_eq. repeat apply Rmult_lt_0_compat; try assumption. unfold a1i, coord_area1_i. destruct s; cbn [off_axis] in OA; [lra| |]; destruct Hi as [-> | ->]; nra. }
  assert (PA2 : forall j, (j = cj \/ j = cj + 1)%Z -> at_ (GetFace2Area s gc) (ck, j, ci) + tiny <> 0).
  { intros j Hj. cbn [at_]. rewrite (area2_sep s gc ck j ci). pose proof (a2i_pos s gc ck cj ci Ac Pc). pose proof (vk_pos s gc ck cj ci Ac Pc).
    assert (0 <= a2j s gc j) by (unfold a2j, coord_area2_j; destruct s; try lra; apply Rabs_pos). apply Rgt_not_eq. apply Rplus_le_lt_0_compat; [|exact Ht]. repeat apply Rmult_le_pos; lra. }
  assert (PA3 : forall k, at_ (GetFace3Area s gc) (k, cj, ci) <> 0).
  { intros k. cbn [at_]. rewrite (area3_sep s gc k cj ci). pose proof (a3i_pos s gc ck cj ci Ac Pc). pose proof (P2 s gc ck cj ci Pc). rewrite (dj_U gc cj Ac). apply Rgt_not_eq. repeat apply Rmult_lt_0_compat; lra. }
  apply all_steps; try assumption.
  - intros k j i Hin. pose proof (Pf k j i Hin) as Pp. unfold cells, combine3 in Hin. apply in_flat_map in Hin. destruct Hin as (k0 & Hk0 & Hin). apply in_flat_map in Hin. destruct Hin as (j0 & Hj0 & Hin). apply in_map_iff in Hin. destruct Hin as (i0 & Heq & Hi0). inversion Heq; subst k0 j0 i0; clear Heq.
    cbn [geometry A1 A2 A3 fst snd]. split; [|split].
    + pose proof (Pf k j (is_ d + 2 * (ci - cis c))%Z ltac:(apply in_combine3; [exact Hk0|exact Hj0|left; reflexivity])) as Pm. rewrite (area1_sep s gf k j _). pose proof (vj_pos s gf _ _ _ Af Pm). pose proof (vk_pos s gf _ _ _ Af Pm).
      destruct Pm as (Q1 & _ & _ & Q2 & _). apply Rgt_not_eq. repeat apply Rmult_lt_0_compat; try assumption. unfold a1i, coord_area1_i. destruct s; cbn [radius_ok] in Q2; [lra|lra|nra].
    + intro D2. pose proof (Pf k (js d + 2 * (cj - cjs c))%Z i ltac:(apply in_combine3; [exact Hk0|unfold duo; rewrite (ltb1 _ D2); left; reflexivity|exact Hi0])) as Pm. rewrite (area2_sep s gf k _ i). pose proof (a2i_pos s gf _ _ _ Af Pm). pose proof (vk_pos s gf _ _ _ Af Pm).
      pose proof (Pf k (js d + 2 * (cj - cjs c) + 1)%Z i ltac:(apply in_combine3; [exact Hk0|unfold duo; rewrite (ltb1 _ D2); right; left; reflexivity|exact Hi0])) as Pn.
      apply Rgt_not_eq. repeat apply Rmult_lt_0_compat; try assumption. unfold a2j. destruct s; try lra. destruct Pm as (_ & Q1 & _ & _ & Q2). destruct Pn as (_ & Q3 & _ & _ & Q4). cbn [angle_ok] in Q2, Q4. rewrite area2_j_val by lra. apply sin_gt_0; lra.
    + intros _. rewrite (area3_sep s gf _ j i). pose proof (a3i_pos s gf _ _ _ Af Pp). pose proof (P2 s gf _ _ _ Pp). rewrite (dj_U gf j Af). apply Rgt_not_eq. repeat apply Rmult_lt_0_compat; lra.
  - split; intros H; cbn [geometry A2 A3].
    + intros k i. unfold GetFace2Area. destruct s; try reflexivity. unfold coord_area2_j. rewrite (Sy H eq_refl), sin_PI_x. reflexivity.
    + intros j i. unfold GetFace3Area. destruct s; reflexivity.
  - intros i E. left. split; [cbn [snd]; unfold in_box in B; lia|]. cbn [geometry A1]. split.
    + unfold ok1. destruct (area_weighted fl d) eqn:AW; [apply PA1; [unfold area_weighted in AW; apply andb_prop in AW; apply AW|exact E]|].
      exists (a1i s gf), (vj s gf), (dx3f gf). split; [apply area1_sep|]. cbn [centres1 p2 p3 fst snd]. split; intro H; [apply (cen_x2s1 s d c gf gc ck cj ci Af Ac Rf H S2_)|apply (cen_x3v s d c gf gc ck cj ci Af Ac Rf H)].
    + destruct E as [-> | ->]; [apply (faces1_sum s d c gf gc ck cj ci Af Ac Rf S2_)|apply faces1_next; assumption].
  - intros D2 j E. left. split; [cbn [fst snd]; unfold in_box in B; rewrite (ltb1 _ D2) in B; lia|]. cbn [geometry A2]. split.
    + unfold ok2. destruct (area_weighted fl d); [apply PA2; exact E|]. exists (a2i s gf), (a2j s gf), (dx3f gf). split; [apply area2_sep|]. cbn [centres2 p1 p3 fst snd]. split; [apply (cen_x1s2 s d c gf gc ck cj ci Af Ac Rf S1_)|intro H; apply (cen_x3v s d c gf gc ck cj ci Af Ac Rf H)].
    + destruct E as [-> | ->]; [apply (faces2_sum s d c gf gc ck cj ci Af Ac Rf D2)|apply faces2_next; assumption].
  - intros D3 k E. left. split; [cbn [fst snd]; unfold in_box in B; rewrite (ltb1 _ D3) in B; lia|]. cbn [geometry A3]. split.
    + unfold ok3. destruct (area_weighted fl d); [apply PA3|]. exists (a3i s gf), (dx2f gf), (fun _ => 1). split; [apply area3_sep|]. cbn [centres3 p1 p2 fst snd]. split; [apply (cen_x1s3 s d c gf gc ck cj ci Af Ac Rf S1_)|intro H; apply (cen_x2s3 s d c gf gc ck cj ci Af Ac Rf H)].
    + destruct E as [-> | ->]; [apply (faces3_sum s d c gf gc ck cj ci Af Ac Rf)|apply faces3_next; assumption].
Qed.
