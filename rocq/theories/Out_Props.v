(** C84: outputs report what is in the mesh. *)
From Coq Require Import Reals ZArith List Bool Lra Lia.
Import ListNotations.
From Verif Require Import Fv_Model Pos_Model Met_Model Src_Model Tor_Spec Res_Spec Out_Model Out_Spec Out_Proofs Out_Proofs2 Out_Proofs3.
Local Open Scope R_scope.

(** A block takes part in an output with slices exactly if it holds the positions of all slices. *)
Theorem C84_selects : forall b q o, fst (TransformOutputData b q o) = true <-> within_block b q.
Proof. exact transform_flag. Qed.
Print Assumptions C84_selects.
(** What it writes then: along a sliced direction the cell that holds the position, along a summed direction the sum over the range of the data, along the others the data; the range shrinks to one cell in sliced and summed directions. *)
Theorem C84_transform : forall b q o, sound b -> covers b o -> no_conflict q -> within_block b q -> let o' := snd (TransformOutputData b q o) in let d := o_dims b in
  exists c1 c2 c3, located (f1 b) (is_ d) (ie d) (slice1 q) c1 /\ located (f2 b) (js d) (je d) (slice2 q) c2 /\ located (f3 b) (ks d) (ke d) (slice3 q) c3 /\
  (out_is o', out_ie o') = range_of (slice1 q) (sum1 q) (out_is o) (out_ie o) /\ (out_js o', out_je o') = range_of (slice2 q) (sum2 q) (out_js o) (out_je o) /\ (out_ks o', out_ke o') = range_of (slice3 q) (sum3 q) (out_ks o) (out_ke o) /\
  Forall2 (fun a a' => forall k j i, (out_ks o' <= k <= out_ke o')%Z -> (out_js o' <= j <= out_je o')%Z -> (out_is o' <= i <= out_ie o')%Z ->
    a' k j i = along c1 (sum1 q) (out_is o) (out_ie o) i (fun i => along c2 (sum2 q) (out_js o) (out_je o) j (fun j => along c3 (sum3 q) (out_ks o) (out_ke o) k (fun k => a k j i)))) (nodes o) (nodes o').
Proof. exact transform_values. Qed.
Print Assumptions C84_transform.
(** There is one such cell. *)
Theorem C84_cell_unique : forall xf lo hi xmin xmax s, axis xf lo hi xmin xmax -> xmin <= s < xmax -> exists! c, holds xf lo hi s c.
Proof. intros xf lo hi m M s A S. exists (slice_index xf s lo hi). split; [eapply slice_holds; eauto|]. intros c H. eapply holds_unique; [eauto|eapply slice_holds; eauto|auto]. Qed.
Print Assumptions C84_cell_unique.
(** Of blocks that follow one another along a direction, exactly one takes part in a slice across it. *)
Theorem C84_one_block : forall (X : nat -> R) n (blocks : nat -> oblock) s o, (forall b, (b < n)%nat -> X b < X (S b)) -> (forall b, (b < n)%nat -> x1min (blocks b) = X b /\ x1max (blocks b) = X (S b)) -> X 0%nat <= s < X n ->
  exists! b, (b < n)%nat /\ fst (TransformOutputData (blocks b) (mkRq (Some s) None None false false false) o) = true.
Proof.
  intros X n bl s o I E H. destruct (one_block X n s I H) as (b & L & C & U). exists b. split.
  - split; [auto|]. apply transform_flag. destruct (E b L) as (E1 & E2). split; [|split]; intros s' Q; try discriminate Q. injection Q as <-. rewrite E1, E2. auto.
  - intros b' (L' & T). apply transform_flag in T. destruct T as (T & _). symmetry. apply U; auto. destruct (E b' L') as (E1 & E2). rewrite <- E1, <- E2. apply T. reflexivity.
Qed.
Print Assumptions C84_one_block.
(** Sums keep totals. *)
Theorem C84_sums : forall b q o, slice1 q = None -> slice2 q = None -> slice3 q = None -> let o' := snd (TransformOutputData b q o) in
  Forall2 (fun a a' => zsum (out_ks o') (out_ke o') (fun k => zsum (out_js o') (out_je o') (fun j => zsum (out_is o') (out_ie o') (fun i => a' k j i)))
    = zsum (out_ks o) (out_ke o) (fun k => zsum (out_js o) (out_je o) (fun j => zsum (out_is o) (out_ie o) (fun i => a k j i)))) (nodes o) (nodes o').
Proof. exact sums_total. Qed.
Print Assumptions C84_sums.
(** What the constructor lets through: slices inside the mesh, and no direction both sliced and summed. *)
Theorem C84_requests : forall m1 M1 m2 M2 m3 M3 q, request_ok m1 M1 m2 M2 m3 M3 q = true <->
  no_conflict q /\ (forall s, slice1 q = Some s -> m1 <= s < M1) /\ (forall s, slice2 q = Some s -> m2 <= s < M2) /\ (forall s, slice3 q = Some s -> m3 <= s < M3).
Proof.
  intros. unfold request_ok, no_conflict. rewrite !andb_true_iff, !negb_true_iff.
  assert (G : forall lo hi (s : option R) (t : bool), (match s with Some x => leb lo x && ltb x hi | None => true end = true /\ match s with Some _ => t | None => false end = false) <-> ((s = None \/ t = false) /\ forall x, s = Some x -> lo <= x < hi)).
  { intros lo hi [s|] t; [|split; [intros _; split; [auto|discriminate]|auto]]. rewrite andb_true_iff, leb_iff, ltb_iff. split.
    - intros (A & B). split; [auto|]. intros x Q. injection Q as <-. auto.
    - intros ([N|N] & B); [discriminate N|]. split; [apply B; auto|auto]. }
  pose proof (G m1 M1 (slice1 q) (sum1 q)). pose proof (G m2 M2 (slice2 q) (sum2 q)). pose proof (G m3 M3 (slice3 q) (sum3 q)). tauto.
Qed.
Print Assumptions C84_requests.

(** Cartesian components: lengths and angles stay, and the unit vectors point along the coordinate lines. *)
Theorem C84_lengths : forall s flat th ph v w v' w', CalculateCartesianVector s flat th ph v = Some v' -> CalculateCartesianVector s flat th ph w = Some w' -> inner v' w' = inner v w.
Proof. exact cartesian_inner. Qed.
Print Assumptions C84_lengths.
Theorem C84_spherical_directions : forall r th ph e1 e2 e3,
  CalculateCartesianVector spherical_polar false th ph (1, 0, 0) = Some e1 -> CalculateCartesianVector spherical_polar false th ph (0, 1, 0) = Some e2 -> CalculateCartesianVector spherical_polar false th ph (0, 0, 1) = Some e3 ->
  moves (fun r => spherical_position r th ph) r e1 /\ moves (fun th => spherical_position r th ph) th (times r e2) /\ moves (fun ph => spherical_position r th ph) ph (times (r * sin th) e3).
Proof. exact spherical_axes. Qed.
Print Assumptions C84_spherical_directions.
Theorem C84_cylindrical_directions : forall r ph z flat x3 e1 e2 e3,
  CalculateCartesianVector cylindrical flat ph x3 (1, 0, 0) = Some e1 -> CalculateCartesianVector cylindrical flat ph x3 (0, 1, 0) = Some e2 -> CalculateCartesianVector cylindrical flat ph x3 (0, 0, 1) = Some e3 ->
  moves (fun r => cylindrical_position r ph z) r e1 /\ moves (fun ph => cylindrical_position r ph z) ph (times r e2) /\ moves (fun z => cylindrical_position r ph z) z e3.
Proof. exact cylindrical_axes. Qed.
Print Assumptions C84_cylindrical_directions.
(** Without a third dimension the meridional plane is taken to be x-z. *)
Theorem C84_meridional : forall th ph v, CalculateCartesianVector spherical_polar true th ph v = CalculateCartesianVector spherical_polar false th 0 v.
Proof. exact meridional. Qed.
Print Assumptions C84_meridional.
(** The conversion is linear: it is given by its action on the three unit vectors. *)
Theorem C84_linear : forall s flat th ph a b c v e1 e2 e3, CalculateCartesianVector s flat th ph (1, 0, 0) = Some e1 -> CalculateCartesianVector s flat th ph (0, 1, 0) = Some e2 -> CalculateCartesianVector s flat th ph (0, 0, 1) = Some e3 ->
  CalculateCartesianVector s flat th ph (a, b, c) = Some v -> v = (a * X e1 + b * X e2 + c * X e3, a * Y e1 + b * Y e2 + c * Y e3, a * Z_ e1 + b * Z_ e2 + c * Z_ e3).
Proof.
  intros s flat th ph a b c v e1 e2 e3. unfold CalculateCartesianVector. destruct s; [discriminate| |destruct flat]; intros E1 E2 E3 E; injection E1 as <-; injection E2 as <-; injection E3 as <-; injection E as <-; unfold X, Y, Z_; cbn [fst snd]; f_equal; [f_equal| |f_equal| |f_equal|]; ring.
Qed.
Print Assumptions C84_linear.

(** Conversion out of the system of orbital advection: the same gas, faster by the orbital velocity, with the same internal (and magnetic) energy. *)
Theorem C84_orbital_system : forall nb dir2 vK u, c_d u <> 0 -> let u' := convert_cons nb dir2 vK u in
  c_d u' = c_d u /\ c_1 u' = c_1 u /\ c_2 u' / c_d u = c_2 u / c_d u + (if dir2 then 0 else vK) /\ c_3 u' / c_d u = c_3 u / c_d u + (if dir2 then vK else 0) /\
  (nb = true -> c_e u' - kinetic u' = c_e u - kinetic u).
Proof. exact convert_gas. Qed.
Print Assumptions C84_orbital_system.
(** After the flag has been reset, whatever conversions have been asked for, in any order and number, are those of the present data. *)
Theorem C84_converted : forall nb dir2 vKc w u o flags, (forall f, In f flags -> f = 1 \/ f = 2 \/ f = 3)%Z ->
  let o' := fold_left (fun o f => ConvertOrbitalSystem nb dir2 vKc w u f o) flags (ResetOrbitalSystemConversionFlag o) in
  ((exists f, In f flags /\ f <> 2%Z) -> forall k j i, w_orb o' k j i = convert_prim dir2 (vK_at dir2 vKc k j i) (w k j i)) /\
  ((exists f, In f flags /\ f <> 1%Z) -> forall k j i, u_orb o' k j i = convert_cons nb dir2 (vK_at dir2 vKc k j i) (u k j i)).
Proof. exact convert_all. Qed.
Print Assumptions C84_converted.
(** ... with the orbital velocity of the very cell that is written, for any velocity that is the same all along an orbit. *)
Theorem C84_converted_velocity : forall nb (dir2 : bool) V x1v x2v x3v w u o flags, (forall f, In f flags -> f = 1 \/ f = 2 \/ f = 3)%Z -> (forall x y z t, V x y z = if dir2 then V x y t else V x t z) ->
  let o' := fold_left (fun o f => ConvertOrbitalSystem nb dir2 (SetVKc dir2 V x1v x2v x3v) w u f o) flags (ResetOrbitalSystemConversionFlag o) in
  ((exists f, In f flags /\ f <> 2%Z) -> forall k j i, w_orb o' k j i = convert_prim dir2 (V (x1v i) (x2v j) (x3v k)) (w k j i)) /\
  ((exists f, In f flags /\ f <> 1%Z) -> forall k j i, u_orb o' k j i = convert_cons nb dir2 (V (x1v i) (x2v j) (x3v k)) (u k j i)).
Proof.
  intros nb dir2 V x1v x2v x3v w u o flags H I o'. destruct (convert_all nb dir2 (SetVKc dir2 V x1v x2v x3v) w u o flags H) as (A & B).
  assert (E : forall k j i, vK_at dir2 (SetVKc dir2 V x1v x2v x3v) k j i = V (x1v i) (x2v j) (x3v k)) by (intros; rewrite (I _ _ _ 0); unfold vK_at, SetVKc; destruct dir2; reflexivity).
  split; intros F k j i; [unfold o'; rewrite (A F)|unfold o'; rewrite (B F)]; rewrite E; reflexivity.
Qed.
Print Assumptions C84_converted_velocity.

(** History files: every built-in column holds the integral over the mesh of what its label says, however the blocks are spread over the ranks. *)
Theorem C84_history : forall M c nuser op en ranks p l, tidy c -> nth_error (header c nuser) p = Some l -> (forall n, l <> LUser n) -> column M c nuser op en ranks p = Some (integral (density l) ranks).
Proof. exact history_columns. Qed.
Print Assumptions C84_history.
Theorem C84_history_user : forall M c nuser op ranks p n, tidy c -> (match rad c with Some nf => nf = 1%nat | None => True end) -> nth_error (header c nuser) p = Some (LUser n) -> values n ranks <> [] -> (forall x, In x (values n ranks) -> - M <= x <= M) ->
  exists v, column M c nuser op (fun _ => true) ranks p = Some v /\ user_value (op n) (values n ranks) v.
Proof. exact user_columns. Qed.
Print Assumptions C84_history_user.
(** A line has as many columns as the header has labels. *)
Theorem C84_history_length : forall c nuser, tidy c -> (match rad c with Some nf => nf = 1%nat | None => True end) -> length (header c nuser) = (nhistory_vars c + nuser)%nat.
Proof. intros c nuser T R. unfold header. rewrite app_length, map_length, seq_length, builtin_exact by auto. reflexivity. Qed.
Print Assumptions C84_history_length.
(** The column of a quantity that changes by fluxes between the cells of a periodic mesh does not change. *)
Theorem C84_history_conserved : forall M c nuser op en n1 n2 n3 dx dy dz dt F l b b' p, tidy c -> nth_error (header c nuser) p = Some l -> (forall n, l <> LUser n) ->
  0 < dx -> 0 < dy -> 0 < dz -> hb_dims b = whole n1 n2 n3 -> hb_dims b' = whole n1 n2 n3 -> (forall k j i, hb_vol b k j i = dx * dy * dz) -> (forall k j i, hb_vol b' k j i = dx * dy * dz) -> periodic_field n1 n2 n3 F ->
  (forall k j i, (0 <= k < Z.of_nat n3)%Z -> (0 <= j < Z.of_nat n2)%Z -> (0 <= i < Z.of_nat n1)%Z -> density l (hb_cell b' k j i) = AddFluxDivergence (whole n1 n2 n3) (cart dx dy dz) F dt (fun k j i => density l (hb_cell b k j i)) k j i) ->
  column M c nuser op en [[b']] p = column M c nuser op en [[b]] p.
Proof.
  intros M c nuser op en n1 n2 n3 dx dy dz dt F l b b' p T E N Px Py Pz D D' V V' PF U. rewrite (history_columns M c nuser op en [[b']] p l), (history_columns M c nuser op en [[b]] p l) by auto. f_equal.
  apply (conserved_integral n1 n2 n3 dx dy dz dt F); auto.
Qed.
Print Assumptions C84_history_conserved.
(** Two or three frequency groups with cosmic rays or user-defined columns: the next label stands over a column of zeros. *)
Theorem C84_history_gap_refuted : forall M c nuser op en ranks nf, chem c = None -> rad c = Some nf -> nf <> 1%nat -> (4 * nf <= 14)%nat -> (cr c = true \/ (0 < nuser)%nat) ->
  exists p, nth_error (header c nuser) p = Some (if cr c then LEc else LUser 0) /\ column M c nuser op en ranks p = Some 0.
Proof. exact history_gap. Qed.
Print Assumptions C84_history_gap_refuted.
(** Radiation of the chemistry module with cosmic rays: two quantities are added into one column. *)
Theorem C84_history_clash_refuted : forall M c nuser op en ranks nf, chem c = Some nf -> (0 < nf)%nat -> rad c = None -> cr c = true ->
  exists p, nth_error (header c nuser) p = Some (LChemRad 0) /\ column M c nuser op en ranks p = Some (integral (fun h => density (LChemRad 0) h + density LEc h) ranks).
Proof. exact history_clash. Qed.
Print Assumptions C84_history_clash_refuted.

(** ** The hypotheses can be met *)
Definition ex_oblock : oblock := mkOB (mkD 2 5 2 5 0 0 false false) (fun i => IZR i) (fun i => IZR i / 2) (fun i => IZR i) 2 6 1 3 0 1.
Definition ex_odata : odata := mkOD 2 5 2 5 0 0 [fun k j i => IZR (10 * j + i)].
Definition ex_shear : R -> R -> R -> R := fun x _ _ => - (3 / 2) * x.
Example C84_velocity_hypotheses : forall x y z t, ex_shear x y z = if (false : bool) then ex_shear x y t else ex_shear x t z.
Proof. reflexivity. Qed.
Example C84_hypotheses : sound ex_oblock /\ covers ex_oblock ex_odata /\ no_conflict (mkRq (Some 3.5) None None false true false) /\ within_block ex_oblock (mkRq (Some 3.5) None None false true false).
Proof.
  split; [|split; [|split]].
  - unfold sound, axis, ex_oblock. cbn [o_dims f1 f2 f3 x1min x1max x2min x2max x3min x3max is_ ie js je ks ke]. split; [|split]; (split; [lia|split; [intros; rewrite plus_IZR; lra|split; rewrite ?plus_IZR; lra]]).
  - unfold covers, ex_oblock, ex_odata. cbn [o_dims is_ ie js je ks ke out_is out_ie out_js out_je out_ks out_ke]. lia.
  - unfold no_conflict. cbn. auto.
  - unfold within_block. cbn [slice1 slice2 slice3 x1min x1max x2min x2max x3min x3max ex_oblock]. split; [|split]; intros s E; try discriminate E. injection E as <-. lra.
Qed.
(** The slice at x1 = 3.5 is cell 3; summed over the four cells of the second direction. *)
Example C84_slice_value : nth 0 (nodes (snd (TransformOutputData ex_oblock (mkRq (Some 3.5) None None false true false) ex_odata))) (fun _ _ _ => 0) 0%Z 0%Z 0%Z = 152.
Proof.
  destruct C84_hypotheses as (A & B & C & D). destruct (C84_transform _ _ _ A B C D) as (c1 & c2 & c3 & L1 & L2 & L3 & R1 & R2 & R3 & F). cbn [slice1 slice2 slice3 located] in L1, L2, L3. subst c2 c3. destruct L1 as (c & -> & (H1 & H2)).
  cbn [slice1 slice2 slice3 sum1 sum2 sum3 range_of ex_odata out_is out_ie out_js out_je out_ks out_ke] in R1, R2, R3. set (o' := snd _) in *. pose proof (f_equal fst R1) as E1. pose proof (f_equal snd R1) as E1'. pose proof (f_equal fst R2) as E2. pose proof (f_equal snd R2) as E2'. pose proof (f_equal fst R3) as E3. pose proof (f_equal snd R3) as E3'. cbn [fst snd] in E1, E1', E2, E2', E3, E3'. clearbody o'. rewrite E1, E1', E2, E2', E3, E3' in F.
  cbn [nodes ex_odata] in F. inversion F as [|a a' l l' H T]; subst. cbn [nth]. rewrite (H 0%Z 0%Z 0%Z) by lia. cbn [along sum1 sum2 sum3 out_is out_ie out_js out_je out_ks out_ke].
  assert (c = 3%Z) as ->. { cbn [ex_oblock f1 o_dims is_ ie] in H1, H2. assert (K : c = 2%Z \/ c = 3%Z \/ c = 4%Z \/ c = 5%Z) by lia. destruct K as [K|[K|[K|K]]]; subst c; auto; rewrite plus_IZR in H2; lra. }
  unfold zsum. change (Z.to_nat (5 - 2 + 1)) with 4%nat. cbn [Lud_Spec.total]. change (0 + IZR 23 + IZR 33 + IZR 43 + IZR 53 = 152). lra.
Qed.
Definition ex_cf : config := mkCf true true true 2 None (Some 1%nat) true.
Example C84_tidy : tidy ex_cf /\ length (header ex_cf 1) = 33%nat /\ nth_error (header ex_cf 1) 28 = Some LEc.
Proof. split; [split; [left; reflexivity|left; reflexivity]|split; reflexivity]. Qed.
Definition ex_hcell : hcell := mkHC (mkCell 1 2 3 4 5) 6 (fun _ => 7) (fun _ => 8) (fun _ => 9) (fun _ => 10) (fun _ => 11) (fun _ => 12) (fun _ => 13).
Definition ex_hblock : hblock := mkHB (mkD 0 1 0 0 0 0 false false) (fun _ _ _ => 1) (fun _ _ _ => ex_hcell) (fun _ => 14).
(** Cosmic rays in the mesh, and a zero below their label with two frequency groups; with one frequency of the chemistry module, the sum of both. *)
Example C84_gap_witness : integral (density LEc) [[ex_hblock]] = 26 /\ integral (density LEc) [[ex_hblock]] <> 0.
Proof. assert (E : integral (density LEc) [[ex_hblock]] = 26) by (change (0 + (0 + (0 + 1 * 13 + 1 * 13)) + 0 + 0 = 26); lra). split; [exact E|rewrite E; lra]. Qed.
Example C84_clash_witness : integral (fun h => density (LChemRad 0) h + density LEc h) [[ex_hblock]] <> integral (density (LChemRad 0)) [[ex_hblock]].
Proof. assert (E : integral (fun h => density (LChemRad 0) h + density LEc h) [[ex_hblock]] = 44) by (change (0 + (0 + (0 + 1 * (9 + 13) + 1 * (9 + 13))) + 0 + 0 = 44); lra). assert (E' : integral (density (LChemRad 0)) [[ex_hblock]] = 18) by (change (0 + (0 + (0 + 1 * 9 + 1 * 9)) + 0 + 0 = 18); lra). rewrite E, E'. lra. Qed.
