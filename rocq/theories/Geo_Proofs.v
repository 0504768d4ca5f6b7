(** Lemmas about face positions. *)
From Coq Require Import Reals ZArith List Bool Lra Lia.
From Verif Require Import Time_Model Time_Proofs Geo_Model Geo_Spec.
Import ListNotations.
Local Open Scope R_scope.

Definition frac (rnd : R -> R) (sym : bool) (g n : Z) : R := if sym then rnd (IZR (2 * g - n) / IZR (2 * n)) else rnd (IZR g / IZR n).
Definition pos (rnd : R -> R) (a : axis) (g n : Z) : R :=
  if Z.eqb g 0 then amin a else if Z.eqb g n then amax a else gen a (frac rnd (uniform a) g n).

Lemma gen_frac : forall rnd B g n sym, exact_integers rnd B -> (0 < n)%Z -> (2 * n <= B)%Z -> (0 <= g <= n)%Z ->
  ComputeMeshGeneratorX rnd g n sym = frac rnd sym g n.
Proof.
  intros rnd B g n sym E Hn HB Hg; unfold ComputeMeshGeneratorX, frac; destruct sym; cbn [negb].
  - assert (Q : (g - n ÷ 2 + (g - (n + 1) ÷ 2) = 2 * g - n)%Z).
    { rewrite !Z.quot_div_nonneg by lia.
      pose proof (Z.div_mod n 2 ltac:(lia)); pose proof (Z.mod_pos_bound n 2 ltac:(lia)).
      pose proof (Z.div_mod (n + 1) 2 ltac:(lia)); pose proof (Z.mod_pos_bound (n + 1) 2 ltac:(lia)). lia. }
    rewrite Q, (E (2 * g - n)%Z) by lia. rewrite (E n) by lia. rewrite <- mult_IZR, (E (2 * n)%Z) by lia. reflexivity.
  - rewrite (E g), (E n) by lia; reflexivity.
Qed.

Lemma frac_ratio : forall rnd sym g n g' n', (0 < n)%Z -> (0 < n')%Z -> (g * n' = g' * n)%Z -> frac rnd sym g n = frac rnd sym g' n'.
Proof.
  intros rnd sym g n g' n' Hn Hn' H.
  assert (n1 : IZR n <> 0) by (intro X0; apply eq_IZR in X0; lia). assert (n2 : IZR n' <> 0) by (intro X0; apply eq_IZR in X0; lia).
  apply (f_equal IZR) in H; rewrite !mult_IZR in H.
  assert (Q : IZR g / IZR n = IZR g' / IZR n').
  { unfold Rdiv. apply (Rmult_eq_reg_r (IZR n * IZR n')); [| apply Rmult_integral_contrapositive_currified; assumption]. field_simplify; try lra; assumption. }
  unfold frac; destruct sym; [| rewrite Q; reflexivity]. f_equal. rewrite !minus_IZR, !mult_IZR.
  replace ((2 * IZR g - IZR n) / (2 * IZR n)) with (IZR g / IZR n - / 2) by (field; assumption).
  replace ((2 * IZR g' - IZR n') / (2 * IZR n')) with (IZR g' / IZR n' - / 2) by (field; assumption).
  rewrite Q; reflexivity.
Qed.

Lemma pos_ratio : forall rnd a g n g' n', (0 < n)%Z -> (0 < n')%Z -> (g * n' = g' * n)%Z -> pos rnd a g n = pos rnd a g' n'.
Proof.
  intros rnd a g n g' n' Hn Hn' H; unfold pos.
  destruct (Z.eqb_spec g 0), (Z.eqb_spec g' 0); try (exfalso; nia); [reflexivity|].
  destruct (Z.eqb_spec g n), (Z.eqb_spec g' n'); try (exfalso; nia); [reflexivity|].
  f_equal; apply frac_ratio; assumption.
Qed.

Lemma pow2_pos : forall a b : Z, (a <= b)%Z -> (0 < 2 ^ (b - a))%Z.
Proof. intros; apply Z.pow_pos_nonneg; lia. Qed.

(** Block limits are positions. *)
Lemma block_limits : forall rnd B a bnx root ll lx,
  exact_integers rnd B -> divided a bnx -> is_block a root ll lx -> (2 * cells_across a root ll <= B)%Z ->
  xmin (SetBlockSizeAndBoundaries rnd a false root ll lx) = pos rnd a (lx * bnx) (cells_across a root ll) /\
  xmax (SetBlockSizeAndBoundaries rnd a false root ll lx) = pos rnd a (lx * bnx + bnx) (cells_across a root ll) /\
  f_in (SetBlockSizeAndBoundaries rnd a false root ll lx) = (if Z.eqb lx 0 then bc_in a else block) /\
  f_out (SetBlockSizeAndBoundaries rnd a false root ll lx) = (if Z.eqb lx (blocks_across a root ll - 1) then bc_out a else block).
Proof.
  intros rnd B a bnx root ll lx E (D1 & D2 & D3) (I1 & I2) HB.
  pose proof (pow2_pos root ll I1) as P2. unfold cells_across, blocks_across in *; rewrite D3 in *.
  set (p := (2 ^ (ll - root))%Z) in *.
  assert (S : Z.shiftl (anrb a) (ll - root) = (anrb a * p)%Z) by (rewrite Z.shiftl_mul_pow2 by lia; reflexivity).
  unfold SetBlockSizeAndBoundaries; cbv zeta; rewrite S.
  set (m := (anrb a * p)%Z) in *. assert (M : (anrb a * bnx * p = m * bnx)%Z) by (unfold m; ring). rewrite M in *.
  assert (m1 : (1 <= m)%Z) by (unfold m; nia).
  destruct (Z.eqb_spec lx 0) as [X|X]; destruct (Z.eqb_spec lx (m - 1)) as [Y|Y]; cbn [xmin xmax f_in f_out]; unfold pos;
    (split; [|split; [|split; reflexivity]]).
  all: repeat match goal with |- context [Z.eqb ?u ?v] => destruct (Z.eqb_spec u v); try (exfalso; nia) end; try reflexivity.
  all: f_equal; rewrite (gen_frac rnd B) by (try assumption; try lia; nia); apply frac_ratio; nia.
Qed.

Lemma shift1 : forall a root ll, (root <= ll)%Z -> (anx a * Z.shiftl 1 (ll - root) = cells_across a root ll)%Z.
Proof. intros; unfold cells_across; rewrite Z.shiftl_mul_pow2 by lia; rewrite Z.mul_1_l; reflexivity. Qed.

Definition ok (bnx : Z) (coarse : bool) : Prop := coarse = true -> Z.Even bnx.
Lemma span_global : forall bnx coarse lx il, ok bnx coarse -> global coarse lx bnx il (last coarse bnx il + 1) = (lx * bnx + bnx)%Z.
Proof.
  intros bnx [|] lx il O; unfold global, last; [|lia]. destruct (O eq_refl) as [k ->]. rewrite (Z.mul_comm 2 k), Z.div_mul by lia. lia.
Qed.

Lemma face0_pos : forall rnd B a bnx root ll lx coarse il i,
  exact_integers rnd B -> divided a bnx -> is_block a root ll lx -> (2 * cells_across a root ll <= B)%Z -> ok bnx coarse ->
  interior_face a root ll lx bnx coarse il i ->
  face0 rnd a root ll lx bnx coarse il (last coarse bnx il) i = pos rnd a (global coarse lx bnx il i) (cells_across a root ll).
Proof.
  intros rnd B a bnx root ll lx coarse il i E D I HB O IF.
  destruct (block_limits rnd B a bnx root ll lx E D I HB) as (L1 & L2 & _).
  unfold face0; cbv zeta. rewrite L1, L2, shift1 by (destruct I; lia).
  destruct (Z.eqb_spec i (last coarse bnx il + 1)) as [->|n1]; [rewrite span_global by assumption; reflexivity|].
  destruct (Z.eqb_spec i il) as [->|n2].
  { f_equal; unfold global; rewrite Z.sub_diag, Z.mul_0_r, Z.add_0_r; reflexivity. }
  assert (G : (if coarse then ((i - il) * 2 + lx * bnx)%Z else (i - il + lx * bnx)%Z) = global coarse lx bnx il i) by (unfold global; destruct coarse; ring).
  rewrite G.
  assert (R : (0 < global coarse lx bnx il i < cells_across a root ll)%Z).
  { destruct IF as [H|H]; [|exact H]. pose proof (span_global bnx coarse lx il O) as SG.
    destruct D as (D1 & D2 & D3), I as (I1 & I2). unfold blocks_across in I2. unfold cells_across; rewrite D3.
    assert ((lx + 1) * bnx <= anrb a * bnx * 2 ^ (ll - root))%Z by nia.
    unfold global in *; destruct coarse; nia. }
  unfold pos. destruct (Z.eqb_spec (global coarse lx bnx il i) 0); [lia|]. destruct (Z.eqb_spec (global coarse lx bnx il i) (cells_across a root ll)); [lia|].
  f_equal. apply (gen_frac rnd B); try assumption; lia.
Qed.

Lemma face_face0 : forall rnd B a bnx x2dir root ll lx coarse il ng i,
  exact_integers rnd B -> divided a bnx -> is_block a root ll lx -> (2 * cells_across a root ll <= B)%Z -> ok bnx coarse ->
  interior_face a root ll lx bnx coarse il i ->
  face rnd a x2dir root ll lx bnx coarse il (last coarse bnx il) ng i = face0 rnd a root ll lx bnx coarse il (last coarse bnx il) i.
Proof.
  intros rnd B a bnx x2dir root ll lx coarse il ng i E D I HB O IF.
  destruct (block_limits rnd B a bnx root ll lx E D I HB) as (_ & _ & L3 & L4).
  pose proof (span_global bnx coarse lx il O) as SG.
  destruct D as (D1 & D2 & D3), I as (I1 & I2). unfold blocks_across in *.
  assert (N : (cells_across a root ll = anrb a * 2 ^ (ll - root) * bnx)%Z) by (unfold cells_across; rewrite D3; ring).
  unfold face; cbv zeta; rewrite L3, L4.
  destruct (Z.ltb_spec i il) as [H1|H1].
  - destruct (Z.eqb_spec lx 0) as [->|X].
    + exfalso. destruct IF as [H|H]; [lia|]. unfold global in H; destruct coarse; nia.
    + cbn [mirrored andb]. destruct (Z.ltb_spec (last coarse bnx il + 1) i) as [H2|H2]; [exfalso; unfold last in H2; destruct coarse; [pose proof (Z.div_pos bnx 2); lia|lia]|].
      rewrite Bool.andb_false_r; reflexivity.
  - rewrite Bool.andb_false_r. destruct (Z.ltb_spec (last coarse bnx il + 1) i) as [H2|H2]; [|rewrite Bool.andb_false_r; reflexivity].
    destruct (Z.eqb_spec lx (anrb a * 2 ^ (ll - root) - 1)) as [->|X]; [|reflexivity].
    exfalso. destruct IF as [H|H]; [lia|]. unfold global in H, SG; destruct coarse; nia.
Qed.

Lemma face_pos : forall rnd B a bnx x2dir root ll lx coarse il ng i,
  exact_integers rnd B -> divided a bnx -> is_block a root ll lx -> (2 * cells_across a root ll <= B)%Z -> ok bnx coarse ->
  interior_face a root ll lx bnx coarse il i ->
  face rnd a x2dir root ll lx bnx coarse il (last coarse bnx il) ng i = pos rnd a (global coarse lx bnx il i) (cells_across a root ll).
Proof. intros; erewrite face_face0, face0_pos by eassumption; reflexivity. Qed.

(** ** Exact arithmetic *)
Lemma exact_all : forall B, exact_integers exact B.
Proof. intros B z _; reflexivity. Qed.

Lemma frac_bounds : forall (sym : bool) g n, (0 < n)%Z -> (0 <= g <= n)%Z ->
  (if sym then -1/2 else 0) <= frac exact sym g n <= (if sym then 1/2 else 1).
Proof.
  intros sym g n Hn [H1 H2]. unfold frac, exact.
  assert (N : 0 < IZR n) by (apply IZR_lt; lia). apply IZR_le in H1; apply IZR_le in H2.
  assert (Q : 0 <= IZR g / IZR n <= 1).
  { split; [apply Rmult_le_pos; [assumption|left; apply Rinv_0_lt_compat; assumption]|]. apply (Rmult_le_reg_r (IZR n)); [assumption|]. unfold Rdiv; rewrite Rmult_assoc, Rinv_l by lra. lra. }
  destruct sym; [|exact Q]. rewrite minus_IZR, !mult_IZR. replace ((2 * IZR g - IZR n) / (2 * IZR n)) with (IZR g / IZR n - / 2) by (field; lra). lra.
Qed.

Lemma frac_lt : forall sym g g' n, (0 < n)%Z -> (g < g')%Z -> frac exact sym g n < frac exact sym g' n.
Proof.
  intros sym g g' n Hn H. unfold frac, exact. assert (N : 0 < IZR n) by (apply IZR_lt; lia). apply IZR_lt in H.
  assert (Q : IZR g / IZR n < IZR g' / IZR n) by (unfold Rdiv; apply Rmult_lt_compat_r; [apply Rinv_0_lt_compat; assumption|assumption]).
  destruct sym; [|exact Q]. rewrite !minus_IZR, !mult_IZR.
  replace ((2 * IZR g - IZR n) / (2 * IZR n)) with (IZR g / IZR n - / 2) by (field; lra). replace ((2 * IZR g' - IZR n) / (2 * IZR n)) with (IZR g' / IZR n - / 2) by (field; lra). lra.
Qed.

Lemma frac_0 : forall sym n, (0 < n)%Z -> frac exact sym 0 n = if sym then -1/2 else 0.
Proof. intros sym n Hn. assert (N : IZR n <> 0) by (intro X0; apply eq_IZR in X0; lia). unfold frac, exact; destruct sym; [rewrite minus_IZR, !mult_IZR|]; field; assumption. Qed.
Lemma frac_n : forall sym n, (0 < n)%Z -> frac exact sym n n = if sym then 1/2 else 1.
Proof. intros sym n Hn. assert (N : IZR n <> 0) by (intro X0; apply eq_IZR in X0; lia). unfold frac, exact; destruct sym; [rewrite minus_IZR, !mult_IZR|]; field; assumption. Qed.

Lemma pos_exact : forall a g n, onto a -> (0 < n)%Z -> pos exact a g n = gen a (frac exact (uniform a) g n).
Proof.
  intros a g n (O1 & O2) Hn; unfold pos. unfold lo in O1; unfold hi in O2.
  destruct (Z.eqb_spec g 0) as [->|]; [rewrite frac_0 by assumption; symmetry; exact O1|].
  destruct (Z.eqb_spec g n) as [->|]; [rewrite frac_n by assumption; symmetry; exact O2|reflexivity].
Qed.

Lemma pos_lt : forall a g g' n, onto a -> increasing a -> (0 < n)%Z -> (0 <= g)%Z -> (g < g')%Z -> (g' <= n)%Z -> pos exact a g n < pos exact a g' n.
Proof.
  intros a g g' n O I Hn H1 H2 H3. rewrite !pos_exact by assumption.
  apply I; [|apply frac_lt; assumption|]; unfold lo, hi.
  - apply (frac_bounds (uniform a) g n Hn); lia.
  - apply (frac_bounds (uniform a) g' n Hn); lia.
Qed.

(** The generators of the code. *)
Lemma uniform_onto : forall xmin xmax, UniformMeshGenerator xmin xmax (-1/2) = xmin /\ UniformMeshGenerator xmin xmax (1/2) = xmax.
Proof. intros; unfold UniformMeshGenerator; split; lra. Qed.
Lemma uniform_incr : forall xmin xmax x y, xmin < xmax -> x < y -> UniformMeshGenerator xmin xmax x < UniformMeshGenerator xmin xmax y.
Proof. intros; unfold UniformMeshGenerator; nra. Qed.

Lemma Rpower_1_lt : forall r y, 0 < r -> r <> 1 -> 0 < y -> (1 < r -> 1 < Rpower r y) /\ (r < 1 -> 0 < Rpower r y < 1).
Proof.
  intros r y H0 H1 H2; unfold Rpower; split; intro H.
  - rewrite <- exp_0. apply exp_increasing. assert (0 < ln r) by (rewrite <- ln_1; apply ln_increasing; lra). nra.
  - split; [apply exp_pos|]. rewrite <- exp_0. apply exp_increasing. assert (ln r < 0) by (rewrite <- ln_1; apply ln_increasing; lra). nra.
Qed.
Lemma eqR_false_ne : forall a b, eqR a b = false -> a <> b.
Proof. intros a b H E; unfold eqR in H. destruct (Req_EM_T a b); [discriminate H|contradiction]. Qed.
Lemma eqR_true_eq : forall a b, eqR a b = true -> a = b.
Proof. intros a b H; unfold eqR in H. destruct (Req_EM_T a b); [assumption|discriminate H]. Qed.

Lemma default_form : forall xmin xmax rat nx x, 0 < rat -> (1 <= nx)%Z ->
  (rat = 1 /\ DefaultMeshGenerator xmin xmax rat nx x = xmin + (xmax - xmin) * x) \/
  (rat <> 1 /\ 1 - Rpower rat (IZR nx) <> 0 /\ DefaultMeshGenerator xmin xmax rat nx x = xmin + (xmax - xmin) * ((1 - Rpower rat (x * IZR nx)) / (1 - Rpower rat (IZR nx)))).
Proof.
  intros xmin xmax rat nx x Hr Hn; unfold DefaultMeshGenerator. destruct (eqR rat 1) eqn:E.
  - left; apply eqR_true_eq in E; split; [exact E|ring].
  - right; apply eqR_false_ne in E. assert (N : 0 < IZR nx) by (apply IZR_lt; lia).
    destruct (Rpower_1_lt rat (IZR nx) Hr E N) as (P1 & P2).
    assert (D : 1 - Rpower rat (IZR nx) <> 0) by (intro X0; destruct (Rtotal_order rat 1) as [H|[H|H]]; [specialize (P2 H); lra|contradiction|specialize (P1 H); lra]).
    split; [exact E|split; [exact D|]]. set (q := Rpower rat (IZR nx)) in *; clearbody q. set (p := Rpower rat (x * IZR nx)); clearbody p. field. exact D.
Qed.

Lemma default_onto : forall xmin xmax rat nx, 0 < rat -> (1 <= nx)%Z ->
  DefaultMeshGenerator xmin xmax rat nx 0 = xmin /\ DefaultMeshGenerator xmin xmax rat nx 1 = xmax.
Proof.
  intros xmin xmax rat nx Hr Hn; split.
  - destruct (default_form xmin xmax rat nx 0 Hr Hn) as [(_ & ->)|(_ & D & ->)]; [ring|]. rewrite Rmult_0_l, Rpower_O by assumption. field; assumption.
  - destruct (default_form xmin xmax rat nx 1 Hr Hn) as [(_ & ->)|(_ & D & ->)]; [ring|]. rewrite Rmult_1_l. field; assumption.
Qed.
Lemma default_incr : forall xmin xmax rat nx x y, xmin < xmax -> 0 < rat -> (1 <= nx)%Z -> x < y ->
  DefaultMeshGenerator xmin xmax rat nx x < DefaultMeshGenerator xmin xmax rat nx y.
Proof.
  intros xmin xmax rat nx x y Hm Hr Hn Hxy.
  assert (N : 0 < IZR nx) by (apply IZR_lt; lia).
  destruct (default_form xmin xmax rat nx x Hr Hn) as [(E & ->)|(E & D & ->)]; destruct (default_form xmin xmax rat nx y Hr Hn) as [(E' & ->)|(E' & D' & ->)]; try contradiction; [nra|].
  apply Rplus_lt_compat_l, Rmult_lt_compat_l; [lra|].
  assert (M : Rpower rat (y * IZR nx) = Rpower rat (x * IZR nx) * Rpower rat ((y - x) * IZR nx)) by (rewrite <- Rpower_plus; f_equal; ring).
  assert (Q : 0 < (y - x) * IZR nx) by nra. assert (P : 0 < Rpower rat (x * IZR nx)) by (unfold Rpower; apply exp_pos).
  destruct (Rpower_1_lt rat _ Hr E Q) as (P1 & P2). destruct (Rpower_1_lt rat _ Hr E N) as (P3 & P4). rewrite M.
  destruct (Rtotal_order rat 1) as [H|[H|H]]; [|contradiction|].
  - specialize (P2 H); specialize (P4 H). unfold Rdiv; apply Rmult_lt_compat_r; [apply Rinv_0_lt_compat; lra|nra].
  - specialize (P1 H); specialize (P3 H). unfold Rdiv. 
    assert (I : / (1 - Rpower rat (IZR nx)) < 0) by (apply Rinv_lt_0_compat; lra).
    rewrite !(Rmult_comm _ (/ _)). apply Rmult_lt_gt_compat_neg_l; [exact I|nra].
Qed.

(** Widths are differences of faces. *)
Lemma face0_exact : forall a bnx root ll lx coarse il i,
  onto a -> divided a bnx -> is_block a root ll lx -> ok bnx coarse ->
  face0 exact a root ll lx bnx coarse il (last coarse bnx il) i =
    gen a (if uniform a then IZR (2 * global coarse lx bnx il i - cells_across a root ll) / IZR (2 * cells_across a root ll) else IZR (global coarse lx bnx il i) / IZR (cells_across a root ll)).
Proof.
  intros a bnx root ll lx coarse il i On D I O.
  destruct (block_limits exact (2 * cells_across a root ll) a bnx root ll lx (exact_all _) D I ltac:(lia)) as (L1 & L2 & _).
  assert (C : (0 < cells_across a root ll)%Z) by (destruct D as (? & ? & D3), I as (I1 & _); pose proof (pow2_pos root ll I1); unfold cells_across; rewrite D3; nia).
  unfold face0; cbv zeta. rewrite L1, L2, shift1 by (destruct I; lia). rewrite !pos_exact by assumption. unfold frac.
  destruct (Z.eqb_spec i (last coarse bnx il + 1)) as [->|n1]; [rewrite span_global by assumption; unfold exact; destruct (uniform a); reflexivity|].
  destruct (Z.eqb_spec i il) as [->|n2].
  { unfold exact, global. rewrite Z.sub_diag, Z.mul_0_r, Z.add_0_r. destruct (uniform a); reflexivity. }
  assert (G : (if coarse then ((i - il) * 2 + lx * bnx)%Z else (i - il + lx * bnx)%Z) = global coarse lx bnx il i) by (unfold global; destruct coarse; ring).
  rewrite G. f_equal. unfold ComputeMeshGeneratorX, exact. set (g := global coarse lx bnx il i); set (n := cells_across a root ll) in *. destruct (uniform a); cbn [negb]; [|reflexivity].
  assert (Q : (g - n ÷ 2 + (g - (n + 1) ÷ 2) = 2 * g - n)%Z).
  { rewrite !Z.quot_div_nonneg by lia.
    pose proof (Z.div_mod n 2 ltac:(lia)); pose proof (Z.mod_pos_bound n 2 ltac:(lia)).
    pose proof (Z.div_mod (n + 1) 2 ltac:(lia)); pose proof (Z.mod_pos_bound (n + 1) 2 ltac:(lia)). lia. }
  rewrite Q, (mult_IZR 2 n). reflexivity.
Qed.

Lemma width0_exact : forall a bnx root ll lx coarse il i,
  onto a -> consistent a -> divided a bnx -> is_block a root ll lx -> ok bnx coarse ->
  width0 exact a root ll lx bnx coarse il (last coarse bnx il) i =
  face0 exact a root ll lx bnx coarse il (last coarse bnx il) (i + 1) - face0 exact a root ll lx bnx coarse il (last coarse bnx il) i.
Proof.
  intros a bnx root ll lx coarse il i On Co D I O. unfold width0; cbv zeta. destruct (uniform a) eqn:U; [|reflexivity].
  destruct (block_limits exact (2 * cells_across a root ll) a bnx root ll lx (exact_all _) D I ltac:(lia)) as (L1 & L2 & _).
  assert (C : (0 < cells_across a root ll)%Z) by (destruct D as (? & ? & D3), I as (I1 & _); pose proof (pow2_pos root ll I1); unfold cells_across; rewrite D3; nia).
  rewrite !face0_exact by assumption. rewrite L1, L2, !pos_exact by assumption. rewrite (Co U), U. unfold frac, exact, UniformMeshGenerator.
  assert (N : IZR (cells_across a root ll) <> 0) by (intro X0; apply eq_IZR in X0; lia).
  destruct D as (D1 & D2 & _). assert (Nb : IZR bnx <> 0) by (intro X0; apply eq_IZR in X0; lia).
  assert (W : IZR (last coarse bnx il - il + 1) = IZR bnx / (if coarse then 2 else 1)).
  { unfold last; destruct coarse.
    - destruct (O eq_refl) as [k ->]. rewrite (Z.mul_comm 2 k), Z.div_mul by lia. replace (il + k - 1 - il + 1)%Z with k by lia. rewrite mult_IZR; field.
    - replace (il + bnx - 1 - il + 1)%Z with bnx by lia. field. }
  rewrite W. unfold global; destruct coarse; rewrite ?minus_IZR, ?mult_IZR, ?plus_IZR, ?mult_IZR, ?plus_IZR, ?minus_IZR, ?plus_IZR; field; split; assumption.
Qed.

Section Exact.
Variables (a : axis) (bnx root ll lx il ng : Z) (coarse x2dir : bool).
Hypothesis On : onto a. Hypothesis Co : consistent a. Hypothesis D : divided a bnx. Hypothesis I : is_block a root ll lx. Hypothesis O : ok bnx coarse.
Let iu := last coarse bnx il.
Let x := face0 exact a root ll lx bnx coarse il iu.
Let dx := width0 exact a root ll lx bnx coarse il iu.
Lemma dx_x : forall i, dx i = x (i + 1)%Z - x i.
Proof using All. intro i; unfold dx, x, iu; apply width0_exact; assumption. Qed.
Lemma mirror_in_sum : forall n, mirror_in exact (x il) dx il n = 2 * x il - x (il + Z.of_nat n)%Z.
Proof using All.
  induction n; cbn [mirror_in]; [rewrite Z.add_0_r; lra|]. unfold exact at 1. rewrite IHn, dx_x. replace (il + Z.of_nat (S n))%Z with (il + Z.of_nat n + 1)%Z by lia. lra.
Qed.
Lemma mirror_out_sum : forall n, mirror_out exact (x (iu + 1)%Z) dx iu n = 2 * x (iu + 1)%Z - x (iu + 1 - Z.of_nat n)%Z.
Proof using All.
  induction n; cbn [mirror_out]; [rewrite Z.sub_0_r; lra|]. unfold exact at 1. rewrite IHn, dx_x. replace (iu + 1 - Z.of_nat (S n))%Z with (iu - Z.of_nat n)%Z by lia. replace (iu - Z.of_nat n + 1)%Z with (iu + 1 - Z.of_nat n)%Z by lia. lra.
Qed.
Let F := face exact a x2dir root ll lx bnx coarse il iu ng.
Let W := width exact a x2dir root ll lx bnx coarse il iu ng.
Let e := SetBlockSizeAndBoundaries exact a false root ll lx.
Lemma iu_ge : (il - 1 <= iu)%Z.
Proof using All. unfold iu, last; destruct D as (_ & D2 & _). assert (0 <= bnx / 2)%Z by (apply Z.div_pos; lia). destruct coarse; lia. Qed.
Lemma F_in : forall k, mirrored x2dir (f_in e) = true -> (0 <= k)%Z -> F (il - k)%Z = 2 * x il - x (il + k)%Z.
Proof using All.
  intros k M Hk. unfold F, face. cbv zeta. fold e x dx. rewrite M. cbn [andb]. destruct (Z.ltb_spec (il - k) il).
  - rewrite mirror_in_sum. do 3 f_equal. lia.
  - replace k with 0%Z by lia. rewrite Z.sub_0_r, Z.add_0_r. pose proof iu_ge. destruct (Z.ltb_spec (iu + 1) il); [lia|]. rewrite Bool.andb_false_r. lra.
Qed.
Lemma F_out : forall k, mirrored x2dir (f_out e) = true -> (0 <= k)%Z -> F (iu + 1 + k)%Z = 2 * x (iu + 1)%Z - x (iu + 1 - k)%Z.
Proof using All.
  intros k M Hk. unfold F, face. cbv zeta. fold e x dx. rewrite M. cbn [andb]. pose proof iu_ge. destruct (Z.ltb_spec (iu + 1 + k) il); [lia|]. rewrite Bool.andb_false_r.
  destruct (Z.ltb_spec (iu + 1) (iu + 1 + k)).
  - rewrite mirror_out_sum. do 3 f_equal. lia.
  - replace k with 0%Z by lia. rewrite Z.sub_0_r, Z.add_0_r. lra.
Qed.
Lemma F_act : forall i, (il <= i <= iu + 1)%Z -> F i = x i.
Proof using All. 
  intros i H. unfold F, face. cbv zeta. fold x. destruct (Z.ltb_spec i il); [lia|]. destruct (Z.ltb_spec (iu + 1) i); [lia|]. rewrite !Bool.andb_false_r. reflexivity.
Qed.
Lemma W_F : forall i, W i = F (i + 1)%Z - F i.
Proof using All.
  intro i. unfold W, width. cbv zeta. fold e dx. pose proof iu_ge.
  destruct (mirrored x2dir (f_in e)) eqn:M1; destruct (Z.ltb_spec i il); cbn [andb].
  1: { replace i with (il - (il - i))%Z at 3 by lia. replace (i + 1)%Z with (il - (il - i - 1))%Z by lia. rewrite !F_in by (assumption || lia). rewrite dx_x.
       replace (2 * il - i - 1 + 1)%Z with (il + (il - i))%Z by lia. replace (2 * il - i - 1)%Z with (il + (il - i - 1))%Z by lia. lra. }
  all: destruct (mirrored x2dir (f_out e)) eqn:M2; destruct (Z.ltb_spec iu i); cbn [andb].
  1, 5, 9: try lia.
  1: { replace i with (iu + 1 + (i - iu - 1))%Z at 3 by lia. replace (i + 1)%Z with (iu + 1 + (i - iu))%Z by lia. rewrite !F_out by (assumption || lia). rewrite dx_x.
       replace (2 * iu - i + 1 + 1)%Z with (iu + 1 - (i - iu - 1))%Z by lia. replace (2 * iu - i + 1)%Z with (iu + 1 - (i - iu))%Z by lia. lra. }
  all: try lia.
  all: try (replace i with (iu + 1 + (i - iu - 1))%Z at 3 by lia; replace (i + 1)%Z with (iu + 1 + (i - iu))%Z by lia; rewrite !F_out by (assumption || lia); rewrite dx_x;
       replace (2 * iu - i + 1 + 1)%Z with (iu + 1 - (i - iu - 1))%Z by lia; replace (2 * iu - i + 1)%Z with (iu + 1 - (i - iu))%Z by lia; lra).
  all: rewrite dx_x; unfold F, face; cbv zeta; fold e x dx; rewrite M1, M2; cbn [andb];
    repeat match goal with |- context [Z.ltb ?u ?v] => destruct (Z.ltb_spec u v); try lia end; try reflexivity.
Qed.
End Exact.
