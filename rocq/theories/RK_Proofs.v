(** Proofs about the time integrators. *)
From Coq Require Import List QArith Qreals Qabs Reals Lra Lia Bool FunctionalExtensionality.
From Verif Require Import RK_Model RK_Spec.
Import ListNotations.
Local Open Scope R_scope.

(** ** WeightedAve is the weighted sum of its arguments. *)
Lemma Q2R_bool : forall a b, Qeq_bool a b = true -> Q2R a = Q2R b.
Proof. intros a b H. apply Qeq_eqR. apply Qeq_bool_iff. exact H. Qed.
Lemma Q2R0 : Q2R 0 = 0. Proof. unfold Q2R; simpl; lra. Qed.
Lemma Q2R1 : Q2R 1 = 1. Proof. unfold Q2R; simpl; lra. Qed.
Lemma Q2Rm1 : Q2R (-1) = -1. Proof. unfold Q2R; simpl; lra. Qed.

Lemma WeightedAve_sum : forall w0 w1 w2 w3 w4 o a b c d,
  WeightedAve w0 w1 w2 w3 w4 o a b c d
  = Q2R w0 * o + Q2R w1 * a + Q2R w2 * b + Q2R w3 * c + Q2R w4 * d.
Proof.
  intros. unfold WeightedAve.
  destruct (Qeq_bool w0 1) eqn:E0; [apply Q2R_bool in E0; rewrite Q2R1 in E0; rewrite E0|
    destruct (Qeq_bool w0 0) eqn:E00; [apply Q2R_bool in E00; rewrite Q2R0 in E00; rewrite E00|]];
  (destruct (Qeq_bool w4 0) eqn:E4; cbn [negb]; [apply Q2R_bool in E4; rewrite Q2R0 in E4; rewrite E4|try ring]);
  (destruct (Qeq_bool w3 0) eqn:E3; cbn [negb]; [apply Q2R_bool in E3; rewrite Q2R0 in E3; rewrite E3|try ring]);
  (destruct (Qeq_bool w2 0) eqn:E2; cbn [negb]; [apply Q2R_bool in E2; rewrite Q2R0 in E2; rewrite E2|try ring]);
  try (destruct (Qeq_bool w1 0) eqn:E1; cbn [negb]; [apply Q2R_bool in E1; rewrite Q2R0 in E1; rewrite E1|]; ring).
  destruct (Qeq_bool w1 1) eqn:E1; [apply Q2R_bool in E1; rewrite Q2R1 in E1; rewrite E1|]; ring.
Qed.

(** ** Symbolic registers: coefficient lists over (u0, dt k_1, dt k_2, ...). *)
(** Rational addition tuned for denominators that are powers of 10^15 (gcds are slow in the checker). *)
Fixpoint align (fuel : nat) (n : Z) (d target : positive) : option Z :=
  if Pos.eqb d target then Some n else
  match fuel with
  | O => None
  | S k => if Pos.ltb d target then align k (n * 1000000000000000)%Z (d * 1000000000000000)%positive target else None
  end.
Lemma align_ok : forall fuel n d target n', align fuel n d target = Some n' -> ((n' # target) == (n # d))%Q.
Proof.
  induction fuel as [|k IH]; intros n d target n' H; cbn [align] in H; destruct (Pos.eqb_spec d target) as [->|]; try discriminate;
  try (injection H as <-; reflexivity).
  destruct (Pos.ltb d target); [|discriminate]. rewrite (IH _ _ _ _ H). unfold Qeq. cbn [Qnum Qden]. lia.
Qed.
Definition qadd (x y : Q) : Q :=
  if Z.eqb (Qnum x) 0 then y else if Z.eqb (Qnum y) 0 then x else
  match align 40 (Qnum x) (Qden x) (Qden y) with
  | Some n => (n + Qnum y) # Qden y
  | None => match align 40 (Qnum y) (Qden y) (Qden x) with
            | Some n => (Qnum x + n) # Qden x
            | None => Qred (x + y) end end.
Definition qmul (x y : Q) : Q := if Z.eqb (Qnum x) 0 then 0%Q else if Z.eqb (Qnum y) 0 then 0%Q else (x * y)%Q.
Lemma num0 : forall x, Z.eqb (Qnum x) 0 = true -> (x == 0)%Q.
Proof. intros x H. apply Z.eqb_eq in H. unfold Qeq. rewrite H. reflexivity. Qed.
Lemma qadd_ok : forall x y, (qadd x y == x + y)%Q.
Proof.
  intros x y. unfold qadd. destruct (Z.eqb (Qnum x) 0) eqn:Ex; [rewrite (num0 x Ex); ring|].
  destruct (Z.eqb (Qnum y) 0) eqn:Ey; [rewrite (num0 y Ey); ring|].
  assert (HS : forall a b d, (((a + b) # d) == (a # d) + (b # d))%Q)
    by (intros; unfold Qeq, Qplus; cbn [Qnum Qden]; rewrite Pos2Z.inj_mul; ring).
  destruct (align 40 (Qnum x) (Qden x) (Qden y)) as [n|] eqn:E1.
  - rewrite HS, (align_ok _ _ _ _ _ E1). destruct x, y; reflexivity.
  - destruct (align 40 (Qnum y) (Qden y) (Qden x)) as [n|] eqn:E2.
    + rewrite HS, (align_ok _ _ _ _ _ E2). destruct x, y; reflexivity.
    + apply Qred_correct.
Qed.
Lemma qmul_ok : forall x y, (qmul x y == x * y)%Q.
Proof.
  intros x y. unfold qmul. destruct (Z.eqb (Qnum x) 0) eqn:Ex; [rewrite (num0 x Ex); ring|].
  destruct (Z.eqb (Qnum y) 0) eqn:Ey; [rewrite (num0 y Ey); ring|]. reflexivity.
Qed.

Fixpoint padd (a b : list Q) : list Q :=
  match a, b with x :: a, y :: b => qadd x y :: padd a b | [], b => b | a, [] => a end.
Definition pscale (q : Q) (a : list Q) : list Q := map (fun x => qmul q x) a.

Lemma dotR_padd : forall a b v, dotR (padd a b) v = dotR a v + dotR b v.
Proof.
  induction a as [|x a IH]; intros [|y b] v; cbn [padd]; try (destruct v; cbn [dotR]; lra).
  destruct v as [|z v]; cbn [dotR]; [lra|].
  rewrite (Qeq_eqR _ _ (qadd_ok _ _)), Q2R_plus, IH. ring.
Qed.
Lemma dotR_pscale : forall q a v, dotR (pscale q a) v = Q2R q * dotR a v.
Proof.
  induction a as [|x a IH]; intros [|z v]; cbn [pscale map dotR]; try lra.
  rewrite (Qeq_eqR _ _ (qmul_ok _ _)), Q2R_mult. unfold pscale in IH. rewrite IH. ring.
Qed.
Lemma length_padd : forall a b n, length a = n -> length b = n -> length (padd a b) = n.
Proof.
  induction a as [|x a IH]; intros [|y b] n Ha Hb; cbn in *; try lia.
  destruct n; [lia|]. f_equal. apply IH; lia.
Qed.
Lemma length_pscale : forall q a, length (pscale q a) = length a.
Proof. intros. apply map_length. Qed.
Lemma dotR_app_short : forall c v w, (length c <= length v)%nat -> dotR c (v ++ w) = dotR c v.
Proof.
  induction c as [|x c IH]; intros [|y v] w H; cbn in *; try lia; try reflexivity.
  rewrite IH by lia. reflexivity.
Qed.
Lemma dotR_snoc : forall c q v z, length c = length v -> dotR (c ++ [q]) (v ++ [z]) = dotR c v + Q2R q * z.
Proof.
  induction c as [|x c IH]; intros q [|y v] z H; cbn in *; try lia; [lra|].
  rewrite IH by lia. ring.
Qed.

Record sregs := mkS { su : list Q; su1 : list Q; su2 : list Q }.

Definition sym_main (i : integrator) (stage : nat) (w : wght) (s : sregs) : sregs :=
  let v1 := padd (su1 s) (pscale (delta w) (su s)) in
  let '(v, v1) :=
    if is_swap w then (v1, su s)
    else (padd (padd (pscale (gamma_1 w) (su s)) (pscale (gamma_2 w) v1)) (pscale (gamma_3 w) (su2 s)), v1) in
  let v2 := match i with
    | ssprk5_4 => if Nat.eqb stage 4 then pscale (-1) (su2 s) ++ [dec 63692468666290] else su2 s ++ [0%Q]
    | _ => su2 s ++ [0%Q] end in
  mkS (v ++ [Qred (beta w)]) (v1 ++ [0%Q]) v2.

Fixpoint sym_stages (i : integrator) (stage : nat) (ws : list wght) (s : sregs) : list (list Q) * sregs :=
  match ws with
  | [] => ([], s)
  | w :: ws =>
      if main_stage w then
        let '(rows, s') := sym_stages i (S stage) ws (sym_main i stage w s) in (su s :: rows, s')
      else sym_stages i (S stage) ws s
  end.

Definition basis {I} (dt : R) (u0 : I -> R) (ks : list (I -> R)) (x : I) : list R :=
  u0 x :: map (fun k => dt * k x) ks.

Lemma basis_snoc : forall I dt (u0 : I -> R) ks k x,
  basis dt u0 (ks ++ [k]) x = basis dt u0 ks x ++ [dt * k x].
Proof. intros. unfold basis. rewrite map_app. reflexivity. Qed.
Lemma basis_length : forall I dt (u0 : I -> R) ks x, length (basis dt u0 ks x) = S (length ks).
Proof. intros. cbn. rewrite map_length. reflexivity. Qed.

Definition matches {I} dt (u0 : I -> R) ks (s : sregs) (r : regs I) : Prop :=
  length (su s) = S (length ks) /\ length (su1 s) = S (length ks) /\ length (su2 s) = S (length ks) /\
  forall x, u r x = dotR (su s) (basis dt u0 ks x) /\ u1 r x = dotR (su1 s) (basis dt u0 ks x) /\
            u2 r x = dotR (su2 s) (basis dt u0 ks x).

Lemma main_matches : forall I i stage w dt (u0 : I -> R) ks s r L,
  matches dt u0 ks s r -> main_stage w = true ->
  matches dt u0 (ks ++ [L]) (sym_main i stage w s) (IntegrateHydro i stage w dt L r).
Proof.
  intros I i stage w dt u0 ks s r L (H0 & H1 & H2 & H) Hm.
  assert (Hv1 : length (padd (su1 s) (pscale (delta w) (su s))) = S (length ks)).
  { apply length_padd; [assumption|rewrite length_pscale; assumption]. }
  unfold IntegrateHydro, sym_main. rewrite Hm.
  assert (HL : S (length (ks ++ [L])) = S (S (length ks))) by (rewrite app_length; cbn; lia).
  destruct (is_swap w) eqn:Es; unfold matches; rewrite HL; cbn [su su1 su2 u u1 u2].
  - repeat split; try (rewrite app_length; cbn; lia).
    + destruct i; try (rewrite app_length; cbn; lia).
      destruct (Nat.eqb stage 4); rewrite app_length, ?length_pscale; cbn; lia.
    + rewrite basis_snoc, dotR_snoc by (rewrite basis_length; assumption).
      rewrite dotR_padd, dotR_pscale, WeightedAve_sum.
      destruct (H x) as (-> & -> & ->). rewrite (Qeq_eqR _ _ (Qred_correct _)), Q2R0, Q2R1. ring.
    + rewrite basis_snoc, dotR_snoc by (rewrite basis_length; assumption).
      destruct (H x) as (-> & _ & _). rewrite Q2R0. ring.
    + rewrite basis_snoc.
      destruct i; try (rewrite dotR_snoc by (rewrite basis_length; assumption);
        destruct (H x) as (_ & _ & ->); rewrite Q2R0; ring).
      destruct (Nat.eqb stage 4).
      * rewrite dotR_snoc by (rewrite basis_length, length_pscale; assumption).
        rewrite dotR_pscale, WeightedAve_sum. destruct (H x) as (_ & _ & ->). rewrite Q2R0, Q2Rm1. ring.
      * rewrite dotR_snoc by (rewrite basis_length; assumption).
        destruct (H x) as (_ & _ & ->). rewrite Q2R0. ring.
  - assert (Hv : length (padd (padd (pscale (gamma_1 w) (su s))
        (pscale (gamma_2 w) (padd (su1 s) (pscale (delta w) (su s))))) (pscale (gamma_3 w) (su2 s))) = S (length ks)).
    { apply length_padd; [apply length_padd|]; rewrite length_pscale; assumption. }
    repeat split; try (rewrite app_length; cbn; lia).
    + destruct i; try (rewrite app_length; cbn; lia).
      destruct (Nat.eqb stage 4); rewrite app_length, ?length_pscale; cbn; lia.
    + rewrite basis_snoc, dotR_snoc by (rewrite basis_length; assumption).
      rewrite !dotR_padd, !dotR_pscale, !dotR_padd, !dotR_pscale, !WeightedAve_sum.
      destruct (H x) as (-> & -> & ->). rewrite (Qeq_eqR _ _ (Qred_correct _)), Q2R0, Q2R1. ring.
    + rewrite basis_snoc, dotR_snoc by (rewrite basis_length; assumption).
      rewrite dotR_padd, dotR_pscale, WeightedAve_sum.
      destruct (H x) as (-> & -> & _). rewrite Q2R0, Q2R1. ring.
    + rewrite basis_snoc.
      destruct i; try (rewrite dotR_snoc by (rewrite basis_length; assumption);
        destruct (H x) as (_ & _ & ->); rewrite Q2R0; ring).
      destruct (Nat.eqb stage 4).
      * rewrite dotR_snoc by (rewrite basis_length, length_pscale; assumption).
        rewrite dotR_pscale, WeightedAve_sum. destruct (H x) as (_ & _ & ->). rewrite Q2R0, Q2Rm1. ring.
      * rewrite dotR_snoc by (rewrite basis_length; assumption).
        destruct (H x) as (_ & _ & ->). rewrite Q2R0. ring.
Qed.

Lemma source_id : forall I w t dt (S : R -> (I -> R) -> I -> R) prim r,
  no_source S -> AddSourceTerms w t dt S prim r = r.
Proof.
  intros I w t dt S prim r H. unfold AddSourceTerms. destruct (main_stage w); [|reflexivity].
  destruct r as [a b c]; cbn. f_equal. extensionality x. rewrite H. ring.
Qed.
Lemma orbital_id : forall I w dt (O : R -> (I -> R) -> I -> R) r,
  (orbital_stage w = true -> forall tau f, O tau f = f) -> CalculateHydroOrbital w dt O r = r.
Proof.
  intros I w dt O r H. unfold CalculateHydroOrbital. destruct (orbital_stage w); [|reflexivity].
  rewrite H by reflexivity. destruct r; reflexivity.
Qed.

Lemma startup_late : forall I i stage (r : regs I), (2 <= stage)%nat -> Startup i stage r = r.
Proof. intros. unfold Startup. destruct (Nat.eqb_spec stage 1); [lia|reflexivity]. Qed.

Definition shifted (I : Type) (r : regs I) := r.

Lemma sym_sound : forall I i ws stage dt t F S O (u0 : I -> R) ks s r rows s',
  no_source S -> no_orbital ws O ->
  matches dt u0 ks s (Startup i stage r) -> (1 <= stage)%nat ->
  sym_stages i stage ws s = (rows, s') ->
  exists ks', length ks' = length rows /\
    matches dt u0 (ks ++ ks') s' (do_stages i stage ws t dt F S O (match ws with [] => Startup i stage r | _ => r end)) /\
    (forall j, (j < length rows)%nat -> length (nth j rows []) = (1 + length ks + j)%nat /\
       forall d, nth j ks' d = F (fun y => dotR (nth j rows []) (basis dt u0 (ks ++ ks') y))).
Proof.
  intros I i ws. induction ws as [|w ws IH]; intros stage dt t F S O u0 ks s r rows s' HS HO Hmt Hst Hs.
  - cbn in Hs. injection Hs as <- <-. exists []. rewrite app_nil_r. split; [reflexivity|]. split; [exact Hmt|].
    cbn. intros; lia.
  - cbn [sym_stages] in Hs. cbn [do_stages].
    assert (HO' : no_orbital ws O) by (intros w' Hw'; apply HO; right; exact Hw').
    unfold do_stage.
    rewrite orbital_id by (apply HO; left; reflexivity). rewrite (source_id _ _ _ _ _ _ _ HS).
    destruct (main_stage w) eqn:Em.
    + destruct (sym_stages i (Datatypes.S stage) ws (sym_main i stage w s)) as [rows1 s1] eqn:E1.
      injection Hs as <- <-.
      set (r1 := Startup i stage r) in *.
      pose proof (main_matches I i stage w dt u0 ks s r1 (F (u r1)) Hmt Em) as HM.
      destruct (IH (Datatypes.S stage) dt t F S O u0 (ks ++ [F (u r1)]) (sym_main i stage w s)
                  (IntegrateHydro i stage w dt (F (u r1)) r1) rows1 s1) as (ks' & Hl & Hm' & Hrows); auto.
      { rewrite startup_late by lia. exact HM. }
      exists (F (u r1) :: ks'). split; [cbn; lia|].
      rewrite <- app_assoc in Hm', Hrows. cbn [app] in Hm', Hrows. split.
      { destruct ws; [rewrite startup_late in Hm' by lia|]; exact Hm'. }
      intros [|j] Hj; cbn [nth length] in *.
      * destruct Hmt as (Hl0 & _ & _ & Hx). split; [lia|]. intros _. f_equal. extensionality y.
        destruct (Hx y) as (-> & _ & _). unfold basis. rewrite map_app, app_comm_cons.
        rewrite dotR_app_short; [reflexivity|]. cbn. rewrite map_length. lia.
      * destruct (Hrows j) as [Hln Hk]; [lia|]. split; [rewrite Hln, app_length; cbn; lia|].
        intros d. apply Hk.
    + unfold IntegrateHydro. rewrite Em.
      destruct (IH (Datatypes.S stage) dt t F S O u0 ks s (Startup i stage r) rows s') as (ks' & Hl & Hm' & Hrows); auto.
      { rewrite startup_late by lia. exact Hmt. }
      exists ks'. split; [exact Hl|]. split; [|exact Hrows].
      destruct ws; [rewrite startup_late in Hm' by lia|]; exact Hm'.
Qed.

(** u2 is only read by ssprk5_4. *)
Definition no_u2 (i : integrator) (ws : list wght) : Prop :=
  i <> ssprk5_4 /\ forall w, In w ws -> main_stage w = true -> Qeq_bool (gamma_3 w) 0 = true.

Lemma u2_unused : forall I i ws stage t dt F S O (a b c c' : I -> R), no_u2 i ws ->
  u (do_stages i stage ws t dt F S O (mkR a b c)) = u (do_stages i stage ws t dt F S O (mkR a b c')).
Proof.
  intros I i ws. induction ws as [|w ws IH]; intros stage t dt F S O a b c c' [Hi Hg]; [reflexivity|].
  cbn [do_stages].
  assert (HN : no_u2 i ws) by (split; [exact Hi|intros w' Hw'; apply Hg; right; exact Hw']).
  assert (HD : exists a' b' d d', do_stage i stage w t dt F S O (mkR a b c) = mkR a' b' d /\
                                do_stage i stage w t dt F S O (mkR a b c') = mkR a' b' d').
  { unfold do_stage.
    assert (HSt : exists b0 d0 d1, Startup i stage (mkR a b c) = mkR a b0 d0 /\ Startup i stage (mkR a b c') = mkR a b0 d1).
    { unfold Startup. destruct (Nat.eqb stage 1); cbn; eauto 6. }
    destruct HSt as (b0 & d0 & d1 & -> & ->). cbn [u].
    assert (HI : exists a' b' d d', IntegrateHydro i stage w dt (F a) (mkR a b0 d0) = mkR a' b' d /\
                                   IntegrateHydro i stage w dt (F a) (mkR a b0 d1) = mkR a' b' d').
    { unfold IntegrateHydro. destruct (main_stage w) eqn:Em; [|eauto 10].
      assert (Hq : Q2R (gamma_3 w) = 0) by (rewrite <- Q2R0; apply Q2R_bool, Hg; [left; reflexivity|exact Em]).
      destruct i; try congruence; destruct (is_swap w); cbn [u u1 u2];
        (do 4 eexists; split; [reflexivity|]; f_equal; extensionality x;
         rewrite ?WeightedAve_sum, ?Q2R0, ?Hq; ring). }
    destruct HI as (a' & b' & d & d' & -> & ->).
    unfold AddSourceTerms, CalculateHydroOrbital.
    destruct (main_stage w), (orbital_stage w); cbn; eauto 10. }
  destruct HD as (a' & b' & d & d' & -> & ->). apply IH. exact HN.
Qed.

(** The u0 column and the matrix of a symbolic run. *)
Definition col0 (rows : list (list Q)) : list Q := map (hd 0%Q) rows.
Definition mat (rows : list (list Q)) : list (list Q) := map (@tl Q) rows.

Lemma dotR_scaled : forall c dt (l : list R), dotR c (map (fun k => dt * k) l) = dt * dotR c l.
Proof.
  induction c as [|x c IH]; intros dt [|y l]; cbn; try lra. rewrite IH. ring.
Qed.

Lemma dotR_basis : forall I c dt (u0 : I -> R) ks x, (1 <= length c)%nat ->
  dotR c (basis dt u0 ks x) = Q2R (hd 0%Q c) * u0 x + dt * dotR (tl c) (map (fun k => k x) ks).
Proof.
  intros I [|q c] dt u0 ks x H; [cbn in H; lia|]. unfold basis. cbn [dotR hd tl].
  replace (map (fun k => dt * k x) ks) with (map (fun z => dt * z) (map (fun k : I -> R => k x) ks)) by apply map_map.
  rewrite dotR_scaled. reflexivity.
Qed.

Definition sym_start : sregs := mkS [1%Q] [0%Q] [1%Q].
Definition reads_u2_ok (i : integrator) (ws : list wght) : Prop := i = ssprk5_4 \/ no_u2 i ws.

Theorem step_rk0 : forall I i ws t dt F S O (v v1 v2 : I -> R) rows s',
  no_source S -> no_orbital ws O -> reads_u2_ok i ws -> ws <> [] ->
  sym_stages i 1 ws sym_start = (rows, s') ->
  explicit_rk0 F dt (col0 rows) (mat rows) (hd 0%Q (su s')) (tl (su s')) v (step i ws t dt F S O v v1 v2).
Proof.
  intros I i ws t dt F S O v v1 v2 rows s' HS HO Hu2 Hne Hs.
  assert (Hstep : exists w2, step i ws t dt F S O v v1 v2 = step i ws t dt F S O v v1 w2 /\
       matches dt v [] sym_start (Startup i 1 (mkR v v1 w2))).
  { destruct Hu2 as [-> | Hn].
    - exists v2. split; [reflexivity|]. repeat split; cbn; rewrite ?Q2R0, ?Q2R1; ring.
    - exists v. split; [unfold step; rewrite (u2_unused _ _ _ _ _ _ _ _ _ v v1 v2 v Hn); reflexivity|].
      destruct i; repeat split; cbn; rewrite ?Q2R0, ?Q2R1; ring. }
  destruct Hstep as (w2 & -> & Hm).
  destruct (sym_sound I i ws 1 dt t F S O v [] sym_start (mkR v v1 w2) rows s' HS HO Hm) as (ks & Hl & Hfin & Hrows); auto.
  cbn [app] in *.
  exists ks. unfold col0, mat. rewrite !map_length. split; [exact Hl|]. split; [reflexivity|].
  destruct Hfin as (HL & _ & _ & Hx).
  split; [|split].
  - intros j Hj. destruct (Hrows j Hj) as [Hlen Hk].
    change (@nil Q) with (tl (@nil Q)) at 1 2.
    rewrite (map_nth (@tl Q)). split.
    + cbn [length plus] in Hlen. destruct (nth j rows []); cbn in *; lia.
    + intros x. rewrite Hk. apply (f_equal (fun f => F f x)). extensionality y.
      rewrite dotR_basis by (cbn in Hlen; lia).
      assert (E : nth j (map (hd 0%Q) rows) 0%Q = hd 0%Q (nth j rows [])) by exact (map_nth (hd 0%Q) rows [] j).
      rewrite E. reflexivity.
  - destruct (su s'); cbn in *; lia.
  - intros x. unfold step. destruct ws; [congruence|].
    destruct (Hx x) as (-> & _). apply dotR_basis. lia.
Qed.

Lemma rk0_rk : forall I F dt a0 A b0 b (u0 u' : I -> R),
  explicit_rk0 F dt a0 A b0 b u0 u' -> forallb (fun q => Qeq_bool q 1) a0 = true -> Qeq_bool b0 1 = true ->
  explicit_rk F dt A b u0 u'.
Proof.
  intros I F dt a0 A b0 b u0 u' (ks & H1 & H2 & H3 & H4 & H5) Ha Hb.
  exists ks. split; [exact H1|]. split; [|split; [exact H4|]].
  - intros i Hi. destruct (H3 i Hi) as [Hl Hk]. split; [exact Hl|]. intros x. rewrite Hk.
    apply (f_equal (fun f => F f x)). extensionality y.
    rewrite forallb_forall in Ha. rewrite (Q2R_bool (nth i a0 0%Q) 1), Q2R1; [ring|].
    apply Ha. apply nth_In. lia.
  - intros x. rewrite H5, (Q2R_bool _ _ Hb), Q2R1. ring.
Qed.

(** Decision of the order conditions. *)
Definition nearb (eps x y : Q) : bool := Qle_bool (Qabs (x - y)) eps.
Lemma nearb_ok : forall eps x y, nearb eps x y = true -> near eps x y.
Proof.
  intros eps x y H. unfold near, nearb in *. apply Qle_bool_iff in H. exact H.
Qed.
Fixpoint rdotQ (a b : list Q) : Q :=
  match a, b with x :: a, y :: b => qadd (qmul x y) (rdotQ a b) | _, _ => 0%Q end.
Fixpoint rsumQ (a : list Q) : Q := match a with [] => 0%Q | x :: a => qadd x (rsumQ a) end.
Fixpoint rmulQ (a b : list Q) : list Q :=
  match a, b with x :: a, y :: b => qmul x y :: rmulQ a b | _, _ => [] end.
Definition eqv := Forall2 Qeq.
Lemma rdotQ_ok : forall a a' b b', eqv a a' -> eqv b b' -> dotQ a b == rdotQ a' b'.
Proof.
  intros a a' b b' Ha. revert b b'. induction Ha as [|x x' a a' Hx Ha IH]; intros b b' Hb; [reflexivity|].
  destruct Hb as [|y y' b b' Hy Hb]; [reflexivity|]. cbn [dotQ rdotQ].
  rewrite qadd_ok, qmul_ok, Hx, Hy, (IH b b' Hb). reflexivity.
Qed.
Lemma rsumQ_ok : forall a a', eqv a a' -> sumQ a == rsumQ a'.
Proof.
  intros a a' Ha. induction Ha as [|x x' a a' Hx Ha IH]; [reflexivity|].
  cbn [rsumQ]. rewrite qadd_ok. change (sumQ (x :: a)) with (x + sumQ a)%Q. rewrite Hx, IH. reflexivity.
Qed.
Lemma rmulQ_ok : forall a a' b b', eqv a a' -> eqv b b' -> eqv (mulQ a b) (rmulQ a' b').
Proof.
  intros a a' b b' Ha. revert b b'. induction Ha as [|x x' a a' Hx Ha IH]; intros b b' Hb; [constructor|].
  destruct Hb as [|y y' b b' Hy Hb]; [constructor|].
  constructor; [|apply IH; exact Hb].
  change (x * y == qmul x' y')%Q. rewrite qmul_ok, Hx, Hy. reflexivity.
Qed.
Lemma eqv_refl : forall a, eqv a a.
Proof. induction a; constructor; [reflexivity|assumption]. Qed.
Lemma rows_sum_ok : forall A, eqv (map sumQ A) (map rsumQ A).
Proof. induction A as [|r A IH]; constructor; [apply rsumQ_ok, eqv_refl|exact IH]. Qed.
Lemma matvec_ok : forall A v v', eqv v v' -> eqv (matvec A v) (map (fun r => rdotQ r v') A).
Proof. intros A v v' H. induction A as [|r A IH]; constructor; [apply rdotQ_ok; [apply eqv_refl|exact H]|exact IH]. Qed.
Lemma near_eqv : forall e x x' y, x == x' -> near e x' y -> near e x y.
Proof. intros e x x' y H. unfold near. rewrite H. auto. Qed.

Definition order_b (p : nat) (eps : Q) (A : list (list Q)) (b : list Q) : bool :=
  let c := map rsumQ A in
  let c2 := rmulQ c c in
  let Ac := map (fun r => rdotQ r c) A in
  nearb eps (rsumQ b) 1 &&
  (if Nat.leb 2 p then nearb eps (rdotQ b c) (1#2) else true) &&
  (if Nat.leb 3 p then nearb eps (rdotQ b c2) (1#3) && nearb eps (rdotQ b Ac) (1#6) else true) &&
  (if Nat.leb 4 p then nearb eps (rdotQ b (rmulQ c2 c)) (1#4) && nearb eps (rdotQ b (rmulQ c Ac)) (1#8) &&
       nearb eps (rdotQ b (map (fun r => rdotQ r c2) A)) (1#12) &&
       nearb eps (rdotQ b (map (fun r => rdotQ r Ac) A)) (1#24) else true).
Lemma order_b_ok : forall p eps A b, order_b p eps A b = true -> order_conditions p eps A b.
Proof.
  intros p eps A b H. unfold order_b in H. rewrite !andb_true_iff in H. destruct H as [[[H1 H2] H3] H4].
  pose proof (rows_sum_ok A) as Hc.
  pose proof (rmulQ_ok _ _ _ _ Hc Hc) as Hc2.
  pose proof (matvec_ok A _ _ Hc) as HAc.
  pose proof (eqv_refl b) as Hb.
  unfold order_conditions. split; [|split; [|split]].
  - eapply near_eqv; [apply rsumQ_ok, Hb|apply nearb_ok, H1].
  - intros Hp. apply Nat.leb_le in Hp. rewrite Hp in H2.
    eapply near_eqv; [apply rdotQ_ok; [exact Hb|exact Hc]|apply nearb_ok, H2].
  - intros Hp. apply Nat.leb_le in Hp. rewrite Hp in H3. rewrite andb_true_iff in H3. destruct H3 as [H3 H3'].
    split; (eapply near_eqv; [apply rdotQ_ok; [exact Hb|eassumption]|apply nearb_ok; assumption]).
  - intros Hp. apply Nat.leb_le in Hp. rewrite Hp in H4. rewrite !andb_true_iff in H4.
    destruct H4 as [[[H5 H6] H7] H8].
    pose proof (rmulQ_ok _ _ _ _ Hc2 Hc) as Hc3. pose proof (rmulQ_ok _ _ _ _ Hc HAc) as HcAc.
    pose proof (matvec_ok A _ _ Hc2) as HAc2. pose proof (matvec_ok A _ _ HAc) as HAAc.
    split; [|split; [|split]];
      (eapply near_eqv; [apply rdotQ_ok; [exact Hb|eassumption]|apply nearb_ok; assumption]).
Qed.

(** ** All configurations. *)
Definition rows_of i ws := fst (sym_stages i 1 ws sym_start).
Definition last_of i ws := su (snd (sym_stages i 1 ws sym_start)).

Definition cfg_ok (i : integrator) (ws : list wght) : bool :=
  match ws with [] => false | _ => true end &&
  (match i with ssprk5_4 => true | _ => forallb (fun w => implb (main_stage w) (Qeq_bool (gamma_3 w) 0)) ws end) &&
  forallb (fun q => nearb (tol0 i) q 1) (col0 (rows_of i ws)) && nearb (tol0 i) (hd 0%Q (last_of i ws)) 1 &&
  order_b (doc_order i) (tol i) (mat (rows_of i ws)) (tl (last_of i ws)).

Definition splitting_ok (i : integrator) (o : splitting) : Prop := ~ (i = ssprk5_4 /\ o = Orb2).

(** The check depends on the coefficients of the main stages only. *)
Definition strip (w : wght) : wght := mkW (delta w) (gamma_1 w) (gamma_2 w) (gamma_3 w) (beta w) 0 0 true false.
Definition canon (ws : list wght) : list wght := map strip (filter main_stage ws).

Lemma sym_main_strip : forall i st st' w s, (i <> ssprk5_4 \/ st = st') ->
  sym_main i st (strip w) s = sym_main i st' w s.
Proof. intros i st st' w s [H| ->]; [destruct i; try reflexivity; congruence|reflexivity]. Qed.

Lemma sym_canon : forall i ws st st' s,
  (i <> ssprk5_4 \/ (st = st' /\ forallb main_stage ws = true)) ->
  sym_stages i st (canon ws) s = sym_stages i st' ws s.
Proof.
  intros i ws. induction ws as [|w ws IH]; intros st st' s H; [reflexivity|].
  unfold canon. cbn [filter sym_stages]. destruct (main_stage w) eqn:Em.
  - cbn [map sym_stages]. change (main_stage (strip w)) with true. cbv iota. fold (canon ws).
    rewrite (sym_main_strip i st st'), (IH (S st) (S st')); [reflexivity| |tauto].
    destruct H as [H|[-> H]]; [left; exact H|right; split; [reflexivity|]].
    cbn in H. rewrite Em in H. exact H.
  - fold (canon ws). apply IH. destruct H as [H|[-> H]]; [left; exact H|].
    cbn in H. rewrite Em in H. discriminate.
Qed.

Definition ref_main (i : integrator) : list wght := map (fun c => main_w c 0 0 false) (coeffs i).

Lemma canon_ref : forall i o sh ml ws, stage_wghts i o sh ml = Some ws -> canon ws = ref_main i.
Proof.
  intros i o sh ml ws H. destruct i, o, sh, ml; cbn [stage_wghts andb orb] in H; try discriminate;
  injection H as <-; reflexivity.
Qed.
Lemma ssprk_all_main : forall o sh ml ws, splitting_ok ssprk5_4 o -> stage_wghts ssprk5_4 o sh ml = Some ws ->
  forallb main_stage ws = true.
Proof.
  intros o sh ml ws Hs H. destruct o, sh, ml; cbn [stage_wghts andb orb] in H; try discriminate;
  try (exfalso; apply Hs; split; reflexivity); injection H as <-; reflexivity.
Qed.
Lemma sym_ref : forall i o sh ml ws, splitting_ok i o -> stage_wghts i o sh ml = Some ws ->
  sym_stages i 1 ws sym_start = sym_stages i 1 (ref_main i) sym_start.
Proof.
  intros i o sh ml ws Hs H. rewrite <- (canon_ref i o sh ml ws H). symmetry. apply sym_canon.
  assert (D : i = ssprk5_4 \/ i <> ssprk5_4) by (destruct i; auto; right; discriminate).
  destruct D as [->|D]; [right|left; exact D]. split; [reflexivity|]. eapply ssprk_all_main; eassumption.
Qed.

Lemma ref_ok : forall i, cfg_ok i (ref_main i) = true.
Proof. intros []; vm_compute; reflexivity. Qed.

Lemma all_cfg_ok : forall i o sh ml ws, splitting_ok i o -> stage_wghts i o sh ml = Some ws -> cfg_ok i ws = true.
Proof.
  intros i o sh ml ws Hs H. pose proof (ref_ok i) as HR. unfold cfg_ok, rows_of, last_of in *.
  rewrite (sym_ref i o sh ml ws Hs H). rewrite !andb_true_iff in *.
  destruct HR as [[[[H1 H2] H3] H4] H5]. repeat split; auto.
  - destruct ws; [|reflexivity]. apply canon_ref in H. clear -H. destruct i; discriminate H.
  - clear -H. destruct i; [| | | | |reflexivity];
    destruct o, sh, ml; cbn [stage_wghts andb orb] in H; try discriminate H; injection H as <-; reflexivity.
Qed.

Lemma cfg_facts : forall i ws, cfg_ok i ws = true ->
  ws <> [] /\ reads_u2_ok i ws /\
  Forall (fun q => near (tol0 i) q 1) (col0 (rows_of i ws)) /\ near (tol0 i) (hd 0%Q (last_of i ws)) 1 /\
  order_conditions (doc_order i) (tol i) (mat (rows_of i ws)) (tl (last_of i ws)).
Proof.
  intros i ws H. unfold cfg_ok in H. rewrite !andb_true_iff in H. destruct H as [[[[H1 H2] H3] H4] H5].
  split; [destruct ws; [discriminate|congruence]|]. split; [|split; [|split]].
  - assert (D : i = ssprk5_4 \/ i <> ssprk5_4) by (destruct i; auto; right; discriminate).
    destruct D as [D|D]; [left; exact D|right]. split; [exact D|]. intros w Hw Hm.
    assert (H2' : forallb (fun w => implb (main_stage w) (Qeq_bool (gamma_3 w) 0)) ws = true) by (destruct i; congruence).
    rewrite forallb_forall in H2'. specialize (H2' w Hw). rewrite Hm in H2'. exact H2'.
  - apply Forall_forall. intros q Hq. rewrite forallb_forall in H3. apply nearb_ok, H3, Hq.
  - apply nearb_ok, H4.
  - apply order_b_ok, H5.
Qed.

Lemma integrator_rk0 : forall i o sh ml ws, splitting_ok i o -> stage_wghts i o sh ml = Some ws ->
  exists a0 A b0 b,
    Forall (fun q => near (tol0 i) q 1) a0 /\ near (tol0 i) b0 1 /\
    order_conditions (doc_order i) (tol i) A b /\
    forall I t dt F S O (v v1 v2 : I -> R), no_source S -> no_orbital ws O ->
      explicit_rk0 F dt a0 A b0 b v (step i ws t dt F S O v v1 v2).
Proof.
  intros i o sh ml ws Hs H. destruct (cfg_facts i ws (all_cfg_ok i o sh ml ws Hs H)) as (Hne & Hu & Ha & Hb & Ho).
  exists (col0 (rows_of i ws)), (mat (rows_of i ws)), (hd 0%Q (last_of i ws)), (tl (last_of i ws)).
  split; [exact Ha|]. split; [exact Hb|]. split; [exact Ho|]. intros I t dt F S O v v1 v2 HS HO.
  unfold rows_of, last_of in *. destruct (sym_stages i 1 ws sym_start) as [rows s'] eqn:E.
  apply step_rk0; assumption.
Qed.

Lemma near0 : forall q, near 0 q 1 -> Qeq_bool q 1 = true.
Proof.
  intros q H. apply Qeq_bool_iff. unfold near in H. revert H. apply Qabs_case; intros Hx Hy.
  - apply (Qle_antisym) in Hx; [|exact Hy]. apply (Qplus_inj_r _ _ (-(1))). rewrite Hx. reflexivity.
  - assert (Hz : (0 <= q - 1)%Q) by (apply Qopp_le_compat in Hy; rewrite Qopp_involutive in Hy; exact Hy).
    apply (Qle_antisym) in Hz; [|exact Hx]. apply (Qplus_inj_r _ _ (-(1))). rewrite Hz. reflexivity.
Qed.

Lemma integrator_rk : forall i o sh ml ws, i <> rk4 -> splitting_ok i o -> stage_wghts i o sh ml = Some ws ->
  exists A b, order_conditions (doc_order i) (tol i) A b /\
    forall I t dt F S O (v v1 v2 : I -> R), no_source S -> no_orbital ws O ->
      explicit_rk F dt A b v (step i ws t dt F S O v v1 v2).
Proof.
  intros i o sh ml ws Hi Hs H. destruct (integrator_rk0 i o sh ml ws Hs H) as (a0 & A & b0 & b & Ha & Hb & Ho & Hrk).
  assert (Ht : tol0 i = 0%Q) by (destruct i; try reflexivity; congruence). rewrite Ht in Ha, Hb.
  exists A, b. split; [exact Ho|]. intros I t dt F S O v v1 v2 HS HO.
  eapply rk0_rk; [apply Hrk; assumption| |apply near0, Hb].
  apply forallb_forall. rewrite Forall_forall in Ha. intros q Hq. apply near0, Ha, Hq.
Qed.

(** *** Steady states. *)
Lemma dotR_zeros : forall c l, (forall z, In z l -> z = 0) -> dotR c l = 0.
Proof.
  induction c as [|q c IH]; intros [|z l] H; cbn; try reflexivity.
  rewrite (H z) by (left; reflexivity). rewrite IH; [ring|]. intros y Hy. apply H. right. exact Hy.
Qed.
Lemma dotR_firstn : forall c l, dotR c l = dotR c (firstn (length c) l).
Proof. induction c as [|q c IH]; intros [|z l]; cbn; try reflexivity. rewrite <- IH. reflexivity. Qed.

Lemma rk_steady : forall I F dt A b (u0 u' : I -> R),
  explicit_rk F dt A b u0 u' -> (forall x, F u0 x = 0) -> forall x, u' x = u0 x.
Proof.
  intros I F dt A b u0 u' (ks & Hl & Hk & _ & Hu) HF x.
  assert (Hz : forall n i, (i < n)%nat -> (i < length ks)%nat -> forall y, nth i ks u0 y = 0).
  { induction n as [|n IH]; intros i Hi Hlt y; [lia|].
    destruct (Hk i) as [Hli Hki]; [lia|]. rewrite Hki. rewrite <- (HF y). apply (f_equal (fun f => F f y)).
    extensionality z. rewrite dotR_firstn, Hli, dotR_zeros; [ring|].
    intros q Hq. rewrite firstn_map in Hq. apply in_map_iff in Hq. destruct Hq as (k & <- & Hin).
    apply (In_nth _ _ u0) in Hin. destruct Hin as (j & Hj & <-).
    rewrite firstn_length in Hj.
    assert (E : nth j (firstn i ks) u0 = nth j ks u0).
    { clear -Hj. revert j ks Hj. induction i; intros j ks Hj; [cbn in Hj; lia|].
      destruct ks, j; cbn in *; try reflexivity; try lia. apply IHi. lia. }
    rewrite E. apply IH; lia. }
  rewrite Hu, dotR_zeros; [ring|]. intros q Hq. apply in_map_iff in Hq. destruct Hq as (k & <- & Hin).
  apply (In_nth _ _ u0) in Hin. destruct Hin as (j & Hj & <-). apply (Hz (length ks)); assumption.
Qed.

(** *** Constant right-hand sides. *)
Lemma dotR_const : forall b l c, length b = length l -> (forall z, In z l -> z = c) -> dotR b l = Q2R (sumQ b) * c.
Proof.
  induction b as [|q b IH]; intros [|z l] c Hl H; try (cbn in Hl; lia); [cbn; rewrite Q2R0; ring|].
  cbn [dotR length] in *. change (sumQ (q :: b)) with (q + sumQ b)%Q.
  rewrite Q2R_plus, (H z) by (left; reflexivity). rewrite (IH l c); [ring|lia|]. intros y Hy. apply H. right. exact Hy.
Qed.
Lemma rk_constant : forall I (g : I -> R) dt a0 A b0 b (u0 u' : I -> R),
  explicit_rk0 (fun _ => g) dt a0 A b0 b u0 u' -> forall x, u' x = Q2R b0 * u0 x + Q2R (sumQ b) * (dt * g x).
Proof.
  intros I g dt a0 A b0 b u0 u' (ks & Hl & _ & Hk & Hb & Hu) x. rewrite Hu.
  rewrite (dotR_const b _ (g x)); [ring|rewrite map_length; lia|].
  intros z Hz. apply in_map_iff in Hz. destruct Hz as (k & <- & Hin).
  apply (In_nth _ _ u0) in Hin. destruct Hin as (j & Hj & <-). apply Hk. lia.
Qed.

Lemma near_R : forall e x y, near e x y -> Rabs (Q2R x - Q2R y) <= Q2R e.
Proof.
  intros e x y H. unfold near in H. rewrite <- Q2R_minus. apply Rabs_le.
  apply Qabs_Qle_condition in H. destruct H as [H1 H2].
  apply Qle_Rle in H1, H2. rewrite Q2R_opp in H1. lra.
Qed.

Lemma integrator_constant : forall i o sh ml ws I t dt (g : I -> R) S O v v1 v2,
  splitting_ok i o -> stage_wghts i o sh ml = Some ws -> no_source S -> no_orbital ws O ->
  forall x, Rabs (step i ws t dt (fun _ => g) S O v v1 v2 x - (v x + dt * g x))
            <= Q2R (tol i) * (Rabs (v x) + Rabs (dt * g x)).
Proof.
  intros i o sh ml ws I t dt g S O v v1 v2 Hs H HS HO x.
  destruct (integrator_rk0 i o sh ml ws Hs H) as (a0 & A & b0 & b & Ha & Hb & Ho & Hrk).
  rewrite (rk_constant _ _ _ _ _ _ _ _ _ (Hrk I t dt (fun _ => g) S O v v1 v2 HS HO) x).
  destruct Ho as [H1 _]. apply near_R in Hb, H1. rewrite Q2R1 in Hb, H1.
  assert (Ht : Q2R (tol0 i) <= Q2R (tol i)).
  { apply Qle_Rle. destruct i; vm_compute; discriminate. }
  replace (Q2R b0 * v x + Q2R (sumQ b) * (dt * g x) - (v x + dt * g x))
    with ((Q2R b0 - 1) * v x + (Q2R (sumQ b) - 1) * (dt * g x)) by ring.
  eapply Rle_trans; [apply Rabs_triang|]. rewrite (Rabs_mult (Q2R b0 - 1)), (Rabs_mult (Q2R (sumQ b) - 1)), Rmult_plus_distr_l.
  apply Rplus_le_compat; apply Rmult_le_compat_r; try apply Rabs_pos; lra.
Qed.

(** *** Linear right-hand sides: polynomial registers. *)
Definition poly_main (i : integrator) (stage : nat) (w : wght) (s : sregs) : sregs :=
  let v1 := padd (su1 s) (pscale (delta w) (su s)) in
  let '(v, v1) :=
    if is_swap w then (v1, su s)
    else (padd (padd (pscale (gamma_1 w) (su s)) (pscale (gamma_2 w) v1)) (pscale (gamma_3 w) (su2 s)), v1) in
  let L := 0%Q :: su s in
  let v2 := match i with
    | ssprk5_4 => if Nat.eqb stage 4 then padd (pscale (-1) (su2 s)) (pscale (dec 63692468666290) L) else su2 s
    | _ => su2 s end in
  mkS (padd v (pscale (beta w) L)) v1 v2.

Fixpoint poly_stages (i : integrator) (stage : nat) (ws : list wght) (s : sregs) : sregs :=
  match ws with
  | [] => s
  | w :: ws => poly_stages i (S stage) ws (if main_stage w then poly_main i stage w s else s)
  end.

(** sum_k c_k dt^(n+k) A^(n+k) f *)
Fixpoint evalp {I} (A : (I -> R) -> I -> R) (dt : R) (f : I -> R) (n : nat) (c : list Q) (x : I) : R :=
  match c with [] => 0 | q :: c => Q2R q * (dt ^ n * iterate A n f x) + evalp A dt f (S n) c x end.

Lemma evalp_padd : forall I A dt (f : I -> R) x a b n,
  evalp A dt f n (padd a b) x = evalp A dt f n a x + evalp A dt f n b x.
Proof.
  induction a as [|q a IH]; intros [|p b] n; cbn [padd evalp]; try lra.
  rewrite (Qeq_eqR _ _ (qadd_ok _ _)), Q2R_plus, IH. ring.
Qed.
Lemma evalp_pscale : forall I A dt (f : I -> R) x q a n,
  evalp A dt f n (pscale q a) x = Q2R q * evalp A dt f n a x.
Proof.
  induction a as [|p a IH]; intros n; cbn [pscale map evalp]; [lra|].
  unfold pscale in IH. rewrite (Qeq_eqR _ _ (qmul_ok _ _)), Q2R_mult, IH. ring.
Qed.
Lemma linear_zero : forall I (A : (I -> R) -> I -> R) x, linear A -> A (fun _ => 0) x = 0.
Proof.
  intros I A x H. specialize (H 0 0 (fun _ => 0) (fun _ => 0) x). cbn in H.
  replace (fun y : I => 0 * 0 + 0 * 0) with (fun _ : I => 0) in H by (extensionality y; ring). lra.
Qed.
Lemma evalp_linear : forall I A dt (f : I -> R) x c n, linear A ->
  dt * A (fun y => evalp A dt f n c y) x = evalp A dt f (S n) c x.
Proof.
  induction c as [|q c IH]; intros n HA; cbn [evalp].
  - rewrite linear_zero by exact HA. ring.
  - replace (fun y => Q2R q * (dt ^ n * iterate A n f y) + evalp A dt f (S n) c y)
      with (fun y => (Q2R q * dt ^ n) * iterate A n f y + 1 * evalp A dt f (S n) c y) by (extensionality y; ring).
    pose proof (HA (Q2R q * dt ^ n) 1 (iterate A n f) (evalp A dt f (S n) c) x) as E.
    specialize (IH (S n) HA).
    change (fun y => evalp A dt f (S n) c y) with (evalp A dt f (S n) c) in IH.
    rewrite E, <- IH. cbn [iterate pow]. ring.
Qed.

Definition pmatches {I} (A : (I -> R) -> I -> R) dt (f : I -> R) (s : sregs) (r : regs I) : Prop :=
  forall x, u r x = evalp A dt f 0 (su s) x /\ u1 r x = evalp A dt f 0 (su1 s) x /\ u2 r x = evalp A dt f 0 (su2 s) x.

Lemma poly_main_matches : forall I i stage w dt A (f : I -> R) s r, linear A ->
  pmatches A dt f s r -> main_stage w = true ->
  pmatches A dt f (poly_main i stage w s) (IntegrateHydro i stage w dt (A (u r)) r).
Proof.
  intros I i stage w dt A f s r HA H Hm.
  assert (HL : forall x, dt * A (u r) x = evalp A dt f 0 (0%Q :: su s) x).
  { intros x. cbn [evalp]. rewrite Q2R0, <- (evalp_linear I A dt f x (su s) 0 HA).
    replace (u r) with (fun y => evalp A dt f 0 (su s) y) by (extensionality y; symmetry; apply H). ring. }
  unfold IntegrateHydro, poly_main. rewrite Hm.
  destruct (is_swap w); intros x; cbn [su su1 su2 u u1 u2]; (split; [|split]).
  - rewrite !evalp_padd, !evalp_pscale, WeightedAve_sum, <- HL. destruct (H x) as (-> & -> & ->). rewrite Q2R0, Q2R1. ring.
  - apply H.
  - destruct i; try apply H. destruct (Nat.eqb stage 4); [|apply H].
    rewrite evalp_padd, !evalp_pscale, WeightedAve_sum, <- HL. destruct (H x) as (_ & _ & ->). rewrite Q2R0, Q2Rm1. ring.
  - rewrite !evalp_padd, !evalp_pscale, !evalp_padd, !evalp_pscale, !WeightedAve_sum, <- HL.
    destruct (H x) as (-> & -> & ->). rewrite Q2R0, Q2R1. ring.
  - rewrite !evalp_padd, !evalp_pscale, WeightedAve_sum. destruct (H x) as (-> & -> & ->). rewrite Q2R0, Q2R1. ring.
  - destruct i; try apply H. destruct (Nat.eqb stage 4); [|apply H].
    rewrite evalp_padd, !evalp_pscale, WeightedAve_sum, <- HL. destruct (H x) as (_ & _ & ->). rewrite Q2R0, Q2Rm1. ring.
Qed.

Lemma poly_sound : forall I i ws stage dt t A S O (f : I -> R) s r, linear A ->
  no_source S -> no_orbital ws O -> (2 <= stage)%nat -> pmatches A dt f s r ->
  pmatches A dt f (poly_stages i stage ws s) (do_stages i stage ws t dt A S O r).
Proof.
  intros I i ws. induction ws as [|w ws IH]; intros stage dt t A S O f s r HA HS HO Hst Hm; [exact Hm|].
  cbn [poly_stages do_stages].
  apply IH; auto.
  - intros w' Hw'. apply HO. right. exact Hw'.
  - unfold do_stage. rewrite startup_late by lia.
    rewrite orbital_id by (apply HO; left; reflexivity). rewrite (source_id _ _ _ _ _ _ _ HS).
    destruct (main_stage w) eqn:Em.
    + apply poly_main_matches; assumption.
    + unfold IntegrateHydro. rewrite Em. exact Hm.
Qed.

Theorem step_poly : forall I i ws t dt A S O (v v1 v2 : I -> R), linear A ->
  no_source S -> no_orbital ws O -> reads_u2_ok i ws ->
  forall x, step i ws t dt A S O v v1 v2 x = evalp A dt v 0 (su (poly_stages i 1 ws sym_start)) x.
Proof.
  intros I i ws t dt A S O v v1 v2 HA HS HO Hu2 x.
  assert (Hstep : exists w2, step i ws t dt A S O v v1 v2 = step i ws t dt A S O v v1 w2 /\
       pmatches A dt v sym_start (Startup i 1 (mkR v v1 w2))).
  { destruct Hu2 as [-> | Hn].
    - exists v2. split; [reflexivity|]. intros y. cbn. rewrite Q2R0, Q2R1. repeat split; ring.
    - exists v. split; [unfold step; rewrite (u2_unused _ _ _ _ _ _ _ _ _ v v1 v2 v Hn); reflexivity|].
      intros y. destruct i; cbn; rewrite Q2R0, Q2R1; repeat split; ring. }
  destruct Hstep as (w2 & -> & Hm).
  destruct ws as [|w ws]; [cbn; rewrite Q2R1; ring|].
  unfold step. cbn [do_stages].
  apply (poly_sound I i ws 2 dt t A S O v
           (if main_stage w then poly_main i 1 w sym_start else sym_start)
           (do_stage i 1 w t dt A S O (mkR v v1 w2)) HA HS); auto.
  - intros w' Hw'. apply HO. right. exact Hw'.
  - unfold do_stage. rewrite orbital_id by (apply HO; left; reflexivity). rewrite (source_id _ _ _ _ _ _ _ HS).
    destruct (main_stage w) eqn:Em.
    + apply poly_main_matches; assumption.
    + unfold IntegrateHydro. rewrite Em. exact Hm.
Qed.

(** Comparison with the Taylor polynomial. *)
Fixpoint fact_coeffs (n : nat) (f : positive) (p : nat) : list Q :=   (* 1/n! ... 1/p!, f = n! *)
  match p with O => [] | S p => (1 # f) :: fact_coeffs (S n) (f * Pos.of_nat (S n))%positive p end.
Fixpoint close_poly (e top : Q) (c d : list Q) : bool :=
  match c, d with
  | x :: c, y :: d => nearb e x y && close_poly e top c d
  | [], [] => true
  | [x], [] => Qle_bool (Qabs x) top
  | _, _ => false
  end.
Definition poly_of i ws := su (poly_stages i 1 ws sym_start).
Lemma poly_canon : forall i ws st st' s,
  (i <> ssprk5_4 \/ (st = st' /\ forallb main_stage ws = true)) ->
  poly_stages i st (canon ws) s = poly_stages i st' ws s.
Proof.
  intros i ws. induction ws as [|w ws IH]; intros st st' s H; [reflexivity|].
  unfold canon. cbn [filter poly_stages]. destruct (main_stage w) eqn:Em.
  - cbn [map poly_stages]. change (main_stage (strip w)) with true. cbv iota. fold (canon ws).
    assert (E : poly_main i st (strip w) s = poly_main i st' w s)
      by (destruct H as [H|[-> H]]; [destruct i; try reflexivity; congruence|reflexivity]).
    rewrite E. apply IH.
    destruct H as [H|[-> H]]; [left; exact H|right; split; [reflexivity|]].
    cbn in H. rewrite Em in H. exact H.
  - fold (canon ws). apply IH. destruct H as [H|[-> H]]; [left; exact H|].
    cbn in H. rewrite Em in H. discriminate.
Qed.
Lemma ref_poly_ok : forall i,
  close_poly (tol i) (top_coeff i) (poly_of i (ref_main i)) (fact_coeffs 0 1 (S (doc_order i))) = true.
Proof. intros []; vm_compute; reflexivity. Qed.
Lemma all_poly_ok : forall i o sh ml ws, splitting_ok i o -> stage_wghts i o sh ml = Some ws ->
  close_poly (tol i) (top_coeff i) (poly_of i ws) (fact_coeffs 0 1 (S (doc_order i))) = true.
Proof.
  intros i o sh ml ws Hs H.
  assert (E : poly_of i ws = poly_of i (ref_main i)).
  { unfold poly_of. f_equal. rewrite <- (canon_ref i o sh ml ws H). symmetry. apply poly_canon.
    assert (D : i = ssprk5_4 \/ i <> ssprk5_4) by (destruct i; auto; right; discriminate).
    destruct D as [->|D]; [right|left; exact D]. split; [reflexivity|]. eapply ssprk_all_main; eassumption. }
  rewrite E. apply ref_poly_ok.
Qed.

Definition opt_top {I} (A : (I -> R) -> I -> R) dt (f : I -> R) (x : I) (n : nat) := Rabs (dt ^ n * iterate A n f x).

Lemma INR_fact_pos : forall n, INR (fact n) <> 0.
Proof. apply INR_fact_neq_0. Qed.

Fixpoint taylor_from {I} (A : (I -> R) -> I -> R) (dt : R) (f : I -> R) (n p : nat) (x : I) : R :=
  match p with O => 0 | S p => dt ^ n / INR (fact n) * iterate A n f x + taylor_from A dt f (S n) p x end.
Fixpoint size_from {I} (A : (I -> R) -> I -> R) (dt : R) (f : I -> R) (n p : nat) (x : I) : R :=
  match p with O => 0 | S p => Rabs (dt ^ n * iterate A n f x) + size_from A dt f (S n) p x end.
Lemma taylor_from_snoc : forall I A dt (f : I -> R) p n x,
  taylor_from A dt f n (S p) x = taylor_from A dt f n p x + dt ^ (n + p) / INR (fact (n + p)) * iterate A (n + p) f x.
Proof.
  induction p as [|p IH]; intros n x.
  - cbn [taylor_from]. rewrite Nat.add_0_r. ring.
  - change (taylor_from A dt f n (S (S p)) x) with (dt ^ n / INR (fact n) * iterate A n f x + taylor_from A dt f (S n) (S p) x).
    rewrite IH. replace (S n + p)%nat with (n + S p)%nat by lia. cbn [taylor_from]. ring.
Qed.
Lemma size_from_snoc : forall I A dt (f : I -> R) p n x,
  size_from A dt f n (S p) x = size_from A dt f n p x + Rabs (dt ^ (n + p) * iterate A (n + p) f x).
Proof.
  induction p as [|p IH]; intros n x.
  - cbn [size_from]. rewrite Nat.add_0_r. ring.
  - change (size_from A dt f n (S (S p)) x) with (Rabs (dt ^ n * iterate A n f x) + size_from A dt f (S n) (S p) x).
    rewrite IH. replace (S n + p)%nat with (n + S p)%nat by lia. cbn [size_from]. ring.
Qed.
Lemma taylor_from_taylor : forall I A dt (f : I -> R) p x, taylor A dt p f x = taylor_from A dt f 0 (S p) x.
Proof.
  induction p as [|p IH]; intros x.
  - cbn. field.
  - cbn [taylor]. rewrite IH. rewrite (taylor_from_snoc I A dt f (S p) 0 x). reflexivity.
Qed.
Lemma size_from_size : forall I A dt (f : I -> R) p x, power_size A dt p f x = size_from A dt f 0 (S p) x.
Proof.
  induction p as [|p IH]; intros x.
  - cbn. rewrite Rmult_1_l. ring.
  - cbn [power_size]. rewrite IH. rewrite (size_from_snoc I A dt f (S p) 0 x). reflexivity.
Qed.

Lemma close_poly_bound : forall I A dt (f : I -> R) x e top p c n fp,
  close_poly e top c (fact_coeffs n fp p) = true -> INR (fact n) = IPR fp -> 0 <= Q2R e -> 0 <= Q2R top ->
  Rabs (evalp A dt f n c x - taylor_from A dt f n p x)
  <= Q2R e * size_from A dt f n p x + Q2R top * Rabs (dt ^ (n + p) * iterate A (n + p) f x).
Proof.
  induction p as [|p IH]; intros c n fp H Hf He Ht.
  - destruct c as [|q [|q' c]]; cbn [fact_coeffs close_poly] in H; try discriminate.
    + cbn [evalp taylor_from size_from]. rewrite Rminus_0_r, Rabs_R0.
      pose proof (Rabs_pos (dt ^ (n + 0) * iterate A (n + 0) f x)). nra.
    + cbn [evalp taylor_from size_from]. rewrite Nat.add_0_r, Rminus_0_r, Rplus_0_r, Rabs_mult, Rmult_0_r, Rplus_0_l.
      apply Rmult_le_compat_r; [apply Rabs_pos|].
      apply Qle_bool_iff in H. apply Qabs_Qle_condition in H. destruct H as [H1 H2].
      apply Qle_Rle in H1, H2. rewrite Q2R_opp in H1. apply Rabs_le. lra.
  - destruct c as [|q c]; [discriminate H|].
    cbn [fact_coeffs] in H.
    assert (H' : nearb e q (1 # fp) && close_poly e top c (fact_coeffs (S n) (fp * Pos.of_nat (S n)) p) = true)
      by (destruct c; exact H).
    apply andb_true_iff in H'. destruct H' as [Hq Hc].
    specialize (IH c (S n) (fp * Pos.of_nat (S n))%positive Hc).
    cbn [evalp taylor_from size_from].
    replace (S n + p)%nat with (n + S p)%nat in IH by lia.
    assert (Hf' : INR (fact (S n)) = IPR (fp * Pos.of_nat (S n))).
    { rewrite <- INR_IPR, Pos2Nat.inj_mul, Nat2Pos.id by discriminate.
      rewrite mult_INR, INR_IPR, <- Hf, <- mult_INR. f_equal. cbn [fact]. lia. }
    specialize (IH Hf' He Ht).
    apply nearb_ok, near_R in Hq.
    assert (Hd : Q2R (1 # fp) = / INR (fact n)) by (rewrite Hf; unfold Q2R; cbn [Qnum Qden]; change (IZR (Z.pos fp)) with (IPR fp); lra).
    rewrite Hd in Hq.
    set (T := dt ^ n * iterate A n f x) in *.
    replace (Q2R q * T + evalp A dt f (S n) c x
             - (dt ^ n / INR (fact n) * iterate A n f x + taylor_from A dt f (S n) p x))
      with ((Q2R q - / INR (fact n)) * T + (evalp A dt f (S n) c x - taylor_from A dt f (S n) p x))
      by (unfold T, Rdiv; ring).
    eapply Rle_trans; [apply Rabs_triang|]. rewrite Rabs_mult.
    pose proof (Rabs_pos T). nra.
Qed.

Lemma integrator_linear : forall i o sh ml ws I t dt A S O (v v1 v2 : I -> R),
  splitting_ok i o -> stage_wghts i o sh ml = Some ws -> linear A -> no_source S -> no_orbital ws O ->
  forall x, Rabs (step i ws t dt A S O v v1 v2 x - taylor A dt (doc_order i) v x)
            <= Q2R (tol i) * power_size A dt (doc_order i) v x
               + Q2R (top_coeff i) * Rabs (dt ^ (1 + doc_order i) * iterate A (1 + doc_order i) v x).
Proof.
  intros i o sh ml ws I t dt A S O v v1 v2 Hs H HA HS HO x.
  destruct (cfg_facts i ws (all_cfg_ok i o sh ml ws Hs H)) as (Hne & Hu & _).
  rewrite step_poly, taylor_from_taylor, size_from_size by assumption.
  apply (close_poly_bound I A dt v x (tol i) (top_coeff i) (Datatypes.S (doc_order i)) (poly_of i ws) 0 1).
  - eapply all_poly_ok; eassumption.
  - cbn. reflexivity.
  - rewrite <- Q2R0. apply Qle_Rle. destruct i; vm_compute; discriminate.
  - rewrite <- Q2R0. apply Qle_Rle. destruct i; vm_compute; discriminate.
Qed.
