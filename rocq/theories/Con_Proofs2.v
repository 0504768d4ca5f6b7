(** The faces of a side, of a part of it and the finer faces on a coarse one, direction by direction. *)
From Coq Require Import Reals ZArith List Bool Lia Lra Permutation Arith.
From Verif Require Import Fv_Model Fv_Spec Fv_Proofs Fv_Proofs2 Fv_Proofs3 Con_Spec.
Import ListNotations.
Local Open Scope Z_scope.

Definition lo_ (D : dims) (d : nat) : Z := match d with 0%nat => is_ D | 1%nat => js D | _ => ks D end.
Definition hi_ (D : dims) (d : nat) : Z := match d with 0%nat => ie D | 1%nat => je D | _ => ke D end.
Definition nn (D : dims) (d : nat) : Z := match d with 0%nat => nx1 D | 1%nat => nx2 D | _ => nx3 D end.
Lemma nn_eq : forall D d, nn D d = hi_ D d - lo_ D d + 1.
Proof. intros D [|[|d]]; reflexivity. Qed.
Definition outer (fid : nat) : bool := Nat.eqb (fid mod 2) 1.
Definition sel (fid f1 f2 d : nat) : nat := match d with 0%nat => f1 | 1%nat => if Nat.ltb fid 2 then f1 else f2 | _ => f2 end.
Ltac six fid := destruct fid as [|[|[|[|[|[|fid]]]]]]; [| | | | | |exfalso; lia].
Lemma all3 : forall P : nat -> Prop, (forall d, (d < 3)%nat -> P d) <-> P 0%nat /\ P 1%nat /\ P 2%nat.
Proof. intros P. split; [intros H; repeat split; apply H; lia|]. intros (H0 & H1 & H2) [|[|[|d]]] Hd; assumption || lia. Qed.
Lemma in_grid3 : forall (f : Z -> Z -> fpos) xs ys p, In p (flat_map (fun x => map (fun y => f x y) ys) xs) <-> exists x y, In x xs /\ In y ys /\ p = f x y.
Proof.
  intros f xs ys p. rewrite in_flat_map. split.
  - intros (x & Hx & H). apply in_map_iff in H as (y & E & Hy). exists x, y. split; [exact Hx|]. split; [exact Hy|symmetry; exact E].
  - intros (x & y & Hx & Hy & E). exists x. split; [exact Hx|]. apply in_map_iff. exists y. split; [symmetry; exact E|exact Hy].
Qed.
Lemma in_side : forall D fid p, (fid < 6)%nat -> (In p (side D fid) <-> forall d, (d < 3)%nat -> if Nat.eqb d (fid / 2) then index p d = (if outer fid then hi_ D d + 1 else lo_ D d) else lo_ D d <= index p d <= hi_ D d).
Proof.
  intros D fid [[k j] i] Hf. rewrite all3. six fid; unfold side; cbn [Nat.ltb Nat.leb Nat.eqb]; rewrite in_grid3; cbn [Nat.div Nat.divmod fst Nat.eqb outer Nat.modulo snd Nat.sub index lo_ hi_]; unfold outer; cbn [Nat.modulo Nat.divmod snd Nat.sub Nat.eqb]; (split;
    [intros (x & y & Hx & Hy & E); apply in_upto in Hx, Hy; injection E as -> -> ->; repeat split; lia
    |intros (H0 & H1 & H2)]).
  1,2: exists k, j; rewrite !in_upto; repeat split; try lia; f_equal; lia.
  1,2: exists k, i; rewrite !in_upto; repeat split; try lia; f_equal; f_equal; lia.
  1,2: exists j, i; rewrite !in_upto; repeat split; try lia; f_equal; f_equal; lia.
Qed.
Lemma in_slots : forall D fid f1 f2 p, (fid < 6)%nat -> (In p (slots D fid f1 f2) <-> forall d, (d < 3)%nat -> if Nat.eqb d (fid / 2) then index p d = (if outer fid then hi_ D d + 1 else lo_ D d)
  else fst (half (lo_ D d) (hi_ D d) (nn D d) (sel fid f1 f2 d)) <= index p d <= snd (half (lo_ D d) (hi_ D d) (nn D d) (sel fid f1 f2 d))).
Proof.
  intros D fid f1 f2 [[k j] i] Hf. rewrite all3. six fid; unfold slots; cbn [Nat.ltb Nat.leb Nat.eqb]; rewrite !let_half, in_grid3; cbn [Nat.div Nat.divmod fst Nat.eqb index lo_ hi_ nn sel Nat.ltb Nat.leb]; unfold outer, odd_; cbn [Nat.modulo Nat.divmod snd Nat.sub Nat.eqb Z.of_nat Pos.of_succ_nat];
   (split; [intros (x & y & Hx & Hy & E); apply in_upto in Hx, Hy; injection E as -> -> ->; repeat split; lia|intros (H0 & H1 & H2)]).
  1,2: exists k, j; rewrite !in_upto; repeat split; try lia; f_equal; lia.
  1,2: exists k, i; rewrite !in_upto; repeat split; try lia; f_equal; f_equal; lia.
  1,2: exists j, i; rewrite !in_upto; repeat split; try lia; f_equal; f_equal; lia.
Qed.
Definition both' (o n a b x : Z) (fi : nat) : list Z := if Z.ltb 1 n then let q := o + 2 * (x - fst (half a b n fi)) in [q; q + 1] else [o].
Lemma in_both' : forall o n a b x fi y, In y (both' o n a b x fi) <-> if Z.ltb 1 n then (let q := o + 2 * (x - fst (half a b n fi)) in q <= y <= q + 1) else y = o.
Proof. intros o n a b x fi y. unfold both'. destruct (Z.ltb 1 n); cbn [In]; lia. Qed.
Lemma nodup_both' : forall o n a b x fi, NoDup (both' o n a b x fi).
Proof. intros. unfold both'. destruct (Z.ltb 1 n); repeat constructor; cbn [In]; lia. Qed.
Lemma both'_ne : forall o n a b x fi, both' o n a b x fi <> [].
Proof. intros. unfold both'. destruct (Z.ltb 1 n); discriminate. Qed.
Lemma nodup_grid3 : forall (f : Z -> Z -> fpos) xs ys, (forall x y x' y', f x y = f x' y' -> x = x' /\ y = y') -> NoDup xs -> NoDup ys -> NoDup (flat_map (fun x => map (fun y => f x y) ys) xs).
Proof.
  intros f xs ys Hf NX NY. induction NX as [|x xs Hx NX IH]; [constructor|]. cbn [flat_map].
  assert (NA : forall (l1 l2 : list fpos), NoDup l1 -> NoDup l2 -> (forall p, In p l1 -> ~ In p l2) -> NoDup (l1 ++ l2)).
  { intros l1. induction l1 as [|a l1 IH1]; intros l2 N1 N2 Hd; [exact N2|]. apply NoDup_cons_iff in N1 as [M1 M2]. cbn [app]. constructor.
    - rewrite in_app_iff. intros [H|H]; [contradiction|]. apply (Hd a); [left; reflexivity|exact H].
    - apply IH1; [exact M2|exact N2|]. intros p Hp. apply Hd. right. exact Hp. }
  apply NA; [|exact IH|].
  - clear -NY Hf. induction NY as [|y ys Hy NY IH]; [constructor|]. cbn [map]. constructor; [|exact IH]. intros H. apply in_map_iff in H as (y' & E & H). apply Hf in E as [_ ->]. contradiction.
  - intros p Hp Hq. apply in_map_iff in Hp as (y & <- & _). apply in_grid3 in Hq as (x' & y' & Hx' & _ & E). apply Hf in E as [-> _]. contradiction.
Qed.
Lemma grid3_ne : forall (f : Z -> Z -> fpos) xs ys, xs <> [] -> ys <> [] -> flat_map (fun x => map (fun y => f x y) ys) xs <> [].
Proof. intros f [|x xs] [|y ys] H1 H2; try contradiction; try (exfalso; (apply H1 || apply H2); reflexivity). discriminate. Qed.
Lemma fine_eq : forall D fid f1 f2 k j i, fine_faces D D fid f1 f2 (k, j, i) =
  let I := if outer (opposite fid) then ie D + 1 else is_ D in let J := if outer (opposite fid) then je D + 1 else js D in let K := if outer (opposite fid) then ke D + 1 else ks D in
  if Nat.ltb fid 2 then flat_map (fun k' => map (fun j' => (k', j', I)) (both' (js D) (nx2 D) (js D) (je D) j f1)) (both' (ks D) (nx3 D) (ks D) (ke D) k f2)
  else if Nat.ltb fid 4 then flat_map (fun k' => map (fun i' => (k', J, i')) (both' (is_ D) (nx1 D) (is_ D) (ie D) i f1)) (both' (ks D) (nx3 D) (ks D) (ke D) k f2)
  else flat_map (fun j' => map (fun i' => (K, j', i')) (both' (is_ D) (nx1 D) (is_ D) (ie D) i f1)) (both' (js D) (nx2 D) (js D) (je D) j f2).
Proof.
  intros D fid f1 f2 k j i. unfold fine_faces, outer. assert (H : (opposite fid mod 2 < 2)%nat) by (apply Nat.mod_upper_bound; lia). destruct (opposite fid mod 2)%nat as [|[|n]]; [reflexivity|reflexivity|lia].
Qed.
Lemma in_fine : forall D fid f1 f2 p q, (fid < 6)%nat -> (In q (fine_faces D D fid f1 f2 p) <-> forall d, (d < 3)%nat -> if Nat.eqb d (fid / 2) then index q d = (if outer fid then lo_ D d else hi_ D d + 1)
  else if Z.ltb 1 (nn D d) then (let y := lo_ D d + 2 * (index p d - fst (half (lo_ D d) (hi_ D d) (nn D d) (sel fid f1 f2 d))) in y <= index q d <= y + 1) else index q d = lo_ D d).
Proof.
  intros D fid f1 f2 [[k j] i] [[k' j'] i'] Hf. rewrite all3, fine_eq. six fid; cbn [Nat.ltb Nat.leb]; cbv zeta; rewrite in_grid3; cbn [Nat.div Nat.divmod fst Nat.eqb index lo_ hi_ nn sel Nat.ltb Nat.leb]; unfold outer, opposite; cbn [Nat.modulo Nat.divmod snd Nat.sub Nat.eqb Nat.pred];
   (split; [intros (x & y & Hx & Hy & E); apply in_both' in Hx, Hy; injection E as -> -> ->; repeat split; assumption|intros (H0 & H1 & H2)]).
  1,2: exists k', j'; rewrite !in_both'; repeat split; try assumption; f_equal; assumption.
  1,2: exists k', i'; rewrite !in_both'; repeat split; try assumption; f_equal; f_equal; assumption.
  1,2: exists j', i'; rewrite !in_both'; repeat split; try assumption; f_equal; f_equal; assumption.
Qed.
Lemma fine_nodup : forall D fid f1 f2 p, (fid < 6)%nat -> NoDup (fine_faces D D fid f1 f2 p) /\ fine_faces D D fid f1 f2 p <> [].
Proof.
  intros D fid f1 f2 [[k j] i] Hf. rewrite fine_eq. six fid; cbn [Nat.ltb Nat.leb]; cbv zeta; (split; [apply nodup_grid3; [intros x y x' y' E; injection E; auto|apply nodup_both'|apply nodup_both']|apply grid3_ne; apply both'_ne]).
Qed.
(** The same side seen from the other block. *)
Definition flip (D : dims) (fid : nat) (p : fpos) : fpos := let '(k, j, i) := p in
  if Nat.ltb fid 2 then (k, j, if outer fid then is_ D else ie D + 1) else if Nat.ltb fid 4 then (k, (if outer fid then js D else je D + 1), i) else ((if outer fid then ks D else ke D + 1), j, i).
Lemma side_flip : forall D fid, (fid < 6)%nat -> side D (opposite fid) = map (flip D fid) (side D fid).
Proof.
  intros D fid Hf. assert (MF : forall (X Y T : Type) (f : Y -> T) (h : X -> list Y) l, map f (flat_map h l) = flat_map (fun x => map f (h x)) l) by (intros X Y T f h l; induction l as [|x l IH]; [reflexivity|]; cbn [flat_map]; rewrite map_app, IH; reflexivity).
  six fid; unfold side; cbn [opposite Nat.modulo Nat.divmod snd Nat.sub Nat.eqb Nat.pred Nat.ltb Nat.leb]; rewrite MF; apply flat_map_ext; intros x; rewrite map_map; apply map_ext; intros y; reflexivity.
Qed.
Lemma index_flip : forall D fid p d, (fid < 6)%nat -> (d < 3)%nat -> index (flip D fid p) d = if Nat.eqb d (fid / 2) then (if outer fid then lo_ D d else hi_ D d + 1) else index p d.
Proof. intros D fid [[k j] i] d Hf Hd. six fid; do 3 (destruct d as [|d]; [reflexivity|]); lia. Qed.
Lemma area_areas : forall G fid p, (fid < 6)%nat -> area G (fid / 2) p = at_ (areas fid G) p.
Proof. intros G fid p Hf. six fid; reflexivity. Qed.
Lemma flux_comp : forall F fid p, (fid < 6)%nat -> flux F (fid / 2) p = at_ (comp fid F) p.
Proof. intros F fid p Hf. six fid; reflexivity. Qed.

Local Open Scope R_scope.
(** What crosses a side, in a block and in its neighbour of the same level. *)
Lemma opposite_flow : forall D Ga Gb Fa Fb fid, (fid < 6)%nat -> (forall p, In p (side D fid) -> area Ga (fid / 2) p = area Gb (fid / 2) (flip D fid p) /\ flux Fa (fid / 2) p = flux Fb (fid / 2) (flip D fid p)) ->
  patch_flow D Gb Fb (Whole (opposite fid)) = - patch_flow D Ga Fa (Whole fid).
Proof.
  intros D Ga Gb Fa Fb fid Hf H. unfold patch_flow. rewrite !flow_at, opp_sign, opp_areas, opp_comp by exact Hf. rewrite side_flip by exact Hf. rewrite map_map.
  replace (sum (map (fun x => at_ (areas fid Gb) (flip D fid x) * at_ (comp fid Fb) (flip D fid x)) (side D fid))) with (sum (map (fun p => at_ (areas fid Ga) p * at_ (comp fid Fa) p) (side D fid))); [ring|].
  apply sum_ext. intros p Hp. destruct (H p Hp) as [H1 H2]. rewrite !area_areas in H1 by exact Hf. rewrite !flux_comp in H2 by exact Hf. rewrite H1, H2. reflexivity.
Qed.
Definition good_corr (D : dims) (c : correction) : Prop := same_size D (c_d c) /\ In (c_fid c) (sides D) /\ In (Part (c_fid c) (c_fi1 c) (c_fi2 c)) (parts D (c_fid c)).
(** Corrections on other sides do not change a side. *)
Lemma keep_side : forall D G fid, nonempty D -> Z.even (nx1 D) = true -> dir_ok (nx2 D) -> dir_ok (nx3 D) -> In fid (sides D) -> forall cs f, (forall c, In c cs -> good_corr D c /\ c_fid c <> fid) ->
  patch_flow D G (fold_left (correct D) cs f) (Whole fid) = patch_flow D G f (Whole fid).
Proof.
  intros D G fid N D1 D2 D3 Hf cs. induction cs as [|c cs IH]; intros f H; [reflexivity|]. cbn [fold_left]. rewrite IH by (intros x Hx; apply H; right; exact Hx).
  destruct (H c (or_introl eq_refl)) as [(S & I & P) Hne]. rewrite <- !parts_whole by assumption. apply sum_ext. intros p Hp.
  assert (Ep : exists f1 f2, p = Part fid f1 f2). { unfold parts in Hp. destruct (Z.ltb 1 (nx2 D)), (Z.ltb 1 (nx3 D)); cbn [In] in Hp; decompose [or] Hp; try contradiction; eexists; eexists; symmetry; eassumption. }
  destruct Ep as (f1 & f2 & ->). unfold correct. apply set_other; try assumption. intros E. injection E as E _ _. contradiction.
Qed.
(** The buffer depends on the fluxes of its side only. *)
Lemma evens_in : forall a b x, (a <= b)%Z -> Z.even (b - a + 1) = true -> In x (evens a b) -> (a <= x)%Z /\ (x + 1 <= b)%Z.
Proof.
  intros a b x H E Hx. unfold evens in Hx. apply in_map_iff in Hx as (n & <- & Hn). apply in_seq in Hn. apply Z.even_spec in E as [q E]. assert (Eq : ((b - a + 2) / 2 = q)%Z) by (replace (b - a + 2)%Z with (1 + q * 2)%Z by lia; rewrite Z.div_add by lia; reflexivity). rewrite Eq in Hn. lia.
Qed.
Lemma load_ext : forall D G f f' fid, nonempty D -> Z.even (nx1 D) = true -> dir_ok (nx2 D) -> dir_ok (nx3 D) -> In fid (sides D) -> (forall p, In p (side D fid) -> at_ (comp fid f) p = at_ (comp fid f') p) -> LoadFlux D G f fid = LoadFlux D G f' fid.
Proof.
  intros D G f f' fid [(N1 & N2 & N3) ND] E1 E2 E3 Hf H. pose proof (sides_lt D fid Hf) as L6. assert (ES : forall k j i, In (k, j, i) (side D fid) -> comp fid f k j i = comp fid f' k j i) by (intros k j i Hp; apply (H (k, j, i) Hp)). clear H.
  assert (ES2 : forall k j i, (forall d, (d < 3)%nat -> if Nat.eqb d (fid / 2) then index (k, j, i) d = (if outer fid then hi_ D d + 1 else lo_ D d)%Z else (lo_ D d <= index (k, j, i) d <= hi_ D d)%Z) -> comp fid f k j i = comp fid f' k j i) by (intros k j i Hp; apply ES, in_side; assumption). clear ES.
  assert (e2 : forall x, (1 < nx2 D)%Z -> In x (evens (js D) (je D)) -> (js D <= x)%Z /\ (x + 1 <= je D)%Z) by (intros x X1 X2; apply (evens_in _ _ _ N2); [destruct E2 as [E2|E2]; [exact E2|lia]|exact X2]).
  assert (e3 : forall x, (1 < nx3 D)%Z -> In x (evens (ks D) (ke D)) -> (ks D <= x)%Z /\ (x + 1 <= ke D)%Z) by (intros x X1 X2; apply (evens_in _ _ _ N3); [destruct E3 as [E3|E3]; [exact E3|lia]|exact X2]).
  assert (e1 : forall x, In x (evens (is_ D) (ie D)) -> (is_ D <= x)%Z /\ (x + 1 <= ie D)%Z) by (intros x X2; apply (evens_in _ _ _ N1 E1 X2)).
  assert (FM : forall (X Y : Type) (h h' : X -> list Y) l, (forall x, In x l -> h x = h' x) -> flat_map h l = flat_map h' l) by (intros X Y h h' l; induction l as [|x l IH]; intros Hh; [reflexivity|]; cbn [flat_map]; rewrite (Hh x (or_introl eq_refl)), IH by (intros y Hy; apply Hh; right; exact Hy); reflexivity).
  assert (H32 : (1 < nx3 D)%Z -> (1 < nx2 D)%Z) by (intros X; destruct (Z.eq_dec (nx2 D) 1) as [Y|Y]; [specialize (ND Y); lia|unfold nx2 in *; lia]).
  unfold LoadFlux. destruct (Nat.ltb_spec fid 2) as [F2|F2]; [|destruct (Nat.ltb_spec fid 4) as [F4|F4]].
  - assert (EQ : forall k j, (ks D <= k <= ke D)%Z -> (js D <= j <= je D)%Z -> x1 f k j (is_ D + (ie D - is_ D + 1) * odd_ fid)%Z = x1 f' k j (is_ D + (ie D - is_ D + 1) * odd_ fid)%Z).
    { intros k j Hk Hj. assert (X : comp fid f k j (is_ D + (ie D - is_ D + 1) * odd_ fid)%Z = comp fid f' k j (is_ D + (ie D - is_ D + 1) * odd_ fid)%Z). { apply ES2. apply all3. destruct fid as [|[|fid]]; [| |lia]; unfold odd_, outer; cbn [Nat.div Nat.divmod fst Nat.eqb index lo_ hi_ Nat.modulo snd Nat.sub Z.of_nat Pos.of_succ_nat]; repeat split; lia. }
      unfold comp in X. rewrite (proj2 (Nat.ltb_lt _ _) F2) in X. exact X. }
    cbv zeta. destruct (Z.ltb_spec 1 (nx3 D)) as [L3|L3]; [|destruct (Z.ltb_spec 1 (nx2 D)) as [L2|L2]].
    + apply FM. intros k Hk. apply map_ext_in. intros j Hj. specialize (e3 k L3 Hk). specialize (e2 j (H32 L3) Hj). rewrite !EQ by lia. reflexivity.
    + apply map_ext_in. intros j Hj. specialize (e2 j L2 Hj). rewrite !EQ by lia. reflexivity.
    + rewrite EQ by lia. reflexivity.
  - assert (L2 : (1 < nx2 D)%Z). { unfold sides in Hf. destruct (Z.ltb_spec 1 (nx2 D)); [assumption|]. destruct (Z.ltb_spec 1 (nx3 D)); [apply H32; assumption|]. cbn [app In] in Hf. lia. }
    assert (EQ : forall k i, (ks D <= k <= ke D)%Z -> (is_ D <= i <= ie D)%Z -> x2 f k (js D + (je D - js D + 1) * odd_ fid)%Z i = x2 f' k (js D + (je D - js D + 1) * odd_ fid)%Z i).
    { intros k i Hk Hi. assert (X : comp fid f k (js D + (je D - js D + 1) * odd_ fid)%Z i = comp fid f' k (js D + (je D - js D + 1) * odd_ fid)%Z i). { apply ES2. apply all3. destruct fid as [|[|[|[|fid]]]]; try lia; unfold odd_, outer; cbn [Nat.div Nat.divmod fst Nat.eqb index lo_ hi_ Nat.modulo snd Nat.sub Z.of_nat Pos.of_succ_nat]; repeat split; lia. }
      unfold comp in X. rewrite (proj2 (Nat.ltb_ge _ _) F2), (proj2 (Nat.ltb_lt _ _) F4) in X. exact X. }
    cbv zeta. destruct (Z.ltb_spec 1 (nx3 D)) as [L3|L3]; [|rewrite (proj2 (Z.ltb_lt _ _) L2)].
    + apply FM. intros k Hk. apply map_ext_in. intros i Hi. specialize (e3 k L3 Hk). specialize (e1 i Hi). rewrite !EQ by lia. reflexivity.
    + apply map_ext_in. intros i Hi. specialize (e1 i Hi). rewrite !EQ by lia. reflexivity.
  - assert (L3 : (1 < nx3 D)%Z). { unfold sides in Hf. destruct (Z.ltb_spec 1 (nx3 D)); [assumption|]. destruct (Z.ltb_spec 1 (nx2 D)); cbn [app In] in Hf; lia. }
    assert (EQ : forall j i, (js D <= j <= je D)%Z -> (is_ D <= i <= ie D)%Z -> x3 f (ks D + (ke D - ks D + 1) * odd_ fid)%Z j i = x3 f' (ks D + (ke D - ks D + 1) * odd_ fid)%Z j i).
    { intros j i Hj Hi. assert (X : comp fid f (ks D + (ke D - ks D + 1) * odd_ fid)%Z j i = comp fid f' (ks D + (ke D - ks D + 1) * odd_ fid)%Z j i). { apply ES2. apply all3. destruct fid as [|[|[|[|[|[|fid]]]]]]; try lia; unfold odd_, outer; cbn [Nat.div Nat.divmod fst Nat.eqb index lo_ hi_ Nat.modulo snd Nat.sub Z.of_nat Pos.of_succ_nat]; repeat split; lia. }
      unfold comp in X. rewrite (proj2 (Nat.ltb_ge _ _) F2), (proj2 (Nat.ltb_ge _ _) F4) in X. exact X. }
    cbv zeta. apply FM. intros j Hj. apply map_ext_in. intros i Hi. specialize (e2 j (H32 L3) Hj). specialize (e1 i Hi). rewrite !EQ by lia. reflexivity.
Qed.
(** Corrections on other sides leave the fluxes of a side alone. *)
Lemma keep_values : forall D (G : geom) fid p, nonempty D -> Z.even (nx1 D) = true -> dir_ok (nx2 D) -> dir_ok (nx3 D) -> In fid (sides D) -> In p (side D fid) -> forall cs f, (forall c, In c cs -> good_corr D c /\ c_fid c <> fid) ->
  at_ (comp fid (fold_left (correct D) cs f)) p = at_ (comp fid f) p.
Proof.
  intros D G fid p N D1 D2 D3 Hf Hp cs. induction cs as [|c cs IH]; intros f H; [reflexivity|]. cbn [fold_left]. rewrite IH by (intros x Hx; apply H; right; exact Hx).
  destruct (H c (or_introl eq_refl)) as [(S & I & P) Hne]. unfold correct. destruct (corrected_all D (c_d c) G (c_g c) f (c_f c) (c_fid c) (c_fi1 c) (c_fi2 c) N S D1 D2 D3 I P) as (_ & U & _).
  pose proof (sides_lt D fid Hf) as L6. pose proof (sides_lt D _ I) as L6'. destruct (Nat.eq_dec (c_fid c / 2) (fid / 2)) as [Eh|Eh].
  - assert (Ec : comp (c_fid c) = comp fid) by (revert Eh L6 L6'; generalize (c_fid c); intros x Eh Lx Lx'; destruct x as [|[|[|[|[|[|x]]]]]]; try lia; destruct fid as [|[|[|[|[|[|fid]]]]]]; try lia; cbn in Eh; try lia; reflexivity).
    rewrite <- Ec. apply U. intros Hs. pose proof (proj1 (in_side D fid p L6) Hp (fid / 2)%nat) as A. pose proof (proj1 (in_slots D (c_fid c) (c_fi1 c) (c_fi2 c) p L6') Hs (fid / 2)%nat) as B. rewrite Eh, Nat.eqb_refl in B. rewrite Nat.eqb_refl in A.
    assert (Hd : (fid / 2 < 3)%nat) by (apply Nat.div_lt_upper_bound; lia). specialize (A Hd). specialize (B Hd). assert (Ho : outer (c_fid c) <> outer fid).
    { clear -Eh Hne L6 L6'. revert Eh L6' Hne. generalize (c_fid c). intros x Eh Lx Hne. destruct x as [|[|[|[|[|[|x]]]]]]; try lia; destruct fid as [|[|[|[|[|[|fid]]]]]]; try lia; cbn in Eh; try lia; discriminate. }
    destruct N as [(M1 & M2 & M3) _]. assert (Hlh : (lo_ D (fid / 2) <= hi_ D (fid / 2))%Z) by (destruct (fid / 2)%nat as [|[|n]]; cbn [lo_ hi_]; assumption). destruct (outer (c_fid c)), (outer fid); try lia; contradiction Ho; reflexivity.
  - f_equal. clear -Eh L6 L6'. unfold SetFlux. revert Eh L6'. generalize (c_fid c). intros x Eh Lx. destruct x as [|[|[|[|[|[|x]]]]]]; try lia; destruct fid as [|[|[|[|[|[|fid]]]]]]; try lia; cbn in Eh; try lia; reflexivity.
Qed.
