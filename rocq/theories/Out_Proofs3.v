(** Proofs for C84: history files. *)
From Coq Require Import Reals ZArith List Bool Lra Lia Arith.
Import ListNotations.
From Verif Require Import Fv_Model Pos_Model Met_Model Src_Model Src_Spec Lud_Spec Lud_Proofs Tor_Spec Tor_Proofs Res_Spec Src_Proofs Src_Proofs3 Out_Model Out_Spec Out_Proofs.
Local Open Scope R_scope.

Lemma sum_app {A} (f : A -> R) l m : sum_list f (l ++ m) = sum_list f l + sum_list f m.
Proof. induction l; cbn [sum_list fold_right app]; [unfold sum_list; cbn; lra|]. fold (sum_list f (l ++ m)) (sum_list f l). rewrite IHl. ring. Qed.
Lemma sum_map {A B} (f : B -> R) (g : A -> B) l : sum_list f (map g l) = sum_list (fun x => f (g x)) l.
Proof. induction l; cbn [sum_list fold_right map]; [reflexivity|]. fold (sum_list f (map g l)) (sum_list (fun x => f (g x)) l). rewrite IHl. reflexivity. Qed.
Lemma sum_flat {A B} (f : B -> R) (g : A -> list B) l : sum_list f (flat_map g l) = sum_list (fun x => sum_list f (g x)) l.
Proof. induction l; [reflexivity|]. cbn [flat_map]. rewrite sum_app, IHl. reflexivity. Qed.
Lemma sum_ext_list {A} (f g : A -> R) l : (forall x, In x l -> f x = g x) -> sum_list f l = sum_list g l.
Proof. induction l; intros H; [reflexivity|]. cbn [sum_list fold_right]. fold (sum_list f l) (sum_list g l). rewrite (H a) by (left; auto). rewrite IHl by (intros; apply H; right; auto). reflexivity. Qed.
Lemma sum_none {A} (f : A -> R) l : (forall x, In x l -> f x = 0) -> sum_list f l = 0.
Proof. induction l; intros H; [reflexivity|]. cbn [sum_list fold_right]. fold (sum_list f l). rewrite (H a) by (left; auto). rewrite IHl by (intros; apply H; right; auto). ring. Qed.
Lemma sum_seq f n : sum_list f (seq 0 n) = total n f.
Proof. induction n; [reflexivity|]. rewrite seq_S, sum_app, IHn. cbn [sum_list fold_right total Nat.add]. ring. Qed.
Lemma sum_zrange f lo hi : sum_list f (zrange lo hi) = zsum lo hi f.
Proof. unfold zrange, zsum. rewrite sum_map, sum_seq. reflexivity. Qed.
Lemma sum_cells f b : sum_list (fun x => fst x * f (snd x)) (cells_of b) = block_integral f b.
Proof.
  unfold cells_of, block_integral. rewrite sum_flat, sum_zrange. apply zsum_ext. intros k _. rewrite sum_flat, sum_zrange. apply zsum_ext. intros j _. rewrite sum_map, sum_zrange. reflexivity.
Qed.

(** ** Columns *)
Definition col (p : nat) (ws : list (nat * R)) : R := sum_list (fun w => if Nat.eqb p (fst w) then snd w else 0) ws.
Lemma fold_add ws : forall h p, fold_left add_at ws h p = h p + col p ws.
Proof.
  induction ws as [|w ws IH]; intros h p; cbn [fold_left]; [unfold col; cbn; ring|]. rewrite IH. unfold add_at at 1, col. cbn [sum_list fold_right]. fold (sum_list (fun w => if Nat.eqb p (fst w) then snd w else 0) ws). destruct (Nat.eqb p (fst w)); ring.
Qed.
(** The configurations for which the code writes at all. *)
Definition writable (c : config) : Prop := match rad c with Some nf => nf = 1%nat \/ (4 * nf <= 14)%nat | None => True end.
Definition ws_of (c : config) (x : R * hcell) : list (nat * R) := match writes c (fst x) (snd x) with Some ws => ws | None => [] end.
Lemma writes_some c vol h : writable c -> writes c vol h = Some (ws_of c (vol, h)).
Proof.
  intros W. unfold ws_of. cbn [fst snd]. unfold writes, NRAD, writable in *. destruct (rad c) as [nf|]; [|reflexivity]. destruct (Nat.eqb nf 1) eqn:E; [reflexivity|].
  apply Nat.eqb_neq in E. destruct (Nat.ltb_spec 14 (4 * nf)); [lia|reflexivity].
Qed.
Lemma rank_col c bs : writable c -> exists h, rank_data c bs = Some h /\ forall p, h p = sum_list (fun x => col p (ws_of c x)) (flat_map cells_of bs).
Proof.
  intros W. unfold rank_data. assert (G : forall l h0, exists h, fold_left (add_cell c) l (Some h0) = Some h /\ forall p, h p = h0 p + sum_list (fun x => col p (ws_of c x)) l).
  { induction l as [|[vol x] l IH]; intros h0; cbn [fold_left]. - exists h0. split; [reflexivity|]. intros. unfold sum_list. cbn. ring.
    - unfold add_cell at 2. cbn [fst snd]. rewrite writes_some by auto. destruct (IH (fold_left add_at (ws_of c (vol, x)) h0)) as (h & E & H). exists h. split; [auto|]. intros p. rewrite H, fold_add. cbn [sum_list fold_right]. fold (sum_list (fun x => col p (ws_of c x)) l). ring. }
  destruct (G (flat_map cells_of bs) (fun _ => 0)) as (h & E & H). exists h. split; [auto|]. intros p. rewrite H. ring.
Qed.
Lemma reduce_col c ranks : writable c -> exists h, reduce_sum c ranks = Some h /\ forall p, h p = sum_list (fun bs => sum_list (fun b => sum_list (fun x => col p (ws_of c x)) (cells_of b)) bs) ranks.
Proof.
  intros W. induction ranks as [|bs ranks IH]; cbn [reduce_sum fold_right]. - eexists. split; [reflexivity|]. intros; reflexivity.
  - destruct IH as (a & E & A). unfold reduce_sum in E. rewrite E. destruct (rank_col c bs W) as (h & E' & H). rewrite E'. eexists. split; [reflexivity|]. intros p. cbv beta. rewrite H, A, sum_flat. reflexivity.
Qed.

(** Sections of consecutive columns. *)
Definition sections := list (nat * (nat -> R) * (nat -> label)).
Definition sec (base len : nat) (g : nat -> R) : list (nat * R) := map (fun n => ((base + n)%nat, g n)) (seq 0 len).
Fixpoint lay (base : nat) (ss : sections) : list (nat * R) := match ss with [] => [] | (len, g, _) :: ss => sec base len g ++ lay (base + len) ss end.
Fixpoint labs (ss : sections) : list label := match ss with [] => [] | (len, _, L) :: ss => map L (seq 0 len) ++ labs ss end.
Lemma col_app p l m : col p (l ++ m) = col p l + col p m.
Proof. apply sum_app. Qed.
Lemma col_miss p ws : (forall w, In w ws -> fst w <> p) -> col p ws = 0.
Proof.
  unfold col. induction ws as [|w ws IH]; intros H; [reflexivity|]. cbn [sum_list fold_right]. fold (sum_list (fun w => if Nat.eqb p (fst w) then snd w else 0) ws). rewrite IH by (intros; apply H; right; auto).
  destruct (Nat.eqb_spec p (fst w)) as [E|E]; [exfalso; apply (H w); [left|]; auto|ring].
Qed.
Lemma sec_hit base len g n : (n < len)%nat -> col (base + n) (sec base len g) = g n.
Proof.
  intros L. unfold sec, col. rewrite sum_map. cbn [fst snd]. rewrite sum_seq. replace len with (n + S (len - n - 1))%nat by lia.
  assert (Z0 : forall m, (m <= n)%nat -> total m (fun x => if Nat.eqb (base + n) (base + x) then g x else 0) = 0). { intros m Hm. apply total_zero. intros k Hk. destruct (Nat.eqb_spec (base + n) (base + k)); [lia|auto]. }
  induction (len - n - 1)%nat as [|m IH].
  - rewrite Nat.add_1_r. cbn [total]. rewrite Z0 by lia. rewrite Nat.eqb_refl. ring.
  - replace (n + S (S m))%nat with (S (n + S m)) by lia. cbn [total]. rewrite IH. destruct (Nat.eqb_spec (base + n) (base + (n + S m))); [lia|ring].
Qed.
Lemma sec_in base len g w : In w (sec base len g) -> (base <= fst w < base + len)%nat.
Proof. intros H. apply in_map_iff in H. destruct H as (n & <- & H). apply in_seq in H. cbn [fst]. lia. Qed.
Lemma lay_in ss : forall base w, In w (lay base ss) -> (base <= fst w)%nat.
Proof. induction ss as [|[[len g] L] ss IH]; intros base w H; [destruct H|]. cbn [lay] in H. apply in_app_or in H. destruct H as [H|H]; [apply sec_in in H; lia|apply IH in H; lia]. Qed.
Lemma lay_col (F : label -> R) ss : forall base p l, (forall len g L, In (len, g, L) ss -> forall n, (n < len)%nat -> g n = F (L n)) -> nth_error (labs ss) p = Some l -> col (base + p) (lay base ss) = F l.
Proof.
  induction ss as [|[[len g] L] ss IH]; intros base p l H E; cbn [labs lay] in *; [destruct p; discriminate|]. rewrite col_app. destruct (Nat.lt_ge_cases p len) as [Q|Q].
  - rewrite nth_error_app1 in E by (rewrite map_length, seq_length; auto). rewrite nth_error_map, (nth_error_nth' _ 0%nat) in E by (rewrite seq_length; auto). rewrite seq_nth in E by auto. cbn in E. injection E as <-.
    rewrite sec_hit, (col_miss _ (lay _ _)) by (auto; intros w I; apply lay_in in I; lia). rewrite (H len g L (or_introl eq_refl) p Q). ring.
  - rewrite nth_error_app2 in E by (rewrite map_length, seq_length; auto). rewrite map_length, seq_length in E.
    rewrite (col_miss _ (sec _ _ _)) by (intros w I; apply sec_in in I; lia). replace (base + p)%nat with (base + len + (p - len))%nat by lia. rewrite (IH _ _ l); [ring| |auto]. intros; eapply H; [right|]; eauto.
Qed.

(** ** The columns of the code as sections *)
Definition rad14 (h : hcell) (n : nat) : R := match n with 0 => h_rad h 0 | 1 => h_rad h 1 | 2 => h_rad h 2 | 3 => h_rad h 3 | 4 => h_radcm h 0 | 5 => h_radcm h 1 | 6 => h_radcm h 2 | 7 => h_radcm h 3 | 8 => h_rad h 4 | 9 => h_rad h 7 | 10 => h_rad h 8 | 11 => h_rad h 5 | 12 => h_rad h 9 | _ => h_rad h 6 end%nat.
Definition rad14L (n : nat) : label := match n with 0 => LEr | 1 => LFr 1 | 2 => LFr 2 | 3 => LFr 3 | 4 => LEr0 | 5 => LFr0 1 | 6 => LFr0 2 | 7 => LFr0 3 | 8 => LPr 1 1 | 9 => LPr 1 2 | 10 => LPr 1 3 | 11 => LPr 2 2 | 12 => LPr 2 3 | _ => LPr 3 3 end%nat.
Definition radnuL (n : nat) : label := match Nat.modulo n 4 with 0 => LErF (n / 4) | d => LFrF (n / 4) d end%nat.
Definition base7 (vol : R) (u : cell) (n : nat) : R := match n with 0%nat => vol * c_d u | 1%nat => vol * c_1 u | 2%nat => vol * c_2 u | 3%nat => vol * c_3 u | 4%nat => vol * 0.5 * (c_1 u * c_1 u) / c_d u | 5%nat => vol * 0.5 * (c_2 u * c_2 u) / c_d u | _ => vol * 0.5 * (c_3 u * c_3 u) / c_d u end.
Definition base7L (n : nat) : label := match n with 0 => LMass | 1 => LMom 1 | 2 => LMom 2 | 3 => LMom 3 | 4 => LKE 1 | 5 => LKE 2 | _ => LKE 3 end%nat.
Definition mfL (n : nat) : label := LME (S n).
Definition crL (n : nat) : label := match n with 0 => LEc | _ => LFc n end%nat.
Definition front (c : config) (vol : R) (h : hcell) : sections :=
  [(7%nat, base7 vol (h_u h), base7L)] ++ (if nonb c then [(1%nat, fun _ => vol * c_e (h_u h), fun _ => LTotE)] else []) ++ (if grav c then [(1%nat, fun _ => vol * 0.5 * c_d (h_u h) * h_phi h, fun _ => LGravE)] else [])
  ++ (if mag c then [(3%nat, fun n => vol * 0.5 * h_b h n * h_b h n, mfL)] else []) ++ [(nscal c, fun n => vol * h_s h n, LScalar)].
Definition back (c : config) (vol : R) (h : hcell) : sections :=
  match chem c with Some nf => [(nf, fun n => vol * h_ir h n, LChemRad)] | None => [] end
  ++ match rad c with None => [] | Some nf => if Nat.eqb nf 1 then [(14%nat, fun n => vol * rad14 h n, rad14L)] else [((4 * nf)%nat, fun n => vol * h_radnu h (n / 4 * 13 + n mod 4)%nat, radnuL)] end
  ++ (if cr c then [(4%nat, fun n => vol * h_cr h n, crL)] else []).
Definition secs (c : config) (vol : R) (h : hcell) : sections := front c vol h ++ back c vol h.
Lemma lay_app ss ts : forall base, lay base (ss ++ ts) = lay base ss ++ lay (base + list_sum (map (fun s => fst (fst s)) ss)) ts.
Proof. induction ss as [|[[len g] L] ss IH]; intros base; cbn [app lay map list_sum fold_right fst]; [rewrite Nat.add_0_r; auto|]. rewrite IH, app_assoc. f_equal. match goal with |- lay ?x _ = lay ?y _ => replace y with x; [reflexivity|] end. unfold list_sum. lia. Qed.
Lemma labs_app ss ts : labs (ss ++ ts) = labs ss ++ labs ts.
Proof. induction ss as [|[[len g] L] ss IH]; cbn [app labs]; [auto|]. rewrite IH, app_assoc. reflexivity. Qed.
Lemma seq4 nf : seq 0 (4 * S nf) = seq 0 (4 * nf) ++ [4 * nf; 4 * nf + 1; 4 * nf + 2; 4 * nf + 3]%nat.
Proof. replace (4 * S nf)%nat with (4 * nf + 4)%nat by lia. rewrite seq_app. f_equal. cbn [seq Nat.add]. repeat f_equal; lia. Qed.
Lemma div4 n r : (r < 4)%nat -> ((4 * n + r) / 4 = n /\ (4 * n + r) mod 4 = r)%nat.
Proof. intros H. split; [symmetry; apply (Nat.div_unique _ _ n r); lia|symmetry; apply (Nat.mod_unique _ _ n r); lia]. Qed.
Lemma radnu_sec vol h p3 nf : flat_map (fun ifr => [((p3 + 4 * ifr)%nat, vol * h_radnu h (ifr * 13)%nat); ((p3 + 4 * ifr + 1)%nat, vol * h_radnu h (ifr * 13 + 1)%nat);
       ((p3 + 4 * ifr + 2)%nat, vol * h_radnu h (ifr * 13 + 2)%nat); ((p3 + 4 * ifr + 3)%nat, vol * h_radnu h (ifr * 13 + 3)%nat)]) (seq 0 nf) = sec p3 (4 * nf) (fun n => vol * h_radnu h (n / 4 * 13 + n mod 4)%nat).
Proof.
  unfold sec. induction nf as [|nf IH]; [reflexivity|]. rewrite seq4, seq_S, map_app, flat_map_app, IH. f_equal. cbn [flat_map map app Nat.add].
  assert (D : forall r, (r < 4)%nat -> ((4 * nf + r) / 4 * 13 + (4 * nf + r) mod 4 = nf * 13 + r)%nat) by (intros r Hr; destruct (div4 nf r Hr) as (-> & ->); auto).
  rewrite !D by lia. pose proof (D 0%nat ltac:(lia)) as D0. rewrite !Nat.add_0_r in D0. rewrite D0. rewrite !Nat.add_assoc. reflexivity.
Qed.
Lemma radnu_labs nf : flat_map (fun f => [LErF f; LFrF f 1; LFrF f 2; LFrF f 3]) (seq 0 nf) = map radnuL (seq 0 (4 * nf)).
Proof.
  induction nf as [|nf IH]; [reflexivity|]. rewrite seq4, seq_S, map_app, flat_map_app, IH. f_equal. cbn [flat_map map app Nat.add].
  assert (D : forall r, (r < 4)%nat -> radnuL (4 * nf + r) = match r with 0%nat => LErF nf | d => LFrF nf d end). { intros r Hr. unfold radnuL. destruct (div4 nf r Hr) as (E1 & E2). rewrite E1, E2. destruct r; reflexivity. }
  rewrite !D by lia. pose proof (D 0%nat ltac:(lia)) as D0. rewrite !Nat.add_0_r in D0. rewrite D0. reflexivity.
Qed.
Lemma labels_secs c vol h : labs (secs c vol h) = builtin_labels c.
Proof.
  unfold secs, builtin_labels. rewrite labs_app. unfold front, back. rewrite !labs_app. cbn [labs].
  replace (labs (if nonb c then [(1%nat, fun _ => vol * c_e (h_u h), fun _ => LTotE)] else [])) with (if nonb c then [LTotE] else []) by (destruct (nonb c); reflexivity).
  replace (labs (if grav c then _ else [])) with (if grav c then [LGravE] else []) by (destruct (grav c); reflexivity).
  replace (labs (if mag c then _ else [])) with (if mag c then [LME 1; LME 2; LME 3] else []) by (destruct (mag c); reflexivity).
  replace (labs (if cr c then _ else [])) with (if cr c then [LEc; LFc 1; LFc 2; LFc 3] else []) by (destruct (cr c); reflexivity).
  replace (labs (match chem c with Some nf => _ | None => [] end)) with (match chem c with Some nf => map LChemRad (seq 0 nf) | None => [] end) by (destruct (chem c); cbn [labs]; rewrite ?app_nil_r; reflexivity).
  replace (labs (match rad c with Some nf => _ | None => [] end)) with (match rad c with None => [] | Some nf => if Nat.eqb nf 1 then [LEr; LFr 1; LFr 2; LFr 3; LEr0; LFr0 1; LFr0 2; LFr0 3; LPr 1 1; LPr 1 2; LPr 1 3; LPr 2 2; LPr 2 3; LPr 3 3]
       else flat_map (fun f => [LErF f; LFrF f 1; LFrF f 2; LFrF f 3]) (seq 0 nf) end).
  2:{ destruct (rad c) as [nf|]; [|reflexivity]. destruct (Nat.eqb nf 1); [reflexivity|]. cbn [labs]. rewrite app_nil_r. apply radnu_labs. }
  rewrite !app_nil_r, !app_assoc. destruct (nonb c); reflexivity.
Qed.
Lemma writes_secs c vol h : tidy c -> ws_of c (vol, h) = lay 0 (secs c vol h).
Proof.
  intros (T1 & T2). unfold ws_of. cbn [fst snd]. unfold writes, secs, NRAD. rewrite lay_app.
  set (p3 := (NHYDRO c + 3 + SG c + NFIELD c + nscal c)%nat).
  assert (P : (0 + list_sum (map (fun s => fst (fst s)) (front c vol h)) = p3)%nat).
  { unfold front, p3, NHYDRO, SG, NFIELD. destruct (nonb c), (grav c), (mag c); cbn; lia. }
  rewrite P.
  assert (F : lay 0 (front c vol h) = [(0%nat, vol * c_d (h_u h)); (1%nat, vol * c_1 (h_u h)); (2%nat, vol * c_2 (h_u h)); (3%nat, vol * c_3 (h_u h));
     (4%nat, vol * 0.5 * (c_1 (h_u h) * c_1 (h_u h)) / c_d (h_u h)); (5%nat, vol * 0.5 * (c_2 (h_u h) * c_2 (h_u h)) / c_d (h_u h)); (6%nat, vol * 0.5 * (c_3 (h_u h) * c_3 (h_u h)) / c_d (h_u h))]
     ++ (if nonb c then [(7%nat, vol * c_e (h_u h))] else []) ++ (if grav c then [((NHYDRO c + 3)%nat, vol * 0.5 * c_d (h_u h) * h_phi h)] else [])
     ++ (if mag c then [((NHYDRO c + 3 + SG c)%nat, vol * 0.5 * h_b h 0 * h_b h 0); ((NHYDRO c + 3 + SG c + 1)%nat, vol * 0.5 * h_b h 1 * h_b h 1); ((NHYDRO c + 3 + SG c + 2)%nat, vol * 0.5 * h_b h 2 * h_b h 2)] else [])
     ++ map (fun n => ((NHYDRO c + 3 + SG c + NFIELD c + n)%nat, vol * h_s h n)) (seq 0 (nscal c))).
  { unfold front, NHYDRO, SG, NFIELD. destruct (nonb c), (grav c), (mag c); cbn -[Rmult Rdiv seq]; rewrite ?app_nil_r; reflexivity. }
  rewrite F. unfold back. destruct T1 as [T1|(T1 & T3)].
  - rewrite T1. destruct (rad c) as [nf|].
    + destruct (Nat.eqb nf 1) eqn:E.
      * cbn [app]. rewrite !app_nil_r. rewrite <- !app_assoc. cbn [app]. repeat f_equal. cbn [app lay]. destruct (cr c); cbn -[Nat.add Rmult seq]; reflexivity.
      * apply Nat.eqb_neq in E. destruct T2 as [T2|(T2 & T3)]; [lia|]. rewrite T3. destruct (Nat.ltb_spec 14 (4 * nf)); [lia|]. rewrite !app_nil_r. cbn [app]. rewrite <- !app_assoc. cbn [app]. rewrite radnu_sec. cbn [lay]. rewrite app_nil_r. reflexivity.
    + cbn [app]. rewrite !app_nil_r. fold p3. rewrite Nat.add_0_r. rewrite <- !app_assoc. cbn [app]. repeat f_equal. destruct (cr c); cbn -[Nat.add Rmult]; rewrite ?Nat.add_0_r; reflexivity.
  - rewrite T1, T3. cbn [app]. rewrite !app_nil_r. rewrite <- !app_assoc. cbn [app]. repeat f_equal. destruct (chem c); cbn [lay app]; rewrite ?app_nil_r; reflexivity.
Qed.

Lemma half_is : 0.5 = / 2.
Proof. lra. Qed.
Lemma secs_density c vol h len g L n : In (len, g, L) (secs c vol h) -> (n < len)%nat -> g n = vol * density (L n) h.
Proof.
  assert (K : forall x y, vol * 0.5 * (x * x) / y = vol * (x ^ 2 / y / 2)) by (intros; rewrite half_is; unfold Rdiv; ring).
  unfold secs, front, back. rewrite !in_app_iff. intros H Hn.
  destruct H as [[H|[H|[H|[H|H]]]]|[H|[H|H]]].
  - destruct H as [H|[]]. injection H as <- <- <-. do 7 (destruct n as [|n]; [unfold base7, base7L, density, mom; first [apply K|reflexivity]|]). lia.
  - destruct (nonb c); [|destruct H]. destruct H as [H|[]]. injection H as <- <- <-. reflexivity.
  - destruct (grav c); [|destruct H]. destruct H as [H|[]]. injection H as <- <- <-. unfold density. rewrite half_is. unfold Rdiv. ring.
  - destruct (mag c); [|destruct H]. destruct H as [H|[]]. injection H as <- <- <-. unfold density, mfL. rewrite Nat.sub_succ, Nat.sub_0_r, half_is. unfold Rdiv. ring.
  - destruct H as [H|[]]. injection H as <- <- <-. reflexivity.
  - destruct (chem c); [|destruct H]. destruct H as [H|[]]. injection H as <- <- <-. reflexivity.
  - destruct (rad c) as [nf|]; [|destruct H]. destruct (Nat.eqb nf 1); (destruct H as [H|[]]; injection H as <- <- <-).
    + do 14 (destruct n as [|n]; [reflexivity|]). lia.
    + change (vol * h_radnu h (n / 4 * 13 + n mod 4)%nat = vol * density (radnuL n) h). unfold radnuL. set (a := (n / 4)%nat). set (b := (n mod 4)%nat). clearbody a b. destruct b; unfold density; do 2 f_equal; lia.
  - destruct (cr c); [|destruct H]. destruct H as [H|[]]. injection H as <- <- <-. destruct n; reflexivity.
Qed.
Lemma tidy_writable c : tidy c -> writable c.
Proof. intros (_ & T). unfold writable. destruct (rad c); [|auto]. destruct T as [T|(T & _)]; [left; auto|right; auto]. Qed.
Lemma builtin_length c : tidy c -> (length (builtin_labels c) <= nhistory_vars c)%nat.
Proof.
  intros (T1 & T2). unfold builtin_labels, nhistory_vars, NHYDRO, SG, NFIELD, NRAD, NCR. rewrite !app_length, map_length, seq_length.
  assert (length (match chem c with Some nf => map LChemRad (seq 0 nf) | None => [] end) = match chem c with Some nf => nf | None => 0 end)%nat as -> by (destruct (chem c); [rewrite map_length, seq_length|]; reflexivity).
  destruct (rad c) as [nf|].
  - destruct (Nat.eqb nf 1) eqn:E; [destruct (nonb c), (grav c), (mag c), (cr c); cbn [length]; lia|]. apply Nat.eqb_neq in E. destruct T2 as [T2|(T2 & ->)]; [lia|]. rewrite radnu_labs, map_length, seq_length.
    destruct (nonb c), (grav c), (mag c); cbn [length]; lia.
  - destruct (nonb c), (grav c), (mag c), (cr c); cbn [length]; lia.
Qed.
Lemma history_columns M c nuser op en ranks p l : tidy c -> nth_error (header c nuser) p = Some l -> (forall n, l <> LUser n) -> column M c nuser op en ranks p = Some (integral (density l) ranks).
Proof.
  intros T E N. assert (B : nth_error (builtin_labels c) p = Some l).
  { unfold header in E. destruct (Nat.lt_ge_cases p (length (builtin_labels c))) as [Q|Q]; [rewrite nth_error_app1 in E by auto; auto|]. rewrite nth_error_app2 in E by auto. apply nth_error_In, in_map_iff in E. destruct E as (n & E & _). exfalso. apply (N n). auto. }
  assert (Lp : (p < nhistory_vars c)%nat). { pose proof (builtin_length c T). assert (p < length (builtin_labels c))%nat by (apply nth_error_Some; congruence). lia. }
  unfold column. destruct (reduce_col c ranks (tidy_writable c T)) as (h & -> & H). destruct (Nat.ltb_spec p (nhistory_vars c)); [|lia]. f_equal. rewrite H. unfold integral. apply sum_ext_list. intros bs _. apply sum_ext_list. intros b _. rewrite <- sum_cells. apply sum_ext_list. intros [vol x] _. cbn [fst snd].
  rewrite writes_secs by auto. apply (lay_col (fun l => vol * density l x) (secs c vol x) 0); [|rewrite labels_secs; auto]. intros. apply (secs_density c vol x len); auto.
Qed.

(** User-defined columns. *)
Lemma user_max_rank M n bs : let r := user_rank M UMax true n bs in let vals := map (fun b => hb_user b n) bs in - M <= r /\ (r = - M \/ In r vals) /\ forall x, In x vals -> x <= r.
Proof.
  unfold user_rank. cbv zeta. assert (G : forall bs a, let r := fold_left (fun a b => u_op UMax (hb_user b n) a) bs a in a <= r /\ (r = a \/ In r (map (fun b => hb_user b n) bs)) /\ forall x, In x (map (fun b => hb_user b n) bs) -> x <= r).
  { induction bs0 as [|b bs0 IH]; intros a; cbn [fold_left map In]; [split; [lra|split; [auto|tauto]]|]. destruct (IH (u_op UMax (hb_user b n) a)) as (A & B & C). cbn [u_op] in *. pose proof (Rmax_l (hb_user b n) a). pose proof (Rmax_r (hb_user b n) a).
    split; [lra|split]. - destruct B as [B|B]; [|right; right; auto]. rewrite B. unfold Rmax. destruct (Rle_dec (hb_user b n) a); auto. - intros x [<-|I]; [lra|auto]. }
  apply (G bs (- M)).
Qed.
Lemma user_min_rank M n bs : let r := user_rank M UMin true n bs in let vals := map (fun b => hb_user b n) bs in r <= M /\ (r = M \/ In r vals) /\ forall x, In x vals -> r <= x.
Proof.
  unfold user_rank. cbv zeta. assert (G : forall bs a, let r := fold_left (fun a b => u_op UMin (hb_user b n) a) bs a in r <= a /\ (r = a \/ In r (map (fun b => hb_user b n) bs)) /\ forall x, In x (map (fun b => hb_user b n) bs) -> r <= x).
  { induction bs0 as [|b bs0 IH]; intros a; cbn [fold_left map In]; [split; [lra|split; [auto|tauto]]|]. destruct (IH (u_op UMin (hb_user b n) a)) as (A & B & C). cbn [u_op] in *. pose proof (Rmin_l (hb_user b n) a). pose proof (Rmin_r (hb_user b n) a).
    split; [lra|split]. - destruct B as [B|B]; [|right; right; auto]. rewrite B. unfold Rmin. destruct (Rle_dec (hb_user b n) a); auto. - intros x [<-|I]; [lra|auto]. }
  apply (G bs M).
Qed.
Lemma user_max M n ranks : ranks <> [] -> let r := user_data M UMax true n ranks in - M <= r /\ (r = - M \/ In r (values n ranks)) /\ forall x, In x (values n ranks) -> x <= r.
Proof.
  destruct ranks as [|bs ranks]; [congruence|]. intros _. unfold user_data, values. cbv zeta. cbn [concat]. rewrite map_app.
  assert (G : forall rs a vs, - M <= a /\ (a = - M \/ In a vs) /\ (forall x, In x vs -> x <= a) -> let r := fold_left (fun a bs => u_op UMax a (user_rank M UMax true n bs)) rs a in let ws := vs ++ map (fun b => hb_user b n) (concat rs) in - M <= r /\ (r = - M \/ In r ws) /\ forall x, In x ws -> x <= r).
  { induction rs as [|s rs IH]; intros a vs H; cbn [fold_left concat map]; [rewrite app_nil_r; auto|]. rewrite map_app, app_assoc. apply IH. destruct H as (A & B & C). destruct (user_max_rank M n s) as (D & E & F). cbv zeta in D, E, F. cbn [u_op].
    pose proof (Rmax_l a (user_rank M UMax true n s)). pose proof (Rmax_r a (user_rank M UMax true n s)). split; [lra|split].
    - unfold Rmax. destruct (Rle_dec a (user_rank M UMax true n s)); rewrite in_app_iff; [destruct E|destruct B]; auto.
    - intros x I. apply in_app_or in I. destruct I as [I|I]; [specialize (C x I); lra|specialize (F x I); lra]. }
  apply G. apply (user_max_rank M n bs).
Qed.
Lemma user_min M n ranks : ranks <> [] -> let r := user_data M UMin true n ranks in r <= M /\ (r = M \/ In r (values n ranks)) /\ forall x, In x (values n ranks) -> r <= x.
Proof.
  destruct ranks as [|bs ranks]; [congruence|]. intros _. unfold user_data, values. cbv zeta. cbn [concat]. rewrite map_app.
  assert (G : forall rs a vs, a <= M /\ (a = M \/ In a vs) /\ (forall x, In x vs -> a <= x) -> let r := fold_left (fun a bs => u_op UMin a (user_rank M UMin true n bs)) rs a in let ws := vs ++ map (fun b => hb_user b n) (concat rs) in r <= M /\ (r = M \/ In r ws) /\ forall x, In x ws -> r <= x).
  { induction rs as [|s rs IH]; intros a vs H; cbn [fold_left concat map]; [rewrite app_nil_r; auto|]. rewrite map_app, app_assoc. apply IH. destruct H as (A & B & C). destruct (user_min_rank M n s) as (D & E & F). cbv zeta in D, E, F. cbn [u_op].
    pose proof (Rmin_l a (user_rank M UMin true n s)). pose proof (Rmin_r a (user_rank M UMin true n s)). split; [lra|split].
    - unfold Rmin. destruct (Rle_dec a (user_rank M UMin true n s)); rewrite in_app_iff; [destruct B|destruct E]; auto.
    - intros x I. apply in_app_or in I. destruct I as [I|I]; [specialize (C x I); lra|specialize (F x I); lra]. }
  apply G. apply (user_min_rank M n bs).
Qed.
Lemma user_sum M n ranks : user_data M USum true n ranks = sum_list (fun x => x) (values n ranks).
Proof.
  assert (K : forall bs, user_rank M USum true n bs = sum_list (fun x => x) (map (fun b => hb_user b n) bs)).
  { intros bs. unfold user_rank. assert (G : forall bs a, fold_left (fun a b => u_op USum (hb_user b n) a) bs a = a + sum_list (fun x => x) (map (fun b => hb_user b n) bs)).
    { induction bs0 as [|b bs0 IH]; intros a; cbn [fold_left map sum_list fold_right]; [ring|]. fold (sum_list (fun x : R => x) (map (fun b => hb_user b n) bs0)). rewrite IH. cbn [u_op]. ring. }
    rewrite G. cbn [u_init]. ring. }
  unfold user_data, values. destruct ranks as [|bs ranks]; [reflexivity|]. cbn [concat]. rewrite map_app, sum_app, K.
  generalize (sum_list (fun x : R => x) (map (fun b => hb_user b n) bs)). induction ranks as [|s rs IH]; intros a; cbn [fold_left concat map]; [unfold sum_list; cbn; ring|]. rewrite IH, map_app, sum_app, K. cbn [u_op]. ring.
Qed.
Lemma builtin_exact c : tidy c -> (match rad c with Some nf => nf = 1%nat | None => True end) -> length (builtin_labels c) = nhistory_vars c.
Proof.
  intros _ T2. unfold builtin_labels, nhistory_vars, NHYDRO, SG, NFIELD, NRAD, NCR. rewrite !app_length, map_length, seq_length.
  assert (length (match chem c with Some nf => map LChemRad (seq 0 nf) | None => [] end) = match chem c with Some nf => nf | None => 0 end)%nat as -> by (destruct (chem c); [rewrite map_length, seq_length|]; reflexivity).
  destruct (rad c) as [nf|]; [subst nf|]; destruct (nonb c), (grav c), (mag c), (cr c); cbn [length Nat.eqb]; lia.
Qed.
Lemma user_columns M c nuser op ranks p n : tidy c -> (match rad c with Some nf => nf = 1%nat | None => True end) -> nth_error (header c nuser) p = Some (LUser n) -> values n ranks <> [] -> (forall x, In x (values n ranks) -> - M <= x <= M) ->
  exists v, column M c nuser op (fun _ => true) ranks p = Some v /\ user_value (op n) (values n ranks) v.
Proof.
  intros T T2 E NE Bd. pose proof (builtin_exact c T T2) as LB. unfold header in E. destruct (Nat.lt_ge_cases p (length (builtin_labels c))) as [Q|Q].
  { rewrite nth_error_app1 in E by auto. exfalso. apply nth_error_In in E. clear -E. unfold builtin_labels in E. repeat (apply in_app_or in E; destruct E as [E|E]).
    - repeat destruct E as [E|E]; try discriminate E; destruct E.
    - destruct (nonb c); [destruct E as [E|[]]; discriminate E|destruct E].
    - destruct (grav c); [destruct E as [E|[]]; discriminate E|destruct E].
    - destruct (mag c); [repeat destruct E as [E|E]; try discriminate E; destruct E|destruct E].
    - apply in_map_iff in E. destruct E as (m & E & _). discriminate E.
    - destruct (chem c); [|destruct E]. apply in_map_iff in E. destruct E as (m & E & _). discriminate E.
    - destruct (rad c) as [nf|]; [|destruct E]. destruct (Nat.eqb nf 1). + repeat destruct E as [E|E]; try discriminate E; destruct E. + apply in_flat_map in E. destruct E as (m & _ & E). repeat destruct E as [E|E]; try discriminate E; destruct E.
    - destruct (cr c); [repeat destruct E as [E|E]; try discriminate E; destruct E|destruct E]. }
  rewrite nth_error_app2 in E by auto. assert (L : (p - length (builtin_labels c) < nuser)%nat). { assert (S := nth_error_Some (map LUser (seq 0 nuser)) (p - length (builtin_labels c))). rewrite E, map_length, seq_length in S. apply S. discriminate. }
  rewrite nth_error_map, (nth_error_nth' _ 0%nat) in E by (rewrite seq_length; auto). rewrite seq_nth in E by auto. cbn [option_map] in E. assert (E' : (0 + (p - length (builtin_labels c)))%nat = n) by congruence. clear E. rewrite LB in *. rewrite Nat.add_0_l in E'. rename E' into E.
  unfold column. destruct (reduce_col c ranks (tidy_writable c T)) as (h & -> & _). destruct (Nat.ltb_spec p (nhistory_vars c)); [lia|]. destruct (Nat.ltb_spec p (nhistory_vars c + nuser)); [|lia]. rewrite E. eexists. split; [reflexivity|].
  assert (NR : ranks <> []) by (intros ->; apply NE; reflexivity). destruct (values n ranks) as [|v0 vs] eqn:EV; [congruence|]. rewrite <- EV in *.
  assert (I0 : In v0 (values n ranks)) by (rewrite EV; left; auto). unfold user_value. destruct (op n).
  - apply user_sum.
  - destruct (user_max M n ranks NR) as (A & B & C). cbv zeta in A, B, C. split; [|auto]. destruct B as [B|B]; auto. pose proof (C v0 I0). pose proof (Bd v0 I0). assert (EQ : user_data M UMax true n ranks = v0) by lra. rewrite EQ. auto.
  - destruct (user_min M n ranks NR) as (A & B & C). cbv zeta in A, B, C. split; [|auto]. destruct B as [B|B]; auto. pose proof (C v0 I0). pose proof (Bd v0 I0). assert (EQ : user_data M UMin true n ranks = v0) by lra. rewrite EQ. auto.
Qed.

(** ** Columns that do not hold what their label says *)
Lemma lay_up ss : forall base w, In w (lay base ss) -> (fst w < base + list_sum (map (fun s => fst (fst s)) ss))%nat.
Proof. induction ss as [|[[len g] L] ss IH]; intros base w H; [destruct H|]. cbn [lay map fst] in *. apply in_app_or in H. destruct H as [H|H]; [apply sec_in in H; unfold list_sum; cbn [fold_right]; lia|apply IH in H; unfold list_sum in *; cbn [fold_right]; lia]. Qed.
Definition p3_ (c : config) : nat := (NHYDRO c + 3 + SG c + NFIELD c + nscal c)%nat.
Lemma front_sum c vol h : list_sum (map (fun s => fst (fst s)) (front c vol h)) = p3_ c.
Proof. unfold front, p3_, NHYDRO, SG, NFIELD. destruct (nonb c), (grav c), (mag c); cbn; lia. Qed.
Definition bare (c : config) : config := mkCf (nonb c) (grav c) (mag c) (nscal c) None None false.
Lemma bare_front c vol h : lay 0 (front c vol h) = ws_of (bare c) (vol, h).
Proof. rewrite writes_secs by (split; [left; reflexivity|exact I]). unfold secs, back. cbn [chem rad cr bare app]. rewrite app_nil_r. reflexivity. Qed.
Lemma front_in c vol h w : In w (ws_of (bare c) (vol, h)) -> (fst w < p3_ c)%nat.
Proof. rewrite <- bare_front. intros H. apply lay_up in H. rewrite front_sum in H. lia. Qed.
Lemma gap_ws c vol h nf : chem c = None -> rad c = Some nf -> nf <> 1%nat -> (4 * nf <= 14)%nat -> col (p3_ c + 4 * nf) (ws_of c (vol, h)) = 0.
Proof.
  intros C HR N L. unfold ws_of. cbn [fst snd]. unfold writes, NRAD. rewrite C, HR. apply Nat.eqb_neq in N. rewrite N. destruct (Nat.ltb_spec 14 (4 * nf)); [lia|]. rewrite radnu_sec.
  match goal with |- col _ (?b ++ _ ++ _) = 0 => assert (E : b = ws_of (bare c) (vol, h)) by (unfold ws_of, writes, bare; cbn [fst snd nonb grav mag nscal chem rad cr]; rewrite !app_nil_r; reflexivity); rewrite E end.
  apply col_miss. clear - L. intros w H. rewrite !in_app_iff in H. destruct H as [H|[H|H]]; [apply front_in in H; lia|apply sec_in in H; unfold p3_; lia|].
  destruct (cr c); [|destruct H]. unfold p3_. repeat destruct H as [H|H]; try (subst w; cbn [fst]; lia). destruct H.
Qed.
Lemma labels_at c vol h nf : chem c = None -> rad c = Some nf -> nf <> 1%nat -> builtin_labels c = labs (front c vol h) ++ map radnuL (seq 0 (4 * nf)) ++ (if cr c then [LEc; LFc 1; LFc 2; LFc 3] else []).
Proof.
  intros C HR N. rewrite <- (labels_secs c vol h). unfold secs, back. rewrite C, HR. apply Nat.eqb_neq in N. rewrite N, labs_app. f_equal. cbn [app labs]. f_equal. destruct (cr c); reflexivity.
Qed.
Lemma labs_length ss : length (labs ss) = list_sum (map (fun s => fst (fst s)) ss).
Proof. induction ss as [|[[len g] L] ss IH]; [reflexivity|]. cbn [labs map list_sum fold_right fst]. rewrite app_length, map_length, seq_length, IH. reflexivity. Qed.
Lemma history_gap M c nuser op en ranks nf : chem c = None -> rad c = Some nf -> nf <> 1%nat -> (4 * nf <= 14)%nat -> (cr c = true \/ (0 < nuser)%nat) ->
  exists p, nth_error (header c nuser) p = Some (if cr c then LEc else LUser 0) /\ column M c nuser op en ranks p = Some 0.
Proof.
  intros C HR N L U. exists (p3_ c + 4 * nf)%nat. pose (h := mkHC (mkCell 0 0 0 0 0) 0 (fun _ => 0) (fun _ => 0) (fun _ => 0) (fun _ => 0) (fun _ => 0) (fun _ => 0) (fun _ => 0)).
  assert (LL : length (labs (front c 0 h)) = p3_ c) by (rewrite labs_length, front_sum; auto). split.
  - unfold header. rewrite (labels_at c 0 h nf) by auto. rewrite <- !app_assoc. rewrite nth_error_app2 by lia. rewrite LL. replace (p3_ c + 4 * nf - p3_ c)%nat with (4 * nf)%nat by lia. rewrite nth_error_app2 by (rewrite map_length, seq_length; lia). rewrite map_length, seq_length, Nat.sub_diag.
    destruct (cr c); [reflexivity|]. destruct nuser; [destruct U; [discriminate|lia]|reflexivity].
  - unfold column. assert (W : writable c) by (unfold writable; rewrite HR; auto). destruct (reduce_col c ranks W) as (x & -> & H).
    destruct (Nat.ltb_spec (p3_ c + 4 * nf) (nhistory_vars c)) as [Q|Q].
    + f_equal. rewrite H. apply sum_none. intros bs _. apply sum_none. intros b _. apply sum_none. intros [v y] _. apply gap_ws; auto.
    + exfalso. unfold nhistory_vars, p3_, NRAD in Q. rewrite HR, C in Q. lia.
Qed.
Lemma clash_ws c vol h nf : chem c = Some nf -> (0 < nf)%nat -> rad c = None -> cr c = true -> col (p3_ c) (ws_of c (vol, h)) = vol * (h_ir h 0%nat + h_cr h 0%nat).
Proof.
  intros C N HR K. unfold ws_of. cbn [fst snd]. unfold writes, NRAD. rewrite C, HR, K. rewrite !Nat.add_0_r. rewrite !app_assoc. rewrite <- (app_assoc _ (map (fun n => ((_ + n)%nat, vol * h_ir h n)) _)).
  match goal with |- col _ (?b ++ _ ++ _) = _ => assert (E : b = ws_of (bare c) (vol, h)) by (unfold ws_of, writes, bare; cbn [fst snd nonb grav mag nscal chem rad cr]; rewrite !app_nil_r, <- !app_assoc; reflexivity); rewrite E end.
  rewrite !col_app. rewrite (col_miss _ (ws_of _ _)) by (intros w H; apply front_in in H; lia).
  change (map (fun n => ((NHYDRO c + 3 + SG c + NFIELD c + nscal c + n)%nat, vol * h_ir h n)) (seq 0 nf)) with (sec (p3_ c) nf (fun n => vol * h_ir h n)).
  pose proof (sec_hit (p3_ c) nf (fun n => vol * h_ir h n) 0 N) as S. rewrite Nat.add_0_r in S. rewrite S. fold (p3_ c). unfold col. cbn [sum_list fold_right fst snd]. rewrite Nat.eqb_refl.
  replace (Nat.eqb (p3_ c) (p3_ c + 1)) with false by (symmetry; apply Nat.eqb_neq; lia). replace (Nat.eqb (p3_ c) (p3_ c + 2)) with false by (symmetry; apply Nat.eqb_neq; lia). replace (Nat.eqb (p3_ c) (p3_ c + 3)) with false by (symmetry; apply Nat.eqb_neq; lia). ring.
Qed.
Lemma history_clash M c nuser op en ranks nf : chem c = Some nf -> (0 < nf)%nat -> rad c = None -> cr c = true ->
  exists p, nth_error (header c nuser) p = Some (LChemRad 0) /\ column M c nuser op en ranks p = Some (integral (fun h => density (LChemRad 0) h + density LEc h) ranks).
Proof.
  intros C N HR K. exists (p3_ c). pose (h := mkHC (mkCell 0 0 0 0 0) 0 (fun _ => 0) (fun _ => 0) (fun _ => 0) (fun _ => 0) (fun _ => 0) (fun _ => 0) (fun _ => 0)).
  assert (LL : length (labs (front c 0 h)) = p3_ c) by (rewrite labs_length, front_sum; auto). split.
  - unfold header. rewrite <- (labels_secs c 0 h). unfold secs, back. rewrite C, HR, K, labs_app. rewrite <- !app_assoc. rewrite nth_error_app2 by lia. rewrite LL, Nat.sub_diag. destruct nf; [lia|reflexivity].
  - unfold column. assert (W : writable c) by (unfold writable; rewrite HR; auto). destruct (reduce_col c ranks W) as (x & -> & H). destruct (Nat.ltb_spec (p3_ c) (nhistory_vars c)) as [Q|Q].
    + f_equal. rewrite H. unfold integral. apply sum_ext_list. intros bs _. apply sum_ext_list. intros b _. rewrite <- sum_cells. apply sum_ext_list. intros [v y] _. apply (clash_ws c v y nf); auto.
    + exfalso. unfold nhistory_vars, p3_, NCR in Q. rewrite K in Q. lia.
Qed.

(** ** Conserved columns *)
Lemma zsum_row n f : zsum 0 (Z.of_nat n - 1) f = row_sum n f.
Proof. unfold zsum, row_sum. replace (Z.to_nat (Z.of_nat n - 1 - 0 + 1)) with n by lia. apply total_ext. intros. reflexivity. Qed.
Lemma conserved_integral n1 n2 n3 dx dy dz dt F l b b' : 0 < dx -> 0 < dy -> 0 < dz -> hb_dims b = whole n1 n2 n3 -> hb_dims b' = whole n1 n2 n3 -> (forall k j i, hb_vol b k j i = dx * dy * dz) -> (forall k j i, hb_vol b' k j i = dx * dy * dz) -> periodic_field n1 n2 n3 F ->
  (forall k j i, (0 <= k < Z.of_nat n3)%Z -> (0 <= j < Z.of_nat n2)%Z -> (0 <= i < Z.of_nat n1)%Z -> density l (hb_cell b' k j i) = AddFluxDivergence (whole n1 n2 n3) (cart dx dy dz) F dt (fun k j i => density l (hb_cell b k j i)) k j i) ->
  integral (density l) [[b']] = integral (density l) [[b]].
Proof.
  intros Px Py Pz D D' V V' (P1 & P2 & P3) U. unfold integral, sum_list. cbn [fold_right]. rewrite !Rplus_0_r. unfold block_integral. rewrite D, D'. cbn [is_ ie js je ks ke whole]. rewrite !zsum_row.
  assert (G : forall f : Z -> Z -> Z -> R, row_sum n3 (fun k => zsum 0 (Z.of_nat n2 - 1) (fun j => zsum 0 (Z.of_nat n1 - 1) (fun i => f k j i))) = box_sum n1 n2 n3 f).
  { intros f. unfold box_sum. apply row_ext. intros k. rewrite zsum_row. apply row_ext. intros j. apply zsum_row. }
  rewrite (G (fun k j i => hb_vol b' k j i * density l (hb_cell b' k j i))), (G (fun k j i => hb_vol b k j i * density l (hb_cell b k j i))).
  transitivity (box_sum n1 n2 n3 (fun k j i => dx * dy * dz * (density l (hb_cell b k j i) + by_fluxes (whole n1 n2 n3) dx dy dz dt F k j i))).
  - apply Res_Proofs.box_ext_in. intros k j i Hk Hj Hi. rewrite V', U by auto. unfold AddFluxDivergence. rewrite whole_active by auto. f_equal. unfold dflx, by_fluxes, cart. cbn [A1 A2 A3 Fv_Model.V]. destruct (Z.ltb 1 (nx2 _)), (Z.ltb 1 (nx3 _)); field; repeat split; lra.
  - rewrite box_scal, box_plus, box_by_fluxes by auto. rewrite Rplus_0_r, <- box_scal. apply box_ext. intros. rewrite V. reflexivity.
Qed.
