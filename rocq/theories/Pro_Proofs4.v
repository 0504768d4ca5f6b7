(** The ghost zones after the exchange and the prolongation. *)
From Coq Require Import List Arith NArith ZArith Bool Lia Permutation.
From Verif Require Import Loc LB_Spec Tags_Model Tags_Spec Tags_Proofs AMR_Model AMR_Spec AMR_Proofs AMR_Proofs2 Tree_Model Tree_Spec Tree_Proofs1 Tree_Proofs2 Tree_Proofs3 Tree_Proofs4 Tree_Proofs5 Tree_Proofs6 Tree_Proofs7 Tree_Proofs8 Tree_Restart Tree_Proofs9 Tree_Proofs10 Nbr_Model Nbr_Spec Nbr_Proofs Nbr_Proofs2 Nbr_Proofs3 Buf_Model Gho_Model Gho_Spec Gho_Proofs Gho_Proofs2 Gho_Proofs3 Gho_Proofs4 Gho_Proofs5 Pro_Model Pro_Spec Pro_Proofs Pro_Proofs2 Pro_Proofs3.
Import ListNotations.
Local Open Scope Z_scope.

Section N.
Variable g : grid.
Hypothesis Vg : valid_grid g.
Hypothesis NP : no_pole g.
Hypothesis NS : no_shear g.
Hypothesis PL : plain g.
Variable t : tree.
Hypothesis W : wf g t.
Hypothesis Bt : B g t.
Variable ml : bool.
Hypothesis ML : declared g ml (blocks t).
Local Notation dim := (gdim g).
Local Notation E := (E g t ml).
Variable Bz : bsz.
Hypothesis FT : fitting g Bz ml.
Hypothesis NG : ng Bz = 2.
Local Notation D13 := (dim13 g Vg).
Variable a : loc.
Hypothesis Ha : In a (blocks t).
Local Notation bs := (blocks t).
Context {A P : Type}.
Variable Rs : arr4 (A := A) -> arr4 (A := A).
Variable c2p : Z -> Z -> Z -> A -> P.
Variable p2c : Z -> Z -> Z -> P -> A.
Variable Pr : arr4 (A := P) -> arr4 (A := P).
Variable bc : nat -> bool -> arr4 (A := P) -> arr4 (A := P).
Hypothesis LR : local_restriction g Bz Rs.
Hypothesis LB : local_boundary g Bz bc.
Variable V : loc -> arr4 (A := A).
Variable u1 : arr4 (A := A).

Definition good (st : state (A := A) (P := P)) (x : cell) : Prop := exists pw, (forall s, stencil g (coarse_cell g Bz x) s -> proper g Bz bs V Rs c2p bc a u1 pw s) /\
  (forall s, stencil g (coarse_cell g Bz x) s -> (forall d hi, at_wall g a d hi -> side Bz dim true s d <> if hi then 1 else -1) -> in_level g Bz bs a s -> near Bz dim true 1 s) /\
  value (prim st) 0 x = value (Pr pw) 0 x /\ value (cons st) 0 x = p2c (x 2%nat) (x 1%nat) (x 0%nat) (value (Pr pw) 0 x).
Definition J (done : list nblock) (st : state (A := A) (P := P)) : Prop :=
  ok_u g t Bz a u1 (cons st) /\ ok_c g t Bz a V (ccons st) /\ ok_o g t ml Bz a Rs u1 (ccons st) /\
  forall e x, In e done -> (level (n_loc e) < level a)%nat -> inbox (fine_range Bz a e) x -> good st x.

Lemma region_near : forall e s, ml = true -> E a e -> (level (n_loc e) < level a)%nat -> region_ok g t Bz a e s -> near Bz dim true 1 s.
Proof using Vg NP NS W Bt ML FT NG Ha.
  intros e s Hm He Hl [[O _]|(o & Hin & Ok & _ & Hi)] d Hd; [specialize (O d Hd); cbv zeta; destruct (Nat.ltb d dim); lia|]. specialize (Hi d Hd). unfold same_range in Hi. cbv zeta in Hi |- *. destruct (Nat.ltb_spec d dim) as [Hdd|Hdd].
  - destruct (box_active g Vg NP NS t W Bt ml ML Bz FT NG a Ha Hm e He Hl d Hdd) as (h & _ & _ & G & _ & C1 & C2 & _ & Q4 & Q5 & _). rewrite C1, C2 in Hi. rewrite Q4, Q5. destruct (Z.eqb _ 0), (Z.eqb _ 1) in Hi; [| | |]; destruct (Z.eqb (ox e d) 1), (Z.eqb (ox e d) (-1)); cbn [fst snd] in Hi; lia.
  - destruct (box_inactive g Vg NP NS t W Bt ml ML Bz FT a Ha e He Hl d Hdd Hd) as (C1 & C2 & _ & _ & _ & Q4 & Q5 & Q6 & _). rewrite C1, C2, Q6 in Hi. rewrite Q4, Q5.
    assert (Z0 : match d with 0%nat => fst (fst o) | 1%nat => snd (fst o) | _ => snd o end = 0). { destruct o as [[o1 o2] o3]. unfold okdir in Ok. pose proof D13. destruct d as [|[|[|d]]]; cbn [fst snd]; lia. } rewrite Z0 in Hi. cbn [Z.eqb fst snd] in Hi. lia.
Qed.
Lemma step : forall done st e, ml = true -> E a e -> J done st -> J (e :: done) (Prolongate1 Rs c2p p2c Pr bc g t Bz a st e).
Proof using Vg NP NS PL W Bt ML FT NG Ha LR LB.
  intros done st e Hm He (J1 & J2 & J3 & J4). unfold Prolongate1. destruct (Nat.ltb_spec (level (n_loc e)) (level a)) as [Hl|Hl].
  2:{ split; [exact J1|]. split; [exact J2|]. split; [exact J3|]. intros e0 x [<-|H0] Hl0 Hx; [lia|apply (J4 e0); assumption]. }
  destruct (step1 g Vg NP NS t W Bt ml ML Bz FT NG a Ha Hm Rs LR V u1 e He Hl (cons st) (ccons st) J1 J2 J3) as (K2 & K3 & KL). cbv zeta in K2, K3, KL |- *. set (cu := RestrictGhosts Rs g t Bz a e (cons st) (ccons st)) in *.
  pose proof (step2 g Vg NP NS PL t W Bt ml ML Bz FT NG a Ha Hm c2p bc LB e He Hl cu (cprim st)) as S2. cbv zeta in S2. set (cw := ApplyWalls bc g Bz a e faces (write (grown g t Bz a e) (pointwise c2p cu) (cprim st))) in *.
  assert (New : forall x, inbox (fine_range Bz a e) x -> good (mkSt (write (fine_range Bz a e) (pointwise p2c (write (fine_range Bz a e) (Pr cw) (prim st))) (cons st)) (write (fine_range Bz a e) (Pr cw) (prim st)) cu cw) x).
  { intros x Hx. exists cw. cbn [prim cons]. split; [|split; [|split; [apply write_in, Hx|]]].
    - intros s Hs. pose proof (proj1 (fine_box g Vg NP NS t W Bt ml ML Bz FT NG a Ha Hm e He Hl x) Hx) as Hb. destruct (S2 _ s Hb Hs) as [(d & hi & H1 & H2 & H3)|((N & _ & [(b & y & Hp)|[Hp Hr]]) & Hv)].
      + right. right. exists d, hi. auto.
      + left. exists b, y. split; [exact Hp|]. rewrite Hv, (K2 s b y N Hp). reflexivity.
      + right. left. split; [exact Hp|]. rewrite Hv, (KL s Hp Hr). reflexivity.
    - intros s Hs NW Ls. pose proof (proj1 (fine_box g Vg NP NS t W Bt ml ML Bz FT NG a Ha Hm e He Hl x) Hx) as Hb. destruct (S2 _ s Hb Hs) as [(d & hi & H1 & H2 & H3)|((N & _ & [(b & y & Hp)|[Hp Hr]]) & Hv)].
      + contradiction (NW d hi H1 H2).
      + contradiction (level_excl g Vg t W ml Bz FT a Hm s b y Hp Ls).
      + apply (region_near e); assumption.
    - rewrite write_in by exact Hx. unfold value at 1. unfold pointwise. f_equal. apply (write_in P (fine_range Bz a e) (Pr cw) (prim st) x Hx). }
  split; [|split; [exact K2|split; [exact K3|]]]; cbn [cons].
  - intros x. destruct (inbox_dec (fine_range Bz a e) x) as [Hx|Hx]; [|rewrite write_out by exact Hx; apply J1]. right. split; [apply (fine_near g Vg NP NS t W Bt ml ML Bz FT NG a Ha Hm e He Hl x Hx)|].
    pose proof (proj1 (fine_box g Vg NP NS t W Bt ml ML Bz FT NG a Ha Hm e He Hl x) Hx) as Hb. apply (box_set g Vg NP NS t W Bt ml ML Bz FT NG a Ha Hm e He Hl) in Hb. apply (set_place g Vg NP NS t W Bt ml ML Bz FT NG a Ha Hm e He Hl) in Hb as (y & Hy). exists (n_loc e), y. exact Hy.
  - intros e0 x H0 Hl0 Hx. destruct (inbox_dec (fine_range Bz a e) x) as [Hx'|Hx']; [apply New, Hx'|]. destruct H0 as [<-|H0]; [contradiction|]. destruct (J4 e0 x H0 Hl0 Hx) as (pw & G1 & G2 & G3 & G4). exists pw. cbn [prim cons]. rewrite !write_out by exact Hx'. auto.
Qed.
Lemma loop : forall es done st, ml = true -> (forall e, In e es -> E a e) -> J done st -> J (rev es ++ done) (ProlongateBoundaries Rs c2p p2c Pr bc g t Bz a es st).
Proof using Vg NP NS PL W Bt ML FT NG Ha LR LB.
  unfold ProlongateBoundaries. induction es as [|e es IH]; intros done st Hm HE HJ; [exact HJ|]. cbn [fold_left rev]. rewrite <- app_assoc. cbn [app]. apply IH; [exact Hm|intros e0 H0; apply HE; right; exact H0|]. apply step; [exact Hm|apply HE; left; reflexivity|exact HJ].
Qed.
Lemma coarse_near1 : forall x d, ml = true -> (d < dim)%nat -> near Bz dim false (ng Bz) x -> exists h, cells_in Bz d = 2 * h /\ 2 <= h /\ first Bz dim d = 2 /\ size Bz dim true d = h /\ 1 <= coarse_cell g Bz x d <= h + 2.
Proof using Vg FT NG.
  intros x d Hm Hd N. pose proof D13. destruct (active_facts g Bz ml D13 FT d Hd) as (_ & _ & _ & _ & _ & _ & E3 & E4 & N1 & N2). destruct (multi_facts g Bz ml D13 FT Hm d Hd) as (h & k & G1 & G2 & G3 & G4 & G5 & G6). exists h.
  specialize (N d ltac:(lia)). replace (Nat.ltb d dim) with true in N by (symmetry; apply Nat.ltb_lt, Hd). cbv zeta in N. rewrite E3, E4 in N. unfold coarse_cell. replace (Nat.ltb d dim) with true by (symmetry; apply Nat.ltb_lt, Hd). rewrite E3, E4, G2, NG in *. rewrite G1 in *. split; [reflexivity|]. split; [lia|]. split; [reflexivity|]. split; [reflexivity|].
  pose proof (Z.div_mod (x d - 2) 2 ltac:(lia)). pose proof (Z.mod_pos_bound (x d - 2) 2 ltac:(lia)). lia.
Qed.
Lemma near_coarse : forall x, ml = true -> near Bz dim false (ng Bz) x -> near Bz dim true (cng Bz) (coarse_cell g Bz x).
Proof using Vg FT NG.
  intros x Hm N d Hd. destruct (Nat.ltb_spec d dim) as [Hdd|Hdd]; cbv zeta.
  - destruct (coarse_near1 x d Hm Hdd N) as (h & _ & G & F & S & R). rewrite F, S, (cng2 Bz NG). lia.
  - specialize (N d Hd). replace (Nat.ltb d dim) with false in N by (symmetry; apply Nat.ltb_ge, Hdd). cbv zeta in N. unfold coarse_cell. replace (Nat.ltb d dim) with false by (symmetry; apply Nat.ltb_ge, Hdd). unfold size in *. replace (Nat.ltb d dim) with false in * by (symmetry; apply Nat.ltb_ge, Hdd). exact N.
Qed.
(** Every ghost cell in a coarser block is in the range of some entry. *)
Lemma covered : forall x b y, ml = true -> near Bz dim false (ng Bz) x -> in_coarser g Bz bs a (coarse_cell g Bz x) b y -> exists e, E a e /\ (level (n_loc e) < level a)%nat /\ inbox (fine_range Bz a e) x.
Proof using Vg NP NS W Bt ML FT NG Ha.
  intros x b y Hm N (Hb & L & O & SP). destruct (cov_coarser g Vg NP NS t W Bt ml ML Bz FT a (coarse_cell g Bz x) b y Hm Ha Hb (near_coarse x Hm N) L O SP) as (e & He & Hw). exists e. split; [exact He|]. unfold wc in Hw. destruct (Nat.eqb _ _); [contradiction|]. destruct (Nat.ltb_spec (level (n_loc e)) (level a)) as [Hl|]; [|contradiction]. split; [exact Hl|].
  apply (fine_box g Vg NP NS t W Bt ml ML Bz FT NG a Ha Hm e He Hl). intros d Hd. specialize (Hw d Hd). destruct (Nat.lt_ge_cases d dim) as [Hdd|Hdd].
  - destruct (box_active g Vg NP NS t W Bt ml ML Bz FT NG a Ha Hm e He Hl d Hdd) as (h & G1 & _ & G & _ & _ & _ & _ & _ & _ & _ & Cs). destruct (coarse_near1 x d Hm Hdd N) as (h' & G1' & _ & _ & _ & R). assert (h' = h) by lia. subst h'.
    destruct Cs as [(_ & _ & Q1 & Q2)|[(_ & _ & Q1 & Q2)|[(_ & _ & Q1 & Q2)|(_ & _ & Q1 & Q2)]]]; rewrite Q2 in Hw; rewrite Q1; cbn [fst snd] in *; lia.
  - destruct (box_inactive g Vg NP NS t W Bt ml ML Bz FT a Ha e He Hl d Hdd Hd) as (_ & _ & _ & _ & _ & _ & _ & _ & Q1 & Q2). rewrite Q2 in Hw. rewrite Q1. exact Hw.
Qed.
(** Before the loop. *)
Lemma start : forall R0 u0 cu0 cu1 es w cw, ml = true -> (forall e, In e es <-> E a e) -> filled g Bz bs V R0 a 0 u1 cu1 -> kept g Bz bs a 0 u0 u1 (SendCoarse Rs Bz a es u0 cu0) cu1 -> J [] (mkSt u1 w cu1 cw).
Proof using Vg NP NS W Bt ML FT NG Ha LR.
  intros R0 u0 cu0 cu1 es w cw Hm Hes (_ & _ & F3) (K1 & K2). split; [intros x; left; reflexivity|]. split; [|split; [|intros e x []]]; cbn [ccons].
  - intros s b y N (Hb & L & O & SP). apply (F3 s b y); assumption.
  - intros s e He Hl O Hs. rewrite K2.
    + pose proof (fold_writes A nblock (fun e => Nat.ltb (level (n_loc e)) (level a)) (load_coarser Bz) (Rs u0) es cu0 s) as (F & _). cbv zeta in F. unfold SendCoarse. rewrite F by (exists e; split; [apply Hes, He|split; [apply Nat.ltb_lt, Hl|exact Hs]]).
      apply LR. intros x Hx. symmetry. apply K1. left. intros d Hd. specialize (Hx d Hd). specialize (O d Hd). destruct (Nat.lt_ge_cases d dim) as [Hdd|Hdd].
      * destruct (active_facts g Bz ml D13 FT d Hdd) as (_ & _ & _ & _ & _ & _ & E3 & E4 & N1 & N2). destruct (multi_facts g Bz ml D13 FT Hm d Hdd) as (h & k & G1 & G2 & G3 & G4 & G5 & G6). unfold coarse_cell in Hx. replace (Nat.ltb d dim) with true in Hx by (symmetry; apply Nat.ltb_lt, Hdd). rewrite E3, E4, ?G2 in *. pose proof (Z.div_mod (x d - ng Bz) 2 ltac:(lia)). pose proof (Z.mod_pos_bound (x d - ng Bz) 2 ltac:(lia)). lia.
      * unfold coarse_cell in Hx. unfold size in *. replace (Nat.ltb d dim) with false in * by (symmetry; apply Nat.ltb_ge, Hdd). lia.
    + right. intros b y Hb L Oy SP. pose proof (lev_root g Vg NP t W Bt ml ML a Ha e He Hl) as Lr. apply (level_excl g Vg t W ml Bz FT a Hm s b y); [split; [exact Hb|split; [exact L|split; [exact Oy|exact SP]]]|]. apply (self_level g t Bz a Ha s Lr O).
Qed.
End N.

Lemma ghost_zones : forall g, valid_grid g -> no_pole g -> no_shear g -> plain g -> forall t, wf g t -> B g t -> forall ml, declared g ml (blocks t) -> forall Bz, fitting g Bz ml -> ng Bz = 2 ->
  forall (A P : Type) (V : loc -> arr4 (A := A)) (R : loc -> arr4 (A := A) -> arr4 (A := A)) (c2p : Z -> Z -> Z -> A -> P) (p2c : Z -> Z -> Z -> P -> A) (Pr : arr4 (A := P) -> arr4 (A := P)) (bc : nat -> bool -> arr4 (A := P) -> arr4 (A := P)),
  (forall b, local_restriction g Bz (R b)) -> local_boundary g Bz bc -> forall a, In a (blocks t) -> forall es, (forall e, In e es <-> E g t ml a e) -> forall st, exists main coarse st',
  SetBoundaries g ml t Bz 0 0 V R a es (cons st, SendCoarse (R a) Bz a es (cons st) (ccons st)) = Some (main, coarse) /\ GhostZones c2p p2c Pr bc g ml t Bz V R a es st = Some st' /\
  filled g Bz (blocks t) V R a 0 main coarse /\ kept g Bz (blocks t) a 0 (cons st) main (SendCoarse (R a) Bz a es (cons st) (ccons st)) coarse /\
  (forall x b y, near Bz (gdim g) false (ng Bz) x -> in_coarser g Bz (blocks t) a (coarse_cell g Bz x) b y -> exists pw, (forall s, stencil g (coarse_cell g Bz x) s -> proper g Bz (blocks t) V (R a) c2p bc a main pw s) /\
     (forall s, stencil g (coarse_cell g Bz x) s -> (forall d hi, at_wall g a d hi -> side Bz (gdim g) true s d <> if hi then 1 else -1) -> in_level g Bz (blocks t) a s -> near Bz (gdim g) true 1 s) /\
     value (prim st') 0 x = value (Pr pw) 0 x /\ value (cons st') 0 x = p2c (x 2%nat) (x 1%nat) (x 0%nat) (value (Pr pw) 0 x)) /\
  (forall x, ~ (near Bz (gdim g) false (ng Bz) x /\ exists b y, in_coarser g Bz (blocks t) a (coarse_cell g Bz x) b y) -> value (cons st') 0 x = value main 0 x).
Proof.
  intros g Vg NP NS PL t W Bt ml ML Bz FT NG A P V R c2p p2c Pr bc LR LB a Ha es Hes st.
  destruct (exchange g Vg NP NS t W Bt ml ML Bz FT 0 0 V R a es (cons st, SendCoarse (R a) Bz a es (cons st) (ccons st)) Ha Hes) as ([main coarse] & Eq & Q & _). destruct (Q 0 ltac:(lia)) as [Fi Ke]. cbn [fst snd] in Fi, Ke. clear Q.
  exists main, coarse, (ProlongateBoundaries (R a) c2p p2c Pr bc g t Bz a es (mkSt main (prim st) coarse (cprim st))). split; [exact Eq|]. split; [unfold GhostZones; rewrite Eq; reflexivity|]. split; [exact Fi|]. split; [exact Ke|].
  destruct ml eqn:Hm.
  - assert (Jf : J g t true Bz a (R a) c2p p2c Pr bc V main (rev es ++ []) (ProlongateBoundaries (R a) c2p p2c Pr bc g t Bz a es (mkSt main (prim st) coarse (cprim st)))).
    { apply (loop g Vg NP NS PL t W Bt true ML Bz FT NG a Ha (R a) c2p p2c Pr bc (LR a) LB V main es [] _ eq_refl); [intros e He; apply Hes, He|]. apply (start g Vg NP NS t W Bt true ML Bz FT NG a Ha (R a) c2p p2c Pr bc (LR a) V main R (cons st) (ccons st) coarse es (prim st) (cprim st) eq_refl Hes Fi Ke). }
    destruct Jf as (J1 & _ & _ & J4). split.
    + intros x b y N Hp. destruct (covered g Vg NP NS t W Bt true ML Bz FT NG a Ha x b y eq_refl N Hp) as (e & He & Hl & Hx). apply (J4 e x); [|exact Hl|exact Hx]. apply in_or_app. left. apply in_rev. rewrite rev_involutive. apply Hes, He.
    + intros x Hx. destruct (J1 x) as [H|H]; [exact H|contradiction].
  - assert (Lv : level a = groot g) by (apply (ML eq_refl a Ha)). assert (Id : ProlongateBoundaries (R a) c2p p2c Pr bc g t Bz a es (mkSt main (prim st) coarse (cprim st)) = mkSt main (prim st) coarse (cprim st)).
    { unfold ProlongateBoundaries. assert (Q : forall e, In e es -> ~ (level (n_loc e) < level a)%nat). { intros e He Hl. apply Hes in He. pose proof (lev_root g Vg NP t W Bt false ML a Ha e He Hl). lia. }
      clear - Q. revert Q. generalize (mkSt main (prim st) coarse (cprim st)). induction es as [|e es IH]; intros s0 Q; [reflexivity|]. cbn [fold_left]. unfold Prolongate1 at 2. destruct (Nat.ltb_spec (level (n_loc e)) (level a)) as [Hl|_]; [contradiction (Q e (or_introl eq_refl) Hl)|]. apply IH. intros e0 H0. apply Q. right. exact H0. }
    rewrite Id. split; [|reflexivity]. intros x b y _ (Hb & L & _). exfalso. pose proof (ML eq_refl b Hb). lia.
Qed.
(** Away from physical boundaries the proper values are unique. *)
Lemma proper_unique : forall g, valid_grid g -> forall t, wf g t -> forall ml, forall Bz, fitting g Bz ml -> ml = true -> forall (A P : Type) (V : loc -> arr4 (A := A)) Rs (c2p : Z -> Z -> Z -> A -> P) bc a main pw pw' s, In a (blocks t) ->
  (forall d hi, at_wall g a d hi -> side Bz (gdim g) true s d <> if hi then 1 else -1) -> proper g Bz (blocks t) V Rs c2p bc a main pw s -> proper g Bz (blocks t) V Rs c2p bc a main pw' s -> value pw 0 s = value pw' 0 s.
Proof.
  intros g Vg t W ml Bz FT Hm A P V Rs c2p bc a main pw pw' s Ha NW [(b & y & Hp & E1)|[(Hp & E1)|(d & hi & Hw & Hs & _)]] [(b' & y' & Hp' & E2)|[(Hp' & E2)|(d' & hi' & Hw' & Hs' & _)]]; try (exfalso; eapply NW; eassumption).
  - rewrite E1, E2. f_equal. destruct Hp as (Hb & L & O & SP), Hp' as (Hb' & L' & O' & SP'). destruct (in_dom g t W b Hb) as [_ Rb]. assert (Lb : level b' = level b) by lia. rewrite Lb in SP'.
    destruct (place_det g Vg t W ml Bz FT a true s (level b) b false y b' y' Hb Hb' ltac:(discriminate) eq_refl Lb Rb O O' SP SP') as [-> Ey]. apply value_ext, Ey.
  - exfalso. apply (level_excl g Vg t W ml Bz FT a Hm s b y Hp Hp').
  - exfalso. apply (level_excl g Vg t W ml Bz FT a Hm s b' y' Hp' Hp).
  - rewrite E1, E2. reflexivity.
Qed.

(** The fine cells under a coarse cell of a block of the same level hold what that block holds. *)
Lemma level_main : forall g, valid_grid g -> forall t, wf g t -> forall ml Bz, fitting g Bz ml -> ml = true -> ng Bz = 2 -> forall (A : Type) (V : loc -> arr4 (A := A)) R a m0 m1 m2 c0 c1 c1' c2 x s, In a (blocks t) -> (groot g < level a)%nat ->
  filled g Bz (blocks t) V R a 0 m1 c1 -> filled g Bz (blocks t) V R a 0 m2 c2 -> (forall z, own Bz (gdim g) false z -> value m0 0 z = value c0 0 z) -> kept g Bz (blocks t) a 0 m0 m1 c1' c1 -> forall c2', kept g Bz (blocks t) a 0 c0 m2 c2' c2 ->
  in_level g Bz (blocks t) a s -> near Bz (gdim g) true 1 s -> (forall d, (d < 3)%nat -> coarse_cell g Bz x d = s d) -> value m1 0 x = value m2 0 x.
Proof.
  intros g Vg t W ml Bz FT Hm NG A V R a m0 m1 m2 c0 c1 c1' c2 x s Ha Lr (F1 & _) (F2 & _) Eo (K1 & _) c2' (K2 & _) (b & y & Hb & L & O & SP) N Hx.
  assert (Nx : near Bz (gdim g) false (ng Bz) x).
  { intros d Hd. specialize (N d Hd). specialize (Hx d Hd). unfold coarse_cell in Hx. cbv zeta in *. destruct (Nat.ltb_spec d (gdim g)) as [Hdd|Hdd].
    - destruct (active_facts g Bz ml (dim13 g Vg) FT d Hdd) as (_ & _ & _ & _ & _ & _ & E3 & E4 & N1 & N2). destruct (multi_facts g Bz ml (dim13 g Vg) FT Hm d Hdd) as (h & k & G1 & G2 & _). rewrite E3, E4 in *. rewrite G2, NG in *. pose proof (Z.div_mod (x d - 2) 2 ltac:(lia)). pose proof (Z.mod_pos_bound (x d - 2) 2 ltac:(lia)). lia.
    - unfold size in *. replace (Nat.ltb d (gdim g)) with false in * by (symmetry; apply Nat.ltb_ge, Hdd). lia. }
  assert (DO : own Bz (gdim g) false x \/ ~ own Bz (gdim g) false x).
  { assert (Q : forall d, {first Bz (gdim g) d <= x d < first Bz (gdim g) d + size Bz (gdim g) false d} + {~ first Bz (gdim g) d <= x d < first Bz (gdim g) d + size Bz (gdim g) false d}).
    { intros d. destruct (Z_le_dec (first Bz (gdim g) d) (x d)), (Z_lt_dec (x d) (first Bz (gdim g) d + size Bz (gdim g) false d)); [left; lia|right; lia|right; lia|right; lia]. }
    destruct (Q 0%nat), (Q 1%nat), (Q 2%nat); try (right; intros X; pose proof (X 0%nat ltac:(lia)); pose proof (X 1%nat ltac:(lia)); pose proof (X 2%nat ltac:(lia)); contradiction). left. intros [|[|[|d]]] Hd; first [assumption|lia]. }
  destruct DO as [Ox|Ox]; [rewrite K1, K2 by (left; exact Ox); apply Eo, Ox|].
  pose (z := fun d => if Nat.ltb d (gdim g) then 2 * (y d - ng Bz) + ng Bz + (x d - ng Bz) mod 2 else y d).
  assert (Oz : own Bz (gdim g) false z /\ same_place g Bz (level a) a false x b false z).
  { assert (Q : forall d, (d < 3)%nat -> (first Bz (gdim g) d <= z d < first Bz (gdim g) d + size Bz (gdim g) false d) /\ exists v, period_shift g d (gnrb g d * 2 ^ Z.of_nat (level a - groot g) * cells_in Bz d) v /\ coord d b * size Bz (gdim g) false d + (z d - first Bz (gdim g) d) = coord d a * size Bz (gdim g) false d + (x d - first Bz (gdim g) d) + v).
    { intros d Hd. specialize (O d Hd). specialize (Hx d Hd). destruct (SP d Hd) as (v & S1 & S2). unfold z. unfold coarse_cell in Hx. destruct (Nat.ltb_spec d (gdim g)) as [Hdd|Hdd].
      - destruct (active_facts g Bz ml (dim13 g Vg) FT d Hdd) as (_ & _ & _ & _ & _ & _ & E3 & E4 & N1 & N2). destruct (multi_facts g Bz ml (dim13 g Vg) FT Hm d Hdd) as (h & k & G1 & G2 & _). rewrite E3, !E4, ?G2 in *. rewrite NG in *. pose proof (Z.div_mod (x d - 2) 2 ltac:(lia)). pose proof (Z.mod_pos_bound (x d - 2) 2 ltac:(lia)). rewrite G1 in *. split; [lia|]. exists (v * 2). split; [|nia].
        destruct (w_even g a Lr d) as (q & Ew & Eq). rewrite Ew. rewrite <- Eq in S1. replace (2 * q * (2 * h)) with (q * (2 * h) * 2) by ring. apply shift_scale, S1.
      - split; [unfold size in *; replace (Nat.ltb d (gdim g)) with false in * by (symmetry; apply Nat.ltb_ge, Hdd); exact O|]. exists 0. split; [left; reflexivity|]. rewrite Z.add_0_r. unfold size in *. replace (Nat.ltb d (gdim g)) with false in * by (symmetry; apply Nat.ltb_ge, Hdd). destruct (in_dom g t W a Ha) as [Da _]. destruct (in_dom g t W b Hb) as [Db _]. destruct (Da d Hd) as (_ & _ & Za), (Db d Hd) as (_ & _ & Zb). rewrite (Za Hdd), (Zb Hdd) in S2 |- *. specialize (N d Hd). cbv zeta in N. unfold size in N. replace (Nat.ltb d (gdim g)) with false in N by (symmetry; apply Nat.ltb_ge, Hdd). lia. }
    split; intros d Hd; apply Q, Hd. }
  destruct Oz as [Oz Pz]. rewrite (F1 x b z Nx Ox Hb L Oz Pz). symmetry. apply (F2 x b z Nx Ox Hb L Oz Pz).
Qed.

(** What the ghost zones hold does not depend on what they and the coarse buffer held before. *)
Lemma fresh : forall g, valid_grid g -> no_pole g -> no_shear g -> plain g -> forall t, wf g t -> B g t -> forall ml, declared g ml (blocks t) -> forall Bz, fitting g Bz ml -> ng Bz = 2 ->
  forall (A P : Type) (V : loc -> arr4 (A := A)) (R : loc -> arr4 (A := A) -> arr4 (A := A)) (c2p : Z -> Z -> Z -> A -> P) (p2c : Z -> Z -> Z -> P -> A) (Pr : arr4 (A := P) -> arr4 (A := P)) (bc : nat -> bool -> arr4 (A := P) -> arr4 (A := P)),
  (forall b, local_restriction g Bz (R b)) -> local_boundary g Bz bc -> local_prolongation g Bz Pr -> forall a, In a (blocks t) -> forall es1 es2, (forall e, In e es1 <-> E g t ml a e) -> (forall e, In e es2 <-> E g t ml a e) ->
  forall st1 st2, (forall x, own Bz (gdim g) false x -> value (cons st1) 0 x = value (cons st2) 0 x) -> forall st1' st2', GhostZones c2p p2c Pr bc g ml t Bz V R a es1 st1 = Some st1' -> GhostZones c2p p2c Pr bc g ml t Bz V R a es2 st2 = Some st2' ->
  forall x b y, near Bz (gdim g) false (ng Bz) x -> in_coarser g Bz (blocks t) a (coarse_cell g Bz x) b y ->
  (forall s d hi, stencil g (coarse_cell g Bz x) s -> at_wall g a d hi -> side Bz (gdim g) true s d <> if hi then 1 else -1) -> value (prim st1') 0 x = value (prim st2') 0 x /\ value (cons st1') 0 x = value (cons st2') 0 x.
Proof.
  intros g Vg NP NS PL t W Bt ml ML Bz FT NG A P V R c2p p2c Pr bc LR LB LP a Ha es1 es2 H1 H2 st1 st2 Eo st1' st2' G1 G2 x b y Nx Pl NW.
  destruct (ghost_zones g Vg NP NS PL t W Bt ml ML Bz FT NG A P V R c2p p2c Pr bc LR LB a Ha es1 H1 st1) as (m1 & c1 & s1 & _ & E1 & F1 & K1 & Q1 & _). rewrite E1 in G1. injection G1 as ->.
  destruct (ghost_zones g Vg NP NS PL t W Bt ml ML Bz FT NG A P V R c2p p2c Pr bc LR LB a Ha es2 H2 st2) as (m2 & c2 & s2 & _ & E2 & F2 & K2 & Q2 & _). rewrite E2 in G2. injection G2 as ->.
  destruct (Q1 x b y Nx Pl) as (p1 & P1 & N1 & A1 & B1). destruct (Q2 x b y Nx Pl) as (p2 & P2 & N2 & A2 & B2).
  assert (Hm : ml = true /\ (groot g < level a)%nat). { destruct Pl as (Hb & L & _). destruct (in_dom g t W b Hb) as [_ Rb]. split; [apply (finer_ml g t W ml ML a (level b) Ha L Rb)|lia]. } destruct Hm as [Hm Lr].
  assert (X : value (Pr p1) 0 x = value (Pr p2) 0 x).
  { apply LP. intros s Hs. apply (proper_unique g Vg t W ml Bz FT Hm A P V (R a) c2p bc a m1 p1 p2 s Ha); [intros d hi; apply NW, Hs|apply P1, Hs|].
    destruct (P2 s Hs) as [Q|[(Ls & Q)|Q]]; [left; exact Q| |right; right; exact Q]. right. left. split; [exact Ls|]. rewrite Q. f_equal. apply LR. intros z Hz. symmetry.
    apply (level_main g Vg t W ml Bz FT Hm NG A V R a (cons st1) m1 m2 (cons st2) c1 _ c2 z s Ha Lr F1 F2 Eo K1 _ K2 Ls); [apply N1; [exact Hs|intros d hi; apply NW, Hs|exact Ls]|exact Hz]. }
  rewrite A1, A2, B1, B2, X. split; reflexivity.
Qed.
