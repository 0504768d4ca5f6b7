(** Uniform meshes have an admissible geometry; fluxes computed after the exchange of ghost zones agree. *)
From Coq Require Import List Arith NArith ZArith Bool Lia Permutation Reals Lra.
From Verif Require Import Fv_Model Fv_Spec Fv_Proofs2 Fv_Proofs3 Loc LB_Spec Tags_Model Tags_Spec Tags_Proofs AMR_Model AMR_Spec AMR_Proofs AMR_Proofs2 Tree_Model Tree_Spec Tree_Proofs1 Tree_Proofs2 Tree_Proofs3 Tree_Proofs4 Tree_Proofs5 Tree_Proofs6 Tree_Proofs7 Tree_Proofs8 Tree_Restart Tree_Proofs9 Tree_Proofs10 Nbr_Model Nbr_Spec Nbr_Proofs Nbr_Proofs2 Nbr_Proofs3 Buf_Model Gho_Model Gho_Spec Gho_Proofs Gho_Proofs2 Con_Model Con_Spec Con_Proofs Con_Proofs2 Con_Proofs3 Con_Proofs4.
Import ListNotations.
Local Open Scope Z_scope.

Lemma sum_const : forall (T : Type) (c : R) (f : T -> R) l, (forall x, In x l -> f x = c) -> Fv_Spec.sum (map f l) = (INR (length l) * c)%R.
Proof. intros T c f l H. induction l as [|x l IH]; [cbn; ring|]. cbn [map length]. rewrite sum_cons', IH by (intros y Hy; apply H; right; exact Hy). rewrite (H x (or_introl eq_refl)), S_INR. ring. Qed.
Lemma nodup_same_length : forall (T : Type) (l l' : list T), NoDup l -> NoDup l' -> (forall x, In x l <-> In x l') -> length l = length l'.
Proof. intros T l l' N1 N2 H. apply Permutation_length, NoDup_Permutation; assumption. Qed.

Section N.
Variable g : grid.
Hypothesis Vg : valid_grid g.
Variable t : tree.
Hypothesis W : wf g t.
Variable ml : bool.
Hypothesis ML : declared g ml (blocks t).
Variable Bz : bsz.
Hypothesis FT : fitting g Bz ml.
Local Notation dim := (gdim g).

Lemma block_facts : forall a d, In a (blocks t) -> (d < 3)%nat -> (groot g <= level a)%nat /\ 0 <= coord d a < (if Nat.ltb d dim then gnrb g d * 2 ^ Z.of_nat (level a - groot g) else 1).
Proof using Vg W.
  intros a d Ha Hd. apply (in_blocks g t a W) in Ha as [Ca (za & Ka)]. destruct (leaf_level g t a za W Ca Ka) as [Da Ra]. split; [exact Ra|]. pose proof (dom_inr g a d Ra Da Hd) as H. unfold inr, nmax in H. destruct (Nat.ltb d dim); lia.
Qed.
(** The finer faces on a face form a box. *)
Lemma count_parts : forall a b dir p qs, In a (blocks t) -> In b (blocks t) -> level b = S (level a) -> (dir < dim)%nat -> NoDup qs -> qs <> [] -> (forall q, In q qs <-> face_of g Bz dir q /\ on_face g Bz dir a p b q) -> length qs = (2 ^ (dim - 1))%nat.
Proof using Vg W ML FT.
  intros a b dir p qs Ha Hb L Hdir ND NE H. pose proof (dim13 g Vg) as D13. destruct qs as [|q0 qs0] eqn:Eq; [contradiction NE; reflexivity|]. rewrite <- Eq in *. assert (H0 : In q0 qs) by (rewrite Eq; left; reflexivity). clear Eq NE. apply H in H0 as [F0 O0].
  assert (Hm : ml = true). { destruct ml eqn:Em; [reflexivity|]. pose proof (ML eq_refl b Hb). destruct (block_facts a 0 Ha ltac:(lia)) as [R _]. lia. }
  set (rng := fun d => if Nat.eqb d dir || negb (Nat.ltb d dim) then [index q0 d] else let r := (index q0 d - first Bz dim d) mod 2 in [index q0 d - r; index q0 d - r + 1]).
  assert (Char : forall q, In q qs <-> forall d, (d < 3)%nat -> In (index q d) (rng d)).
  { intros q. rewrite H. 
    assert (Key : forall d, (d < 3)%nat -> (first Bz dim d <= index q d < first Bz dim d + size Bz dim false d + (if Nat.eqb d dir then 1 else 0)) /\ ((d < dim)%nat -> exists s, period_shift g d (domain_cells g Bz (level b) d) s /\
        (if Nat.eqb d dir then place g Bz b q d = 2 * place g Bz a p d + s else 2 * place g Bz a p d + s <= place g Bz b q d <= 2 * place g Bz a p d + 1 + s)) <-> In (index q d) (rng d)).
    { intros d Hd. specialize (F0 d Hd). unfold rng. destruct (D_facts g Vg ml Bz FT d Hd) as (_ & _ & _ & A4 & A5 & A6). rewrite A4 in *. set (n := cells_in Bz d) in *. set (f := first Bz dim d) in *. destruct (Nat.ltb_spec d dim) as [Ld|Ld].
      - specialize (A5 Ld). specialize (O0 d Ld). destruct O0 as (s0 & S0 & P0). destruct (block_facts b d Hb Hd) as [Rb Cb]. rewrite (proj2 (Nat.ltb_lt _ _) Ld) in Cb. destruct (block_facts a d Ha Hd) as [Ra _]. unfold place, domain_cells in *. fold n f in P0, S0 |- *.
        assert (Ep : 2 ^ Z.of_nat (level b - groot g) = 2 * 2 ^ Z.of_nat (level a - groot g)) by (rewrite L, Nat.sub_succ_l by exact Ra; rewrite Nat2Z.inj_succ, Z.pow_succ_r by lia; reflexivity). rewrite Ep in *.
        set (M := gnrb g d * 2 ^ Z.of_nat (level a - groot g)) in *. replace (gnrb g d * (2 * 2 ^ Z.of_nat (level a - groot g)) * n) with (2 * (M * n)) in * by (unfold M; ring).
        assert (HM : 1 <= M). { unfold M. destruct Vg as (_ & V2 & _). destruct (V2 d Hd) as [V3 _]. assert (0 < 2 ^ Z.of_nat (level a - groot g)) by (apply Z.pow_pos_nonneg; lia). nia. }
        assert (HMn : n <= M * n) by nia. pose proof (shift_val _ _ _ _ S0) as V0. destruct (multi_facts g Bz ml D13 FT Hm d Ld) as (h & _ & Eh & _). fold n in Eh.
        set (Cn := coord d b * n) in *. assert (EC : exists c, Cn = 2 * c) by (exists (coord d b * h); unfold Cn; rewrite Eh; ring). destruct EC as (c & EC). set (Pa := coord d a * n + (index p d - f)) in *. set (Mn := M * n) in *.
        destruct (Nat.eqb d dir); cbn [orb negb].
        + split.
          * intros [R1 R2]. destruct (R2 Ld) as (s' & S' & P'). pose proof (shift_val _ _ _ _ S') as V'. left. clear -R1 P0 P' V0 V' HMn A5 F0. lia.
          * intros [E|[]]. rewrite <- E. split; [exact F0|]. intros _. exists s0. split; [exact S0|exact P0].
        + cbn [orb negb]. cbv zeta. pose proof (Z.mod_pos_bound (index q0 d - f) 2 ltac:(lia)) as Hr. pose proof (Z.div_mod (index q0 d - f) 2 ltac:(lia)) as Hdm. set (r := (index q0 d - f) mod 2) in *. set (u := (index q0 d - f) / 2) in *. cbn [In]. split.
          * intros [R1 R2]. destruct (R2 Ld) as (s' & S' & P'). pose proof (shift_val _ _ _ _ S') as V'. assert (Es : s' = s0) by (clear -R1 P0 P' V0 V' HMn A5 F0; lia). subst s'. clear -R1 P0 P' V0 Hr Hdm EC. lia.
          * intros E. split; [clear -E F0 Eh Hr Hdm; lia|]. intros _. exists s0. split; [exact S0|]. clear -E P0 V0 Hr Hdm EC. lia.
      - destruct (Nat.eqb_spec d dir) as [Ed|Ed]; [lia|]. cbn [orb negb]. specialize (A6 Ld). rewrite A6 in *. split; [intros [R1 _]; left; lia|intros [E|[]]; split; [lia|intros; lia]]. }
    split.
    - intros [H1 H2] d Hd. apply (Key d Hd). split; [apply H1, Hd|intros Hd2; apply H2, Hd2].
    - intros HI. split; intros d Hd; [apply (Key d Hd), HI, Hd|]. apply (Key d ltac:(lia)); [apply HI; lia|exact Hd]. }
  set (box := flat_map (fun k => flat_map (fun j => map (fun i => (k, j, i)) (rng 0%nat)) (rng 1%nat)) (rng 2%nat)).
  assert (Nr : forall d, NoDup (rng d)) by (intros d; unfold rng; destruct (_ || _)%bool; repeat constructor; cbn [In]; lia).
  assert (Lr : forall d, length (rng d) = if Nat.eqb d dir || negb (Nat.ltb d dim) then 1%nat else 2%nat) by (intros d; unfold rng; destruct (_ || _)%bool; reflexivity).
  assert (Ib : forall q, In q box <-> forall d, (d < 3)%nat -> In (index q d) (rng d)).
  { intros [[k j] i]. rewrite all3. cbn [index]. unfold box. rewrite in_flat_map. split.
    - intros (k' & Hk & X). apply in_flat_map in X as (j' & Hj & X). apply in_map_iff in X as (i' & X & Hi). injection X as -> -> ->. split; [exact Hi|]. split; assumption.
    - intros (Hi & Hj & Hk). exists k. split; [exact Hk|]. apply in_flat_map. exists j. split; [exact Hj|]. apply in_map_iff. exists i. split; [reflexivity|exact Hi]. }
  rewrite (nodup_same_length _ qs box ND).
  - unfold box. assert (Ef : forall (X Y : Type) (f : X -> list Y) l m, (forall x, length (f x) = m) -> length (flat_map f l) = (length l * m)%nat) by (intros X Y f l m Hm'; induction l as [|x l IH]; [reflexivity|]; cbn [flat_map length]; rewrite app_length, IH, Hm'; reflexivity).
    rewrite (Ef _ _ _ _ (length (rng 1%nat) * length (rng 0%nat))%nat) by (intros k; rewrite (Ef _ _ _ _ (length (rng 0%nat))) by (intros j; apply map_length); reflexivity). rewrite !Lr. clear -D13 Hdir.
    assert (Ed : dim = 1%nat \/ dim = 2%nat \/ dim = 3%nat) by lia. destruct Ed as [Ed|[Ed|Ed]]; rewrite Ed in *; destruct dir as [|[|[|dir]]]; try lia; reflexivity.
  - unfold box. clear -Nr. generalize (Nr 0%nat) (Nr 1%nat) (Nr 2%nat). generalize (rng 0%nat) (rng 1%nat) (rng 2%nat). intros li lj lk Ni Nj Nk.
    assert (NA : forall (T : Type) (l1 l2 : list T), NoDup l1 -> NoDup l2 -> (forall p, In p l1 -> ~ In p l2) -> NoDup (l1 ++ l2)).
    { intros T l1. induction l1 as [|a l1 IH1]; intros l2 N1 N2 Hd; [exact N2|]. apply NoDup_cons_iff in N1 as [M1 M2]. cbn [app]. constructor.
      - rewrite in_app_iff. intros [X|X]; [contradiction|]. apply (Hd a); [left; reflexivity|exact X].
      - apply IH1; [exact M2|exact N2|]. intros p Hp. apply Hd. right. exact Hp. }
    induction Nk as [|k lk Hk Nk IH]; [constructor|]. cbn [flat_map]. apply NA; [|exact IH|].
    + apply (nodup_grid3 (fun j i => (k, j, i))); [intros x y x' y' X; injection X; auto|exact Nj|exact Ni].
    + intros [[k' j'] i'] Hp Hq. apply in_flat_map in Hp as (j & _ & Hp). apply in_map_iff in Hp as (i & X & _). injection X as <- _ _. apply in_flat_map in Hq as (k2 & Hk2 & Hq). apply in_flat_map in Hq as (j2 & _ & Hq). apply in_map_iff in Hq as (i2 & X & _). injection X as -> _ _. contradiction.
  - intros q. rewrite Char, Ib. reflexivity.
Qed.
Lemma uniform_ok : forall dx, (forall d, (d < 3)%nat -> (0 < dx d)%R) -> geometry_ok g Bz (blocks t) (uniform g dx).
Proof using Vg W ML FT.
  intros dx Hdx. pose proof (dim13 g Vg) as D13. assert (Hp : forall lev d, (d < 3)%nat -> (0 < cell_length g dx lev d)%R). { intros lev d Hd. unfold cell_length. specialize (Hdx d Hd). destruct (Nat.ltb d dim); [|exact Hdx]. apply Rdiv_lt_0_compat; [exact Hdx|]. apply pow_lt. lra. }
  assert (Hh : forall a b d, In a (blocks t) -> level b = S (level a) -> (d < 3)%nat -> cell_length g dx (level a) d = ((if Nat.ltb d dim then 2 else 1) * cell_length g dx (level b) d)%R).
  { intros a b d Ha L Hd. destruct (block_facts a d Ha Hd) as [Ra _]. unfold cell_length. destruct (Nat.ltb d dim); [|ring]. rewrite L, Nat.sub_succ_l by exact Ra. cbn [pow]. field. apply pow_nonzero. lra. }
  constructor.
  - intros a k j i Ha _. cbn. pose proof (Hp (level a) 0%nat ltac:(lia)). pose proof (Hp (level a) 1%nat ltac:(lia)). pose proof (Hp (level a) 2%nat ltac:(lia)). apply Rgt_not_eq. apply Rmult_lt_0_compat; [apply Rmult_lt_0_compat|]; assumption.
  - intros a b dir [[k j] i] [[k' j'] i'] Ha Hb L _ _ _ _. unfold area, uniform. rewrite L. destruct dir as [|[|dir]]; reflexivity.
  - intros a b dir p qs Ha Hb L Hdir Hf ND NE H. pose proof (count_parts a b dir p qs Ha Hb L Hdir ND NE H) as Hl.
    set (c := area (uniform g dx b) dir (0, 0, 0)). rewrite (sum_const _ c) by (intros [[k j] i] _; unfold c, area, uniform; destruct dir as [|[|dir]]; reflexivity). rewrite Hl.
    pose proof (Hh a b 0%nat Ha L ltac:(lia)) as H0. pose proof (Hh a b 1%nat Ha L ltac:(lia)) as H1. pose proof (Hh a b 2%nat Ha L ltac:(lia)) as H2. pose proof (Hp (level a) 0%nat ltac:(lia)) as Q0. pose proof (Hp (level a) 1%nat ltac:(lia)) as Q1. pose proof (Hp (level a) 2%nat ltac:(lia)) as Q2.
    split.
    + unfold c, area, uniform. assert (Ed : dim = 1%nat \/ dim = 2%nat \/ dim = 3%nat) by lia. destruct p as [[k j] i]. destruct Ed as [Ed|[Ed|Ed]]; rewrite Ed in *; cbn [Nat.ltb Nat.leb Nat.sub Nat.pow Nat.mul Nat.add] in *; destruct dir as [|[|[|dir]]]; try lia; cbn [Fv_Spec.at_ A1 A2 A3]; rewrite ?H0, ?H1, ?H2; cbn [INR]; ring.
    + apply Rgt_not_eq. unfold area, uniform. destruct p as [[k j] i]. destruct dir as [|[|dir]]; cbn [Fv_Spec.at_ A1 A2 A3]; apply Rmult_lt_0_compat; assumption.
Qed.
End N.
