(** Property theorems about the ghost zones of magnetic fields (C75). *)
From Coq Require Import List Arith NArith ZArith Bool Lia Permutation Reals Lra.
From Verif Require Import Fv_Model.
From Verif Require Fv_Spec.
From Verif Require Import Loc LB_Spec Tags_Model Tags_Spec Tags_Proofs AMR_Model AMR_Spec AMR_Proofs AMR_Proofs2 Tree_Model Tree_Spec Tree_Proofs1 Tree_Proofs2 Tree_Proofs3 Tree_Proofs4 Tree_Proofs5 Tree_Proofs6 Tree_Proofs7 Tree_Proofs8 Tree_Restart Tree_Proofs9 Tree_Proofs10 Tree_Props Nbr_Model Nbr_Spec Nbr_Proofs Nbr_Proofs2 Nbr_Proofs3 Nbr_Props Buf_Model Gho_Model Gho_Spec Gho_Proofs Gho_Proofs2 Gho_Props Con_Model Con_Spec Con_Proofs Con_Proofs5 Emf_Model Emf_Spec Mag_Spec Mag_Proofs2 Mag_Props Fgh_Model Fgh_Spec Fgh_Proofs Fgh_Proofs2 Fgh_Proofs3 Fgh_Proofs4 Fgh_Proofs5 Fgh_Model2 Fgh_Spec2 Fgh_Proofs6 Fgh_Proofs7 Fgh_Proofs8.
Import ListNotations.
Local Open Scope Z_scope.

(** C75: if blocks hold the same field on the faces they share, then, whatever the order in which the messages are unpacked, afterwards both faces of every ghost cell hold, in each direction, what the block that has the cell holds there;
    the block's own faces, those on its boundary included, are never changed. *)
Theorem C75_exchange : forall g, valid_grid g -> no_pole g -> no_shear g -> forall t, history g t -> forall ml, declared g ml (blocks t) -> forall B, fitting g B ml ->
  forall (A : Type) (V : loc -> arr4 (A := A)) (R : loc -> arr4 -> arr4), consistent g B (blocks t) V R -> forall a, In a (blocks t) -> exists ns, SearchAndSetNeighbors g ml t a = Some ns /\
  forall es, Permutation ns es -> forall main coarse, (forall c y, (c < 3)%nat -> own_face B (gdim g) false c y -> value main (Z.of_nat c) y = value (V a) (Z.of_nat c) y) ->
  exists main' coarse', SetFaceBoundaries g ml t B V R a es (main, coarse) = Some (main', coarse') /\
  faces_filled g B (blocks t) V R a main' coarse' /\ faces_kept g B (blocks t) a main main' coarse coarse'.
Proof.
  intros g Vg NP NS t H ml ML B FT A V R CS a Ha. pose proof (hist_wf g Vg t H) as W. pose proof (hist_B g Vg NP t H) as Bt.
  destruct (lists g Vg NP NS t W Bt ml ML a Ha) as (za & ns & _ & _ & Es & Hin & _). exists ns. split; [exact Es|]. intros es P main coarse Hm.
  destruct (exchange g Vg NP NS t W Bt ml ML B FT V R CS a es (main, coarse) Ha) as ([main' coarse'] & E' & Q1 & Q2).
  { intros e. rewrite <- Hin. split; intros X; [apply (Permutation_in e (Permutation_sym P)), X|apply (Permutation_in e P), X]. } { exact Hm. }
  exists main', coarse'. split; [exact E'|]. split; [exact Q1|exact Q2].
Qed.
Print Assumptions C75_exchange.
(** C75: each message has the length that the sender and the receiver set up their persistent MPI requests with, and fits the allocated buffer. *)
Theorem C75_message_sizes : forall g, valid_grid g -> no_pole g -> no_shear g -> forall t, history g t -> forall ml, declared g ml (blocks t) -> forall B, fitting g B ml ->
  forall (A : Type) (V : loc -> arr4 (A := A)) (R : loc -> arr4 -> arr4) a ns e, In a (blocks t) -> SearchAndSetNeighbors g ml t a = Some ns -> In e ns ->
  Z.of_nat (length (FLoad B ml (level a) (V a) (R a (V a)) e)) = fc_ssize B ml (level a) e /\ fc_ssize B ml (level a) e <= ComputeFaceBufferSize B ml (not_face e) (n_o1 e) (n_o2 e) (n_o3 e) /\
  exists msg, farriving g ml t B V R a e = Some msg /\ Z.of_nat (length msg) = fc_rsize B ml (level a) e.
Proof.
  intros g Vg NP NS t H ml ML B FT A V R a ns e Ha Es He. pose proof (hist_wf g Vg t H) as W. pose proof (hist_B g Vg NP t H) as Bt.
  destruct (lists g Vg NP NS t W Bt ml ML a Ha) as (za & ns' & _ & _ & Es' & Hin & _). assert (ns' = ns) by congruence. subst ns'. apply Hin in He.
  split; [apply (fload_length g Vg ml B FT t NP NS W Bt ML A a e _ _ Ha He)|]. split; [apply (fits g Vg ml B FT t NP NS W Bt ML a e Ha He)|].
  destruct (farriving_ok g Vg NP NS t W Bt ml ML B V R a e Ha He) as (Hb & e' & X1 & X2 & X3 & X4). eexists. split; [exact X1|].
  rewrite (fload_length g Vg ml B FT t NP NS W Bt ML A (n_loc e) e' _ _ Hb X2). apply (flip ml B e e' a (n_loc e) eq_refl X3 X4). apply (opp_type e e' (etype g Vg t W ml ML a e Ha He) (etype g Vg t W ml ML (n_loc e) e' Hb X2) X4).
Qed.
Print Assumptions C75_message_sizes.
(** C75: the fields that constrained transport keeps (C74) meet the condition of C75_exchange, with the code's restriction. *)
Theorem C75_fields_consistent : forall g, valid_grid g -> forall t, history g t -> forall ml, declared g ml (blocks t) -> forall B, fitting g B ml ->
  forall G, geometry_ok g B (blocks t) G -> areas_positive g B (blocks t) G -> forall b, fields_agree g B (blocks t) G b ->
  consistent g B (blocks t) (fun a => field4 (b a)) (fun a => RestrictField B (G a)).
Proof. intros g Vg t H ml ML B FT G GO PA b FA. apply (agree_consistent g Vg ml B FT t (hist_wf g Vg t H) ML G GO PA b FA). Qed.
Print Assumptions C75_fields_consistent.
(** C75: if no cell of any block is a source of magnetic flux, then after the exchange no ghost cell is that lies in a block of the same or the next finer level, and no cell of the coarse buffer that lies in a coarser block. *)
Theorem C75_uncharged : forall g, valid_grid g -> no_pole g -> no_shear g -> forall t, history g t -> forall ml, declared g ml (blocks t) -> forall B, fitting g B ml ->
  forall G Gc, geometry_ok g B (blocks t) G -> areas_positive g B (blocks t) G -> ghost_areas g B (blocks t) G Gc ->
  forall b, fields_agree g B (blocks t) G b -> no_charge B (blocks t) G b -> flat g B (blocks t) G b -> forall a, In a (blocks t) -> exists ns, SearchAndSetNeighbors g ml t a = Some ns /\
  forall es, Permutation ns es -> forall coarse, exists main' coarse', SetFaceBoundaries g ml t B (fun a => field4 (b a)) (fun a => RestrictField B (G a)) a es (field4 (b a), coarse) = Some (main', coarse') /\
  ghosts_uncharged g B (blocks t) G Gc a main' coarse' /\ forall x, own B (gdim g) false x -> charge (gdim g) (G a) main' x = 0%R.
Proof.
  intros g Vg NP NS t H ml ML B FT G Gc GO PA GA b FA NC FL a Ha. pose proof (hist_wf g Vg t H) as W. pose proof (charge_free g Vg ml B FT (blocks t) G b NC FL) as CF.
  destruct (C75_exchange g Vg NP NS t H ml ML B FT R (fun a => field4 (b a)) (fun a => RestrictField B (G a)) (C75_fields_consistent g Vg t H ml ML B FT G GO PA b FA) a Ha) as (ns & Es & X). exists ns. split; [exact Es|]. intros es P coarse.
  destruct (X es P (field4 (b a)) coarse (fun c y _ _ => eq_refl)) as (m & c & E & F & K). exists m, c. split; [exact E|]. split; [apply (uncharged g Vg ml B FT t W ML G Gc PA GA (fun a => field4 (b a)) CF a m c Ha F)|].
  intros x O. rewrite <- (CF a x Ha O). unfold charge. apply sum_map_ext. intros n Hn. apply in_seq in Hn. pose proof (dim13 g Vg). rewrite !(proj1 K x n) by (try lia; exact O). reflexivity.
Qed.
Print Assumptions C75_uncharged.
(** C75: uniform Cartesian meshes satisfy what is asked of the geometry. *)
Theorem C75_uniform_geometry : forall g, valid_grid g -> forall t, history g t -> forall ml, declared g ml (blocks t) -> forall B, fitting g B ml -> forall dx, (forall d, (d < 3)%nat -> (0 < dx d)%R) ->
  geometry_ok g B (blocks t) (uniform g dx) /\ areas_positive g B (blocks t) (uniform g dx) /\ ghost_areas g B (blocks t) (uniform g dx) (coarse_uniform g dx).
Proof.
  intros g Vg t H ml ML B FT dx Hdx. pose proof (hist_wf g Vg t H) as W. split; [apply (uniform_ok g Vg t W ml ML B FT dx Hdx)|]. split; [apply (uniform_positive g B dx (blocks t) Hdx)|apply (uniform_ghosts g Vg ml B FT t W dx)].
Qed.
Print Assumptions C75_uniform_geometry.
(** C75: after any run of updates and averages (C74) that leaves the field flat in missing directions, the exchange makes a field without magnetic charge in own cells, ghost cells and coarse buffer. *)
Theorem C75_after_run : forall g, valid_grid g -> no_pole g -> no_shear g -> forall t, history g t -> forall ml, declared g ml (blocks t) -> forall B, fitting g B ml ->
  forall dx, (forall d, (d < 3)%nat -> (0 < dx d)%R) -> let G := uniform g dx in
  forall regs regs', (forall r, fields_agree g B (blocks t) G (regs r) /\ no_charge B (blocks t) G (regs r)) -> field_run g ml t B G regs regs' ->
  forall r, flat g B (blocks t) G (regs' r) -> forall a, In a (blocks t) -> exists ns, SearchAndSetNeighbors g ml t a = Some ns /\
  forall es, Permutation ns es -> forall coarse, exists main' coarse', SetFaceBoundaries g ml t B (fun a => field4 (regs' r a)) (fun a => RestrictField B (G a)) a es (field4 (regs' r a), coarse) = Some (main', coarse') /\
  ghosts_uncharged g B (blocks t) G (coarse_uniform g dx) a main' coarse' /\ forall x, own B (gdim g) false x -> charge (gdim g) (G a) main' x = 0%R.
Proof.
  intros g Vg NP NS t H ml ML B FT dx Hdx G regs regs' H0 HR r FL. destruct (C75_uniform_geometry g Vg t H ml ML B FT dx Hdx) as (GO & PA & GA). destruct (C74_uniform_geometry g Vg t H ml ML B FT dx Hdx) as [MG GG].
  destruct (C74_history g Vg NP NS t H ml ML B FT G MG (fun a _ => GG a) regs regs' H0 HR r) as [FA NC]. apply (C75_uncharged g Vg NP NS t H ml ML B FT G (coarse_uniform g dx) GO PA GA (regs' r) FA NC FL).
Qed.
Print Assumptions C75_after_run.

(** ** The hypotheses are met *)
(** Values that name the place of the face in the domain, in cells of level 4. *)
Definition ex_V (b : loc) : arr4 := fun n k j i => (n, ((lx1 b * 8 + (i - 2)) * 2 ^ (4 - Z.of_nat (level b))) mod 128, ((lx2 b * 8 + (j - 2)) * 2 ^ (4 - Z.of_nat (level b))) mod 128).
Definition ex_R (b : loc) (_ : arr4 (A := Z * Z * Z)) : arr4 := fun n k j i => (n, ((lx1 b * 4 + (i - 2)) * 2 ^ (5 - Z.of_nat (level b))) mod 128, ((lx2 b * 4 + (j - 2)) * 2 ^ (5 - Z.of_nat (level b))) mod 128).
Lemma ex_consistent : consistent ex_grid ex_B (blocks ex_tree) ex_V ex_R.
Proof.
  assert (LV : forall b, In b (blocks ex_tree) -> (level b <= 4)%nat) by (intros b Hb; assert (Q : forallb (fun b => Nat.leb (level b) 4) (blocks ex_tree) = true) by (vm_compute; reflexivity); rewrite forallb_forall in Q; apply Nat.leb_le, Q, Hb).
  intros lev b h y b' h' y' c Hb Hb' L L' HR Hc O O' P. pose proof (LV b Hb) as B1. pose proof (LV b' Hb') as B2. change (groot ex_grid) with 1%nat in *.
  assert (LE : (lev <= 4)%nat) by (destruct h; lia).
  assert (Z0 : forall (h : bool) b y, level b = (if h then S lev else lev) -> value (reading ex_V ex_R h b) (Z.of_nat c) y =
    (Z.of_nat c, ((lx1 b * (if h then 4 else 8) + (y 0%nat - 2)) * 2 ^ (4 - Z.of_nat lev)) mod 128, ((lx2 b * (if h then 4 else 8) + (y 1%nat - 2)) * 2 ^ (4 - Z.of_nat lev)) mod 128)).
  { intros [|] x z E; unfold reading, value, ex_V, ex_R; rewrite E; [replace (5 - Z.of_nat (S lev)) with (4 - Z.of_nat lev) by lia|]; reflexivity. }
  rewrite (Z0 h b y L), (Z0 h' b' y' L').
  assert (M : forall u v s, (s = 0 \/ s = 2 * 2 ^ Z.of_nat (lev - 1) * 8 \/ s = - (2 * 2 ^ Z.of_nat (lev - 1) * 8)) -> v = u + s -> (u * 2 ^ (4 - Z.of_nat lev)) mod 128 = (v * 2 ^ (4 - Z.of_nat lev)) mod 128).
  { intros u v s Hs ->. rewrite Z.mul_add_distr_r. assert (Q : 2 * 2 ^ Z.of_nat (lev - 1) * 8 * 2 ^ (4 - Z.of_nat lev) = 128). { assert (X : lev = 1%nat \/ lev = 2%nat \/ lev = 3%nat \/ lev = 4%nat) by lia. destruct X as [->|[->|[->| ->]]]; reflexivity. }
    destruct Hs as [->|[->| ->]]; [rewrite Z.mul_0_l, Z.add_0_r; reflexivity|rewrite Q; symmetry; exact (Z_mod_plus _ 1 128 eq_refl)|]. rewrite Z.mul_opp_l, Q. symmetry. exact (Z_mod_plus _ (-1) 128 eq_refl). }
  destruct (P 0%nat ltac:(lia)) as (s0 & S0 & E0). destruct (P 1%nat ltac:(lia)) as (s1 & S1 & E1). f_equal; [f_equal|].
  - apply (M _ _ s0); [destruct S0 as [->|(_ & _ & S0)]; [left; reflexivity|right; exact S0]|]. destruct h, h'; exact E0.
  - apply (M _ _ s1); [destruct S1 as [->|(_ & _ & S1)]; [left; reflexivity|right; exact S1]|]. destruct h, h'; exact E1.
Qed.
Definition fresult (a : loc) (n : Z) (x : cell) : option ((Z * Z * Z) * (Z * Z * Z)) :=
  match SearchAndSetNeighbors ex_grid true ex_tree a with Some ns => match SetFaceBoundaries ex_grid true ex_tree ex_B ex_V ex_R a (rev ns) (ex_V a, fun _ _ _ _ => (7, 7, 7)) with Some (m, c) => Some (value m n x, value c n x) | None => None end | None => None end.
(** Block (2; 3, 0), whose right neighbour across the periodic boundary is split: the faces around ghost cell (11, 3), and those of the coarse buffer of block (3; 0, 0) to its left. *)
Example ex_faces : fresult (mkLoc 2 3 0 0) 0 (c2 11 3) = Some ((0, 4, 4), (7, 7, 7)) /\ fresult (mkLoc 2 3 0 0) 1 (c2 11 4) = Some ((1, 4, 8), (7, 7, 7)) /\ fresult (mkLoc 3 0 0 0) 0 (c2 1 3) = Some ((0, 126, 2), (0, 124, 4)).
Proof. split; [|split]; vm_compute; reflexivity. Qed.
(** A uniform field on the same mesh; the hypotheses on geometry and field hold, and a ghost cell lies in a finer block. *)
Example ex_uniform_field : geometry_ok ex_grid ex_B (blocks ex_tree) ex_G /\ areas_positive ex_grid ex_B (blocks ex_tree) ex_G /\ ghost_areas ex_grid ex_B (blocks ex_tree) ex_G (coarse_uniform ex_grid Mag_Props.ex_dx) /\
  fields_agree ex_grid ex_B (blocks ex_tree) ex_G (ex_b 0) /\ no_charge ex_B (blocks ex_tree) ex_G (ex_b 0) /\ flat ex_grid ex_B (blocks ex_tree) ex_G (ex_b 0) /\
  same_place ex_grid ex_B 2 (mkLoc 2 3 0 0) false (c2 11 3) (mkLoc 3 0 0 0) true (c2 3 3).
Proof.
  destruct (C75_uniform_geometry ex_grid (proj1 ex_grid_ok) ex_tree (proj1 ex_history) true ex_declared ex_B (proj1 ex_fitting) Mag_Props.ex_dx ex_dx_pos) as (GO & PA & GA). destruct (ex_start 0) as [S1 S2].
  split; [exact GO|]. split; [exact PA|]. split; [exact GA|]. split; [exact S1|]. split; [exact S2|]. split; [|apply ex_place]. intros a x c _ _ _. destruct c as [|[|c]]; reflexivity.
Qed.
