(** Property theorems about the ghost zones of cell-centred variables (C27). *)
From Coq Require Import List Arith NArith ZArith Bool Lia Permutation.
From Verif Require Import Loc LB_Spec Tags_Model AMR_Model AMR_Spec AMR_Proofs AMR_Proofs2 Tree_Model Tree_Spec Tree_Proofs1 Tree_Proofs2 Tree_Proofs3 Tree_Proofs4 Tree_Proofs5 Tree_Proofs6 Tree_Proofs7 Tree_Proofs8 Tree_Restart Tree_Proofs9 Tree_Proofs10 Tree_Props Nbr_Model Nbr_Spec Nbr_Proofs Nbr_Proofs2 Nbr_Proofs3 Buf_Model Gho_Model Gho_Spec Gho_Proofs Gho_Proofs2 Gho_Proofs3 Gho_Proofs4 Gho_Proofs5 Gho_Proofs6.
Import ListNotations.
Local Open Scope Z_scope.

(** C27: whatever the order in which the messages are unpacked, afterwards every ghost cell of a block that lies in a block of its own level holds that block's value at that place, every ghost cell that lies in a block of
    the next finer level the restricted value there, every cell of the coarse buffer that the prolongation needs the value of the coarser block there; nothing else changes. *)
Theorem C27_exchange : forall g, valid_grid g -> no_pole g -> no_shear g -> forall t, history g t -> forall ml, declared g ml (blocks t) -> forall B, fitting g B ml ->
  forall (A : Type) (nl nu : Z) (V : loc -> arr4 (A := A)) (R : loc -> arr4 -> arr4) a, In a (blocks t) -> exists ns, SearchAndSetNeighbors g ml t a = Some ns /\
  forall es, Permutation ns es -> forall main coarse, exists main' coarse', SetBoundaries g ml t B nl nu V R a es (main, coarse) = Some (main', coarse') /\
  (forall n, nl <= n <= nu -> filled g B (blocks t) V R a n main' coarse' /\ kept g B (blocks t) a n main main' coarse coarse') /\
  (forall n x, ~ nl <= n <= nu -> value main' n x = value main n x /\ value coarse' n x = value coarse n x).
Proof.
  intros g Vg NP NS t H ml ML B FT A nl nu V R a Ha. pose proof (hist_wf g Vg t H) as W. pose proof (hist_B g Vg NP t H) as Bt.
  destruct (lists g Vg NP NS t W Bt ml ML a Ha) as (za & ns & _ & _ & Es & Hin & _). exists ns. split; [exact Es|]. intros es P main coarse.
  destruct (exchange g Vg NP NS t W Bt ml ML B FT nl nu V R a es (main, coarse) Ha) as ([main' coarse'] & E' & Q1 & Q2).
  { intros e. rewrite <- Hin. split; intros X; [apply (Permutation_in e (Permutation_sym P)), X|apply (Permutation_in e P), X]. }
  exists main', coarse'. split; [exact E'|]. split; [exact Q1|exact Q2].
Qed.
Print Assumptions C27_exchange.
(** C27: no ghost cell inside the domain is forgotten: it lies in a block of the same level, in one of the next finer level, or the coarse cell around it, one of those the coarse buffer receives, in one of the next coarser level. *)
Theorem C27_complete : forall g, valid_grid g -> no_pole g -> no_shear g -> forall t, history g t -> forall ml, declared g ml (blocks t) -> forall B, fitting g B ml ->
  forall a x, In a (blocks t) -> near B (gdim g) false (ng B) x -> ~ own B (gdim g) false x -> inside g B a x -> exists b y, In b (blocks t) /\
  ((level b = level a /\ own B (gdim g) false y /\ same_place g B (level a) a false x b false y) \/
   (level b = S (level a) /\ own B (gdim g) true y /\ same_place g B (level a) a false x b true y) \/
   (level a = S (level b) /\ near B (gdim g) true (coarse_ghosts B) (coarse_cell g B x) /\ own B (gdim g) false y /\ same_place g B (level b) a true (coarse_cell g B x) b false y)).
Proof.
  intros g Vg NP NS t H ml ML B FT a x. apply (complete g Vg NP NS t (hist_wf g Vg t H) (hist_B g Vg NP t H) ml ML B FT).
Qed.
Print Assumptions C27_complete.
(** C27: each message has the length the persistent MPI requests are set up with (C16), and fits the allocated buffer. *)
Theorem C27_message_sizes : forall g, valid_grid g -> no_pole g -> no_shear g -> forall t, history g t -> forall ml, declared g ml (blocks t) -> forall B, fitting g B ml ->
  forall (A : Type) (nl nu : Z) (v r : arr4 (A := A)) a ns e, In a (blocks t) -> SearchAndSetNeighbors g ml t a = Some ns -> In e ns -> 0 <= nl <= nu ->
  cc_ssize (gdim g) (Z.to_nat (ng B)) (Z.to_nat (cng B)) (Z.to_nat (bn1 B), Z.to_nat (bn2 B), Z.to_nat (bn3 B)) (Z.to_nat (nu - nl + 1)) (level a) e = Some (length (Load B nl nu (level a) v r e)) /\
  Z.of_nat (length (Load B nl nu (level a) v r e)) <= ComputeVariableBufferSize B ml nu (n_o1 e) (n_o2 e) (n_o3 e).
Proof.
  intros g Vg NP NS t H ml ML B FT A nl nu v r a ns e Ha Es He Hn. pose proof (hist_wf g Vg t H) as W. pose proof (hist_B g Vg NP t H) as Bt.
  destruct (lists g Vg NP NS t W Bt ml ML a Ha) as (za & ns' & _ & _ & Es' & Hin & _). assert (ns' = ns) by congruence. subst ns'. apply Hin in He.
  destruct (load_length g Vg ml B FT t NP NS W Bt ML A nl nu a e v r Ha He) as [P1 P2]. split; [exact P1|]. rewrite Z.max_l in P2 by lia. apply P2. lia.
Qed.
Print Assumptions C27_message_sizes.
(** The sizes accepted by the code are those of the theorems on uniform meshes; on refined meshes twice as many cells as ghost cells are needed in addition. *)
Theorem C27_accepted_sizes : forall g, valid_grid g -> forall B ml xorder, 2 <= ng B -> (forall d, (gdim g <= d < 3)%nat -> cells_in B d = 1) -> block_size_ok (gdim g) ml xorder B = true ->
  (ml = true -> forall d, (d < gdim g)%nat -> 2 * ng B <= cells_in B d) -> fitting g B ml.
Proof.
  intros g Vg B ml xo Hng Hin Hok Hbig. pose proof (dim13 g Vg) as D.
  assert (Q : forall d, (d < gdim g)%nat -> ng B <= cells_in B d /\ (ml = true -> Z.even (cells_in B d) = true /\ Z.even (ng B) = true)).
  { intros d Hd. unfold block_size_ok in Hok. cbv zeta in Hok. destruct ml; rewrite ?andb_true_iff, ?orb_true_iff, ?Nat.leb_le, ?Z.leb_le, ?Z.eqb_eq in Hok.
    - destruct Hok as [[[[H1 H2] H3] [[M1 M2] M3]] M]. assert (EV : forall z, z mod 2 = 0 -> Z.even z = true) by (intros z Hz; rewrite Zeven_mod, Hz; reflexivity).
      destruct d as [|[|[|d]]]; cbn [cells_in]; try lia; (split; [lia|]; intros _; split; apply EV; try exact M; lia).
    - destruct Hok as [[H1 H2] H3]. split; [|intros X; discriminate X]. destruct d as [|[|[|d]]]; cbn [cells_in]; lia. }
  split; [lia|]. split.
  - intros d Hd. split; [intros Ha; destruct (Q d Ha); lia|intros Hi; apply Hin; lia].
  - intros Hm. split; [apply (Q 0%nat ltac:(lia)), Hm|]. intros d Hd. split; [apply (Q d Hd), Hm|apply Hbig; assumption].
Qed.
Print Assumptions C27_accepted_sizes.

(** ** The hypotheses are met *)
Definition ex_B := mkB 2 8 8 1.
Example ex_fitting : fitting ex_grid ex_B true /\ block_size_ok (gdim ex_grid) true 2 ex_B = true.
Proof. split; [|reflexivity]. split; [cbn; lia|]. split; [|intros _; split; [reflexivity|]; intros [|[|d]] Hd; [split; [reflexivity|cbn; lia]|split; [reflexivity|cbn; lia]|cbn in Hd; lia]]. intros [|[|[|d]]] Hd; cbn; lia. Qed.
(** Values that name the block and the cell; the restriction takes the first of the fine cells. *)
Definition ex_V (b : loc) : arr4 := fun n k j i => (level b, (lx1 b, lx2 b), (n, k, j, i)).
Definition ex_R (b : loc) (v : arr4 (A := nat * (Z * Z) * (Z * Z * Z * Z))) : arr4 := fun n k j i => v n k (2 * (j - 2) + 2) (2 * (i - 2) + 2).
Definition c2 (i j : Z) : cell := fun d => match d with 0%nat => i | 1%nat => j | _ => 0 end.
(** Block (2; 3, 0) of the refined mesh: its right neighbour across the periodic boundary is split; ghost cell (11, 3) lies in the lower one of the two finer blocks there, in its coarse cell (3, 3). *)
Example ex_place : In (mkLoc 2 3 0 0) (blocks ex_tree) /\ near ex_B 2 false 2 (c2 11 3) /\ ~ own ex_B 2 false (c2 11 3) /\ inside ex_grid ex_B (mkLoc 2 3 0 0) (c2 11 3) /\
  own ex_B 2 true (c2 3 3) /\ same_place ex_grid ex_B 2 (mkLoc 2 3 0 0) false (c2 11 3) (mkLoc 3 0 0 0) true (c2 3 3).
Proof.
  split; [vm_compute; tauto|]. split; [intros [|[|[|d]]] Hd; cbn; lia|]. split; [intros O; specialize (O 0%nat ltac:(lia)); cbn in O; lia|]. split.
  - intros [|[|d]] Hd; [exists (-32)|exists 0|cbn in Hd; lia]; (split; [|cbn; lia]); [right; cbn; auto|left; reflexivity].
  - split; [intros [|[|[|d]]] Hd; cbn; lia|]. intros [|[|[|d]]] Hd; [exists (-32)|exists 0|exists 0|lia]; (split; [|reflexivity]); [right; cbn; auto|left; reflexivity|left; reflexivity].
Qed.
(** What the exchange leaves at place x of component n of the block's own array and of its coarse buffer, for the messages in the order of the neighbour list. *)
Definition result_at {A : Type} (B : bsz) (nl nu : Z) (V : loc -> arr4 (A := A)) (R : loc -> arr4 -> arr4) (a : loc) (st : arr4 * arr4) (n : Z) (x : cell) : option (A * A) :=
  match SearchAndSetNeighbors ex_grid true ex_tree a with Some ns => match SetBoundaries ex_grid true ex_tree B nl nu V R a ns st with Some (m, c) => Some (value m n x, value c n x) | None => None end | None => None end.
Lemma result_ex : forall A B nl nu (V : loc -> arr4 (A := A)) R a st n x u w, result_at B nl nu V R a st n x = Some (u, w) ->
  exists ns m c, SearchAndSetNeighbors ex_grid true ex_tree a = Some ns /\ SetBoundaries ex_grid true ex_tree B nl nu V R a ns st = Some (m, c) /\ value m n x = u /\ value c n x = w.
Proof.
  intros A B nl nu V R a st n x u w. unfold result_at. destruct (SearchAndSetNeighbors ex_grid true ex_tree a) as [ns|]; [|intros X; discriminate X].
  destruct (SetBoundaries ex_grid true ex_tree B nl nu V R a ns st) as [[m c]|] eqn:E; [|intros X; discriminate X]. intros X. injection X as X1 X2. exists ns, m, c. split; [reflexivity|]. split; [exact E|]. split; [exact X1|exact X2].
Qed.
Example ex_exchange : result_at ex_B 0 1 ex_V ex_R (mkLoc 2 3 0 0) (ex_V rootloc, ex_V rootloc) 1 (c2 11 3) = Some ((3%nat, (0, 0), (1, 0, 4, 4)), value (ex_V rootloc) 1 (c2 11 3)) /\
  result_at ex_B 0 1 ex_V ex_R (mkLoc 3 0 0 0) (ex_V rootloc, ex_V rootloc) 1 (c2 1 3) = Some (value (ex_V rootloc) 1 (c2 1 3), (2%nat, (3, 0), (1, 0, 3, 9))).
Proof. split; vm_compute; reflexivity. Qed.

(** C27 does not hold for all block sizes the code accepts on a refined mesh: with two ghost cells and blocks of two cells, accepted for second-order reconstruction, the message to a coarser block also takes cells the
    sender does not own.  Here every block holds 1 in its own cells, but a ghost cell that lies in a finer block receives 0, the content of a ghost cell of the sender before the exchange. *)
Definition small := mkB 2 2 2 1.
Definition ones (b : loc) : arr4 (A := Z) := fun n k j i => if Z.leb 2 i && Z.leb i 3 && Z.leb 2 j && Z.leb j 3 then 1 else 0.
Definition first_cell (b : loc) (v : arr4 (A := Z)) : arr4 := fun n k j i => v n k (2 * (j - 2) + 2) (2 * (i - 2) + 2).
Theorem C27_small_blocks_refuted : exists g t a, valid_grid g /\ no_pole g /\ no_shear g /\ history g t /\ declared g true (blocks t) /\ In a (blocks t) /\ block_size_ok (gdim g) true 2 small = true /\
  (forall b y, In b (blocks t) -> own small (gdim g) false y -> value (ones b) 0 y = 1) /\ (forall b y, own small (gdim g) true y -> value (first_cell b (ones b)) 0 y = 1) /\
  exists ns main coarse, SearchAndSetNeighbors g true t a = Some ns /\ SetBoundaries g true t small 0 0 ones first_cell a ns (ones a, ones a) = Some (main, coarse) /\
  ~ filled g small (blocks t) ones first_cell a 0 main coarse /\
  exists x b y, near small (gdim g) false (ng small) x /\ ~ own small (gdim g) false x /\ In b (blocks t) /\ level b = S (level a) /\ own small (gdim g) true y /\ same_place g small (level a) a false x b true y /\ value main 0 x = 0.
Proof.
  exists ex_grid, ex_tree, (mkLoc 2 3 0 0). destruct ex_grid_ok as (V & NP & NS). split; [exact V|]. split; [exact NP|]. split; [exact NS|]. split; [exact (proj1 ex_history)|]. split; [intros X; discriminate X|]. split; [vm_compute; tauto|]. split; [reflexivity|].
  split. { intros b y _ O. pose proof (O 0%nat ltac:(lia)) as O0. pose proof (O 1%nat ltac:(lia)) as O1. cbn in O0, O1. unfold value, ones. destruct (Z.leb_spec 2 (y 0%nat)), (Z.leb_spec (y 0%nat) 3), (Z.leb_spec 2 (y 1%nat)), (Z.leb_spec (y 1%nat) 3); cbn [andb]; reflexivity || lia. }
  split. { intros b y O. pose proof (O 0%nat ltac:(lia)) as O0. pose proof (O 1%nat ltac:(lia)) as O1. cbn in O0, O1. unfold value, first_cell, ones. replace (y 0%nat) with 2 by lia. replace (y 1%nat) with 2 by lia. reflexivity. }
  assert (X : exists ns main coarse, SearchAndSetNeighbors ex_grid true ex_tree (mkLoc 2 3 0 0) = Some ns /\ SetBoundaries ex_grid true ex_tree small 0 0 ones first_cell (mkLoc 2 3 0 0) ns (ones (mkLoc 2 3 0 0), ones (mkLoc 2 3 0 0)) = Some (main, coarse) /\ value main 0 (c2 5 2) = 0).
  { assert (X : exists w, result_at small 0 0 ones first_cell (mkLoc 2 3 0 0) (ones (mkLoc 2 3 0 0), ones (mkLoc 2 3 0 0)) 0 (c2 5 2) = Some (0, w)) by (eexists; vm_compute; reflexivity).
    destruct X as [w X]. destruct (result_ex _ _ _ _ _ _ _ _ _ _ _ _ X) as (ns & m & c & X1 & X2 & X3 & _). exists ns, m, c. split; [exact X1|]. split; [exact X2|exact X3]. }
  destruct X as (ns & main & coarse & X1 & X2 & X3). exists ns, main, coarse. split; [exact X1|]. split; [exact X2|].
  assert (Y : near small (gdim ex_grid) false (ng small) (c2 5 2) /\ ~ own small (gdim ex_grid) false (c2 5 2) /\ In (mkLoc 3 1 0 0) (blocks ex_tree) /\ own small (gdim ex_grid) true (c2 2 2) /\ same_place ex_grid small 2 (mkLoc 2 3 0 0) false (c2 5 2) (mkLoc 3 1 0 0) true (c2 2 2)).
  { split; [intros [|[|[|d]]] Hd; cbn; lia|]. split; [intros O; specialize (O 0%nat ltac:(lia)); cbn in O; lia|]. split; [vm_compute; tauto|]. split; [intros [|[|[|d]]] Hd; cbn; lia|].
    intros [|[|[|d]]] Hd; [exists (-8)|exists 0|exists 0|lia]; (split; [|reflexivity]); [right; cbn; auto|left; reflexivity|left; reflexivity]. }
  destruct Y as (Y1 & Y2 & Y3 & Y4 & Y5). split.
  - intros (_ & F & _). specialize (F (c2 5 2) (mkLoc 3 1 0 0) (c2 2 2) Y1 Y2 Y3 eq_refl Y4 Y5). rewrite X3 in F. vm_compute in F. discriminate F.
  - exists (c2 5 2), (mkLoc 3 1 0 0), (c2 2 2). split; [exact Y1|]. split; [exact Y2|]. split; [exact Y3|]. split; [reflexivity|]. split; [exact Y4|]. split; [exact Y5|exact X3].
Qed.
Print Assumptions C27_small_blocks_refuted.
