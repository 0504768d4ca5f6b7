(** Proofs about the id maps and the messages of a redistribution. *)
From Coq Require Import List Arith NArith ZArith Bool Lia.
From Verif Require Import Loc Tags_Model Tags_Proofs LB_Spec AMR_Model AMR_Spec.
Import ListNotations.
Local Open Scope nat_scope.

(** The new block (or the first of them) of each old block. *)
Fixpoint old2new (dim n : nat) (ps : list piece) : list nat :=
  match ps with
  | [] => []
  | Keep _ :: ps => n :: old2new dim (n + 1) ps
  | Split _ :: ps => n :: old2new dim (n + nleaf dim) ps
  | Merge _ :: ps => repeat n (nleaf dim) ++ old2new dim (n + 1) ps
  end.
(** The pairs (old block, new block) between which data has to move. *)
Definition piece_tr (dim o n : nat) (p : piece) : list (nat * nat) :=
  match p with
  | Keep _ => [(o, n)]
  | Split _ => map (fun l => (o, n + l)) (seq 0 (nleaf dim))
  | Merge _ => map (fun l => (o + l, n)) (seq 0 (nleaf dim))
  end.
Definition olen (dim : nat) (p : piece) : nat := match p with Merge _ => nleaf dim | _ => 1 end.
Definition nlen (dim : nat) (p : piece) : nat := match p with Split _ => nleaf dim | _ => 1 end.
Fixpoint transfers (dim o n : nat) (ps : list piece) : list (nat * nat) :=
  match ps with
  | [] => []
  | p :: ps => piece_tr dim o n p ++ transfers dim (o + olen dim p) (n + nlen dim p) ps
  end.

Lemma nleaf_ge : forall dim, 2 <= nleaf dim.
Proof. intros [|[|[|]]]; cbn; lia. Qed.
Lemma children_len : forall dim l, length (children dim l) = nleaf dim.
Proof. intros. unfold children. rewrite map_length, seq_length. reflexivity. Qed.
Lemma olen_ok : forall dim p, length (piece_old dim p) = olen dim p.
Proof. intros dim [l|l|l]; cbn [piece_old olen length]; try reflexivity. apply children_len. Qed.
Lemma nlen_ok : forall dim p, length (piece_new dim p) = nlen dim p.
Proof. intros dim [l|l|l]; cbn [piece_new nlen length]; try reflexivity. apply children_len. Qed.
Lemma new2old_len : forall dim ps o, length (new2old dim o ps) = length (new_blocks dim ps).
Proof.
  intros dim. induction ps as [|[l|l|l] ps IH]; intros o; cbn [new2old new_blocks flat_map]; try reflexivity;
    cbn [piece_new app length]; rewrite ?app_length, ?repeat_length, ?children_len, IH; reflexivity.
Qed.
Lemma old2new_len : forall dim ps n, length (old2new dim n ps) = length (old_blocks dim ps).
Proof.
  intros dim. induction ps as [|[l|l|l] ps IH]; intros o; cbn [old2new old_blocks flat_map]; try reflexivity;
    cbn [piece_old app length]; rewrite ?app_length, ?repeat_length, ?children_len, IH; reflexivity.
Qed.

(** ** oldtonew *)
Lemma otn_repeat : forall nlf o k n rest, 2 <= nlf ->
  otn_loop nlf o n (repeat o k ++ rest) = otn_loop nlf o (n + k) rest.
Proof.
  intros nlf o k. induction k as [|k IH]; intros n rest Hn; cbn [repeat app otn_loop].
  - f_equal; lia.
  - replace (Nat.eqb o (o + 1)) with false by (symmetry; apply Nat.eqb_neq; lia).
    replace (Nat.eqb o (o + nlf)) with false by (symmetry; apply Nat.eqb_neq; lia).
    cbn [app]. rewrite IH by assumption. f_equal. lia.
Qed.
(** [pend]: entries of the previous piece that are still to be written. *)
Lemma otn_spec : forall dim ps prev n pend, (pend = 0 \/ pend = nleaf dim - 1) -> 1 <= n ->
  let out := otn_loop (nleaf dim) prev n (new2old dim (prev + 1 + pend) ps) in
  length out <= pend + length (old_blocks dim ps) /\
  out ++ repeat (n + length (new_blocks dim ps) - 1) (pend + length (old_blocks dim ps) - length out)
    = repeat (n - 1) pend ++ old2new dim n ps.
Proof.
  intros dim. pose proof (nleaf_ge dim) as Hnl.
  assert (Hfirst : forall prev n pend rest, (pend = 0 \/ pend = nleaf dim - 1) ->
    otn_loop (nleaf dim) prev n ((prev + 1 + pend) :: rest)
      = repeat (n - 1) pend ++ n :: otn_loop (nleaf dim) (prev + 1 + pend) (n + 1) rest).
  { intros prev n pend rest [->| ->]; cbn [otn_loop].
    - replace (Nat.eqb (prev + 1 + 0) (prev + 1)) with true by (symmetry; apply Nat.eqb_eq; lia). reflexivity.
    - replace (Nat.eqb (prev + 1 + (nleaf dim - 1)) (prev + 1)) with false by (symmetry; apply Nat.eqb_neq; lia).
      replace (Nat.eqb (prev + 1 + (nleaf dim - 1)) (prev + nleaf dim)) with true by (symmetry; apply Nat.eqb_eq; lia).
      rewrite <- app_assoc. reflexivity. }
  induction ps as [|p ps IH]; intros prev n pend Hp Hn.
  - cbn [new2old otn_loop old_blocks new_blocks flat_map length old2new app]. split; [lia|].
    rewrite app_nil_r. f_equal; lia.
  - destruct p as [l|l|l]; cbn [new2old old2new old_blocks new_blocks flat_map piece_old piece_new app length].
    + rewrite Hfirst by assumption.
      specialize (IH (prev + 1 + pend) (n + 1) 0 (or_introl eq_refl) ltac:(lia)).
      replace (prev + 1 + pend + 1 + 0) with (prev + 1 + pend + 1) in IH by lia.
      set (out := otn_loop _ _ _ _) in *. cbn zeta in IH. destruct IH as [IH1 IH2].
      cbn [repeat app] in IH2. rewrite app_length, repeat_length. cbn [length].
      fold (old_blocks dim ps) (new_blocks dim ps) in *. split; [lia|].
      rewrite <- app_assoc. cbn [app]. f_equal. f_equal. rewrite <- IH2. f_equal. f_equal; lia.
    + destruct (nleaf dim) as [|k] eqn:Ek; [lia|]. cbn [repeat app]. rewrite <- Ek in *.
      rewrite Hfirst by assumption. rewrite otn_repeat by lia.
      specialize (IH (prev + 1 + pend) (n + 1 + k) 0 (or_introl eq_refl) ltac:(lia)).
      replace (prev + 1 + pend + 1 + 0) with (prev + 1 + pend + 1) in IH by lia.
      set (out := otn_loop _ _ _ _) in *. cbn zeta in IH. destruct IH as [IH1 IH2].
      cbn [repeat app] in IH2. rewrite !app_length, repeat_length, children_len. cbn [length].
      fold (old_blocks dim ps) (new_blocks dim ps) in *. split; [lia|].
      rewrite <- app_assoc. cbn [app]. f_equal. f_equal. replace (n + nleaf dim) with (n + 1 + k) by lia.
      rewrite <- IH2. f_equal. f_equal; lia.
    + rewrite Hfirst by assumption.
      specialize (IH (prev + 1 + pend) (n + 1) (nleaf dim - 1) (or_intror eq_refl) ltac:(lia)).
      replace (prev + 1 + pend + 1 + (nleaf dim - 1)) with (prev + 1 + pend + nleaf dim) in IH by lia.
      set (out := otn_loop _ _ _ _) in *. cbn zeta in IH. destruct IH as [IH1 IH2].
      rewrite !app_length, repeat_length, children_len. cbn [length].
      fold (old_blocks dim ps) (new_blocks dim ps) in *. split; [lia|].
      rewrite <- app_assoc. cbn [app]. f_equal.
      transitivity (n :: repeat n (nleaf dim - 1) ++ old2new dim (n + 1) ps).
      * f_equal. replace n with (n + 1 - 1) at 2 by lia. rewrite <- IH2. f_equal. f_equal; lia.
      * change (n :: repeat n (nleaf dim - 1) ++ old2new dim (n + 1) ps) with ((n :: repeat n (nleaf dim - 1)) ++ old2new dim (n + 1) ps).
        f_equal. destruct (nleaf dim) as [|k]; [lia|]. cbn [repeat]. f_equal. f_equal. lia.
Qed.
Theorem old_to_new_ok : forall dim ps, ps <> [] ->
  old_to_new (nleaf dim) (new2old dim 0 ps) (length (old_blocks dim ps)) = old2new dim 0 ps.
Proof.
  intros dim ps Hne. pose proof (nleaf_ge dim) as Hnl. destruct ps as [|p ps]; [congruence|]. clear Hne.
  unfold old_to_new. rewrite new2old_len.
  destruct p as [l|l|l]; cbn [new2old old2new old_blocks new_blocks flat_map piece_old piece_new app length].
  - pose proof (otn_spec dim ps 0 1 0 (or_introl eq_refl) ltac:(lia)) as H. cbn zeta in H.
    replace (0 + 1 + 0) with (0 + 1) in H by lia. set (out := otn_loop _ _ _ _) in *. destruct H as [H1 H2].
    cbn [repeat app] in H2. cbn [app length]. f_equal. change (0 + 1) with 1. rewrite <- H2.
    fold (old_blocks dim ps) (new_blocks dim ps). try (f_equal; f_equal; lia).
  - destruct (nleaf dim) as [|k] eqn:Ek; [lia|]. cbn [repeat app]. rewrite <- Ek in *.
    rewrite otn_repeat by lia.
    pose proof (otn_spec dim ps 0 (1 + k) 0 (or_introl eq_refl) ltac:(lia)) as H. cbn zeta in H.
    replace (0 + 1 + 0) with (0 + 1) in H by lia. set (out := otn_loop _ _ _ _) in *. destruct H as [H1 H2].
    cbn [repeat app] in H2. cbn [app length]. f_equal. replace (0 + nleaf dim) with (1 + k) by lia. rewrite <- H2.
    rewrite app_length, children_len.
    fold (old_blocks dim ps) (new_blocks dim ps). f_equal. f_equal; lia.
  - pose proof (otn_spec dim ps 0 1 (nleaf dim - 1) (or_intror eq_refl) ltac:(lia)) as H. cbn zeta in H.
    replace (0 + 1 + (nleaf dim - 1)) with (0 + nleaf dim) in H by lia. set (out := otn_loop _ _ _ _) in *. destruct H as [H1 H2].
    cbn [app length]. rewrite app_length, children_len. fold (old_blocks dim ps) (new_blocks dim ps) in *.
    transitivity (0 :: repeat 0 (nleaf dim - 1) ++ old2new dim (0 + 1) ps).
    + f_equal. change (1 - 1) with 0 in H2. change (0 + 1) with 1. rewrite <- H2. f_equal. f_equal; lia.
    + destruct (nleaf dim) as [|k]; [lia|]. cbn [repeat app]. f_equal. f_equal. f_equal. lia.
Qed.

(** ** Both sides enumerate the same transfers. *)
Definition rp (dim : nat) (ol nl : list loc) (n2o : list nat) (n : nat) : list (nat * nat) :=
  let on := at_ n2o n in
  if Nat.ltb (level (locs_at nl n)) (level (locs_at ol on)) then map (fun l => (on + l, n)) (seq 0 (nleaf dim)) else [(on, n)].
Definition sp (dim : nat) (ol nl : list loc) (o2n : list nat) (n : nat) : list (nat * nat) :=
  let nn := at_ o2n n in
  if Nat.eqb (level (locs_at nl nn)) (level (locs_at ol n)) then [(n, nn)]
  else if Nat.ltb (level (locs_at ol n)) (level (locs_at nl nn)) then map (fun l => (n, nn + l)) (seq 0 (nleaf dim))
  else [(n, nn)].
Lemma nth_mid : forall {A} (a b : list A) k x d, nth_error b k = Some x -> nth (length a + k) (a ++ b) d = x.
Proof. intros A a b k x d H. rewrite app_nth2_plus. apply nth_error_nth. exact H. Qed.
Lemma nth_error_app_l : forall {A} (a b : list A) k x, nth_error a k = Some x -> nth_error (a ++ b) k = Some x.
Proof. intros A a b k x H. rewrite nth_error_app1; [exact H|]. apply nth_error_Some. congruence. Qed.
Lemma nth_error_children : forall dim l k, k < nleaf dim -> nth_error (children dim l) k = Some (child l k).
Proof.
  intros dim l k Hk. unfold children. rewrite nth_error_map. rewrite (nth_error_nth' _ 0) by (rewrite seq_length; exact Hk).
  rewrite seq_nth by exact Hk. reflexivity.
Qed.
Lemma nth_error_repeat : forall {A} (x : A) n k, k < n -> nth_error (repeat x n) k = Some x.
Proof. intros A x n k Hk. rewrite (nth_error_nth' _ x) by (rewrite repeat_length; exact Hk). rewrite nth_repeat. reflexivity. Qed.
Lemma seq_plus : forall n s, seq s n = map (fun l => s + l) (seq 0 n).
Proof.
  induction n as [|n IH]; intros s; [reflexivity|]. cbn [seq map]. f_equal; [lia|].
  rewrite (IH (S s)), (IH 1), map_map. apply map_ext. intros; lia.
Qed.
Lemma flat_map_map : forall {A B C} (f : B -> list C) (g : A -> B) l, flat_map f (map g l) = flat_map (fun x => f (g x)) l.
Proof. intros A B C f g l. induction l as [|x l IH]; [reflexivity|]. cbn [map flat_map]. rewrite IH. reflexivity. Qed.
Lemma flat_map_ext_in : forall {A B} (f g : A -> list B) l, (forall x, In x l -> f x = g x) -> flat_map f l = flat_map g l.
Proof.
  intros A B f g l. induction l as [|x l IH]; intros H; [reflexivity|]. cbn [flat_map].
  rewrite IH, (H x (or_introl eq_refl)); [reflexivity|]. intros y Hy. apply H. right; exact Hy.
Qed.
Lemma flat_map_single : forall {A B} (f : A -> B) l, flat_map (fun x => [f x]) l = map f l.
Proof. intros A B f l. induction l as [|x l IH]; [reflexivity|]. cbn. rewrite IH. reflexivity. Qed.

Lemma recv_all : forall dim ps preo pren pren2o, length pren2o = length pren ->
  flat_map (rp dim (preo ++ old_blocks dim ps) (pren ++ new_blocks dim ps) (pren2o ++ new2old dim (length preo) ps))
    (seq (length pren) (length (new_blocks dim ps))) = transfers dim (length preo) (length pren) ps.
Proof.
  intros dim. pose proof (nleaf_ge dim) as Hnl. induction ps as [|p ps IH]; intros preo pren pren2o Hl; [reflexivity|].
  cbn [old_blocks new_blocks flat_map transfers]. fold (old_blocks dim ps) (new_blocks dim ps).
  rewrite app_length, seq_app, flat_map_app. f_equal.
  - rewrite nlen_ok, seq_plus, flat_map_map.
    destruct p as [l|l|l]; cbn [nlen piece_tr piece_old piece_new new2old].
    + cbn [seq flat_map app]. rewrite app_nil_r. unfold rp, at_, locs_at. cbn zeta.
      rewrite (nth_mid pren _ 0 l) by reflexivity. rewrite <- Hl.
      rewrite (nth_mid pren2o _ 0 (length preo)) by reflexivity.
      replace (nth (length preo) (preo ++ l :: old_blocks dim ps) dloc) with l.
      2: { symmetry. replace (length preo) with (length preo + 0) by lia. apply nth_mid. reflexivity. }
      rewrite Nat.ltb_irrefl, Nat.add_0_r. reflexivity.
    + rewrite <- flat_map_single. apply flat_map_ext_in. intros j Hj. apply in_seq in Hj.
      unfold rp, at_, locs_at. cbn zeta.
      rewrite (nth_mid pren _ j (child l j)) by (apply nth_error_app_l, nth_error_children; lia). rewrite <- Hl.
      rewrite (nth_mid pren2o _ j (length preo)) by (apply nth_error_app_l, nth_error_repeat; lia).
      replace (nth (length preo) (preo ++ [l] ++ old_blocks dim ps) dloc) with l.
      2: { symmetry. replace (length preo) with (length preo + 0) by lia. apply nth_mid. reflexivity. }
      cbn [child level]. destruct (Nat.ltb_spec (S (level l)) (level l)); [lia|]. reflexivity.
    + cbn [seq flat_map app]. rewrite app_nil_r. unfold rp, at_, locs_at. cbn zeta.
      rewrite (nth_mid pren _ 0 l) by reflexivity. rewrite <- Hl.
      rewrite (nth_mid pren2o _ 0 (length preo)) by reflexivity.
      replace (nth (length preo) (preo ++ children dim l ++ old_blocks dim ps) dloc) with (child l 0).
      2: { symmetry. replace (length preo) with (length preo + 0) by lia. apply nth_mid.
           apply nth_error_app_l, nth_error_children; lia. }
      cbn [child level]. destruct (Nat.ltb_spec (level l) (S (level l))); [|lia].
      apply map_ext. intros j. f_equal. lia.
  - rewrite nlen_ok.
    specialize (IH (preo ++ piece_old dim p) (pren ++ piece_new dim p)
      (pren2o ++ (match p with Keep _ => [length preo] | Split _ => repeat (length preo) (nleaf dim) | Merge _ => [length preo] end))).
    rewrite !app_length, olen_ok, nlen_ok, <- !app_assoc in IH.
    rewrite <- IH.
    + f_equal. f_equal. f_equal. destruct p; reflexivity.
    + rewrite Hl. f_equal. destruct p; cbn [nlen length]; rewrite ?repeat_length; reflexivity.
Qed.
Lemma send_all : forall dim ps preo pren preo2n, length preo2n = length preo ->
  flat_map (sp dim (preo ++ old_blocks dim ps) (pren ++ new_blocks dim ps) (preo2n ++ old2new dim (length pren) ps))
    (seq (length preo) (length (old_blocks dim ps))) = transfers dim (length preo) (length pren) ps.
Proof.
  intros dim. pose proof (nleaf_ge dim) as Hnl. induction ps as [|p ps IH]; intros preo pren preo2n Hl; [reflexivity|].
  cbn [old_blocks new_blocks flat_map transfers]. fold (old_blocks dim ps) (new_blocks dim ps).
  rewrite app_length, seq_app, flat_map_app. f_equal.
  - rewrite olen_ok, seq_plus, flat_map_map.
    destruct p as [l|l|l]; cbn [olen piece_tr piece_old piece_new old2new].
    + cbn [seq flat_map app]. rewrite app_nil_r. unfold sp, at_, locs_at. cbn zeta.
      rewrite (nth_mid preo _ 0 l) by reflexivity. rewrite <- Hl.
      rewrite (nth_mid preo2n _ 0 (length pren)) by reflexivity.
      replace (nth (length pren) (pren ++ l :: new_blocks dim ps) dloc) with l.
      2: { symmetry. replace (length pren) with (length pren + 0) by lia. apply nth_mid. reflexivity. }
      rewrite Nat.eqb_refl, Nat.add_0_r. reflexivity.
    + cbn [seq flat_map app]. rewrite app_nil_r. unfold sp, at_, locs_at. cbn zeta.
      rewrite (nth_mid preo _ 0 l) by reflexivity. rewrite <- Hl.
      rewrite (nth_mid preo2n _ 0 (length pren)) by reflexivity.
      replace (nth (length pren) (pren ++ children dim l ++ new_blocks dim ps) dloc) with (child l 0).
      2: { symmetry. replace (length pren) with (length pren + 0) by lia. apply nth_mid.
           apply nth_error_app_l, nth_error_children; lia. }
      cbn [child level]. destruct (Nat.eqb_spec (S (level l)) (level l)); [lia|].
      destruct (Nat.ltb_spec (level l) (S (level l))); [|lia].
      apply map_ext. intros j. f_equal. lia.
    + rewrite <- flat_map_single. apply flat_map_ext_in. intros j Hj. apply in_seq in Hj.
      unfold sp, at_, locs_at. cbn zeta.
      rewrite (nth_mid preo _ j (child l j)) by (apply nth_error_app_l, nth_error_children; lia). rewrite <- Hl.
      rewrite (nth_mid preo2n _ j (length pren)) by (apply nth_error_app_l, nth_error_repeat; lia).
      replace (nth (length pren) (pren ++ [l] ++ new_blocks dim ps) dloc) with l.
      2: { symmetry. replace (length pren) with (length pren + 0) by lia. apply nth_mid. reflexivity. }
      cbn [child level]. destruct (Nat.eqb_spec (level l) (S (level l))); [lia|].
      destruct (Nat.ltb_spec (S (level l)) (level l)); [lia|]. reflexivity.
  - rewrite olen_ok.
    specialize (IH (preo ++ piece_old dim p) (pren ++ piece_new dim p)
      (preo2n ++ (match p with Keep _ => [length pren] | Split _ => [length pren] | Merge _ => repeat (length pren) (nleaf dim) end))).
    rewrite !app_length, olen_ok, nlen_ok, <- !app_assoc in IH.
    rewrite <- IH.
    + f_equal. f_equal. f_equal. destruct p; reflexivity.
    + rewrite Hl. f_equal. destruct p; cbn [olen length]; rewrite ?repeat_length; reflexivity.
Qed.

(** ** Locating a block in its piece. *)
Lemma blocks_app : forall dim ps qs, old_blocks dim (ps ++ qs) = old_blocks dim ps ++ old_blocks dim qs /\
  new_blocks dim (ps ++ qs) = new_blocks dim ps ++ new_blocks dim qs.
Proof. intros. unfold old_blocks, new_blocks. rewrite !flat_map_app. split; reflexivity. Qed.
Lemma old_len_cons : forall dim p ps, length (old_blocks dim (p :: ps)) = olen dim p + length (old_blocks dim ps).
Proof. intros. cbn [old_blocks flat_map]. rewrite app_length, olen_ok. reflexivity. Qed.
Lemma new_len_cons : forall dim p ps, length (new_blocks dim (p :: ps)) = nlen dim p + length (new_blocks dim ps).
Proof. intros. cbn [new_blocks flat_map]. rewrite app_length, nlen_ok. reflexivity. Qed.
Definition piece_n2o (dim o : nat) (p : piece) : list nat := match p with Split _ => repeat o (nleaf dim) | _ => [o] end.
Definition piece_o2n (dim n : nat) (p : piece) : list nat := match p with Merge _ => repeat n (nleaf dim) | _ => [n] end.
Lemma new2old_cons : forall dim o p ps, new2old dim o (p :: ps) = piece_n2o dim o p ++ new2old dim (o + olen dim p) ps.
Proof. intros dim o [l|l|l] ps; reflexivity. Qed.
Lemma old2new_cons : forall dim n p ps, old2new dim n (p :: ps) = piece_o2n dim n p ++ old2new dim (n + nlen dim p) ps.
Proof. intros dim n [l|l|l] ps; reflexivity. Qed.
Lemma new2old_app : forall dim ps qs o, new2old dim o (ps ++ qs) = new2old dim o ps ++ new2old dim (o + length (old_blocks dim ps)) qs.
Proof.
  intros dim. induction ps as [|p ps IH]; intros qs o; cbn [app]; [cbn; f_equal; lia|].
  rewrite !new2old_cons, IH, old_len_cons, <- app_assoc. f_equal. f_equal. f_equal. lia.
Qed.
Lemma old2new_app : forall dim ps qs n, old2new dim n (ps ++ qs) = old2new dim n ps ++ old2new dim (n + length (new_blocks dim ps)) qs.
Proof.
  intros dim. induction ps as [|p ps IH]; intros qs n; cbn [app]; [cbn; f_equal; lia|].
  rewrite !old2new_cons, IH, new_len_cons, <- app_assoc. f_equal. f_equal. f_equal. lia.
Qed.
Lemma find_new : forall dim ps n, n < length (new_blocks dim ps) ->
  exists ps1 p ps2 j, ps = ps1 ++ p :: ps2 /\ n = length (new_blocks dim ps1) + j /\ j < nlen dim p.
Proof.
  intros dim. induction ps as [|p ps IH]; intros n H; [cbn in H; lia|]. rewrite new_len_cons in H.
  destruct (Nat.lt_ge_cases n (nlen dim p)) as [Hn|Hn].
  - exists [], p, ps, n. repeat split; assumption.
  - destruct (IH (n - nlen dim p) ltac:(lia)) as (ps1 & q & ps2 & j & -> & Hj & Hlt).
    exists (p :: ps1), q, ps2, j. split; [reflexivity|]. split; [rewrite new_len_cons; lia|exact Hlt].
Qed.
Lemma find_old : forall dim ps n, n < length (old_blocks dim ps) ->
  exists ps1 p ps2 j, ps = ps1 ++ p :: ps2 /\ n = length (old_blocks dim ps1) + j /\ j < olen dim p.
Proof.
  intros dim. induction ps as [|p ps IH]; intros n H; [cbn in H; lia|]. rewrite old_len_cons in H.
  destruct (Nat.lt_ge_cases n (olen dim p)) as [Hn|Hn].
  - exists [], p, ps, n. repeat split; assumption.
  - destruct (IH (n - olen dim p) ltac:(lia)) as (ps1 & q & ps2 & j & -> & Hj & Hlt).
    exists (p :: ps1), q, ps2, j. split; [reflexivity|]. split; [rewrite old_len_cons; lia|exact Hlt].
Qed.
Section At.
Variables (dim : nat) (ps1 : list piece) (p : piece) (ps2 : list piece).
Let O := length (old_blocks dim ps1).
Let N := length (new_blocks dim ps1).
Lemma at_old : forall j x, nth_error (piece_old dim p) j = Some x -> nth_error (old_blocks dim (ps1 ++ p :: ps2)) (O + j) = Some x.
Proof.
  intros j x H. rewrite (proj1 (blocks_app _ _ _)). rewrite nth_error_app2 by lia. replace (O + j - length (old_blocks dim ps1)) with j by (unfold O; lia).
  cbn [old_blocks flat_map]. apply nth_error_app_l. exact H.
Qed.
Lemma at_new : forall j x, nth_error (piece_new dim p) j = Some x -> nth_error (new_blocks dim (ps1 ++ p :: ps2)) (N + j) = Some x.
Proof.
  intros j x H. rewrite (proj2 (blocks_app _ _ _)). rewrite nth_error_app2 by lia. replace (N + j - length (new_blocks dim ps1)) with j by (unfold N; lia).
  cbn [new_blocks flat_map]. apply nth_error_app_l. exact H.
Qed.
Lemma at_n2o : forall j, j < nlen dim p -> nth_error (new2old dim 0 (ps1 ++ p :: ps2)) (N + j) = Some O.
Proof.
  intros j H. rewrite new2old_app, nth_error_app2; rewrite new2old_len; [|unfold N; lia].
  replace (N + j - length (new_blocks dim ps1)) with j by (unfold N; lia).
  rewrite new2old_cons. apply nth_error_app_l. cbn [plus]. destruct p as [l|l|l]; cbn [piece_n2o nlen] in *.
  - destruct j; [reflexivity|lia].
  - apply nth_error_repeat. exact H.
  - destruct j; [reflexivity|lia].
Qed.
Lemma at_o2n : forall j, j < olen dim p -> nth_error (old2new dim 0 (ps1 ++ p :: ps2)) (O + j) = Some N.
Proof.
  intros j H. rewrite old2new_app, nth_error_app2; rewrite old2new_len; [|unfold O; lia].
  replace (O + j - length (old_blocks dim ps1)) with j by (unfold O; lia).
  rewrite old2new_cons. apply nth_error_app_l. cbn [plus]. destruct p as [l|l|l]; cbn [piece_o2n olen] in *.
  - destruct j; [reflexivity|lia].
  - destruct j; [reflexivity|lia].
  - apply nth_error_repeat. exact H.
Qed.
End At.

(** What each entry of the maps means. *)
Lemma n2o_meaning : forall dim ps n, n < length (new_blocks dim ps) -> exists o nl, nth_error (new2old dim 0 ps) n = Some o /\
  nth_error (new_blocks dim ps) n = Some nl /\
  (nth_error (old_blocks dim ps) o = Some nl \/
   (exists ol j, nth_error (old_blocks dim ps) o = Some ol /\ j < nleaf dim /\ nl = child ol j) \/
   (forall j, j < nleaf dim -> nth_error (old_blocks dim ps) (o + j) = Some (child nl j))).
Proof.
  intros dim ps n H. destruct (find_new dim ps n H) as (ps1 & p & ps2 & j & -> & -> & Hj).
  exists (length (old_blocks dim ps1)).
  destruct p as [l|l|l]; cbn [nlen] in Hj.
  - exists l. split; [apply at_n2o; exact Hj|]. split; [apply at_new; destruct j; [reflexivity|lia]|]. left.
    pose proof (at_old dim ps1 (Keep l) ps2 0 l eq_refl) as E. rewrite Nat.add_0_r in E. exact E.
  - exists (child l j). split; [apply at_n2o; exact Hj|]. split; [apply at_new; cbn [piece_new]; apply nth_error_children; exact Hj|].
    right; left. exists l, j. split; [|split; [exact Hj|reflexivity]].
    pose proof (at_old dim ps1 (Split l) ps2 0 l eq_refl) as E. rewrite Nat.add_0_r in E. exact E.
  - exists l. split; [apply at_n2o; exact Hj|]. split; [apply at_new; destruct j; [reflexivity|lia]|]. right; right.
    intros k Hk. apply at_old. cbn [piece_old]. apply nth_error_children. exact Hk.
Qed.
Lemma o2n_meaning : forall dim ps o, o < length (old_blocks dim ps) -> exists n ol, nth_error (old2new dim 0 ps) o = Some n /\
  nth_error (old_blocks dim ps) o = Some ol /\
  (nth_error (new_blocks dim ps) n = Some ol \/
   (exists nl j, nth_error (new_blocks dim ps) n = Some nl /\ j < nleaf dim /\ ol = child nl j) \/
   (forall j, j < nleaf dim -> nth_error (new_blocks dim ps) (n + j) = Some (child ol j))).
Proof.
  intros dim ps o H. destruct (find_old dim ps o H) as (ps1 & p & ps2 & j & -> & -> & Hj).
  exists (length (new_blocks dim ps1)).
  destruct p as [l|l|l]; cbn [olen] in Hj.
  - exists l. split; [apply at_o2n; exact Hj|]. split; [apply at_old; destruct j; [reflexivity|lia]|]. left.
    pose proof (at_new dim ps1 (Keep l) ps2 0 l eq_refl) as E. rewrite Nat.add_0_r in E. exact E.
  - exists l. split; [apply at_o2n; exact Hj|]. split; [apply at_old; destruct j; [reflexivity|lia]|]. right; right.
    intros k Hk. apply at_new. cbn [piece_new]. apply nth_error_children. exact Hk.
  - exists (child l j). split; [apply at_o2n; exact Hj|]. split; [apply at_old; cbn [piece_old]; apply nth_error_children; exact Hj|].
    right; left. exists l, j. split; [|split; [exact Hj|reflexivity]].
    pose proof (at_new dim ps1 (Merge l) ps2 0 l eq_refl) as E. rewrite Nat.add_0_r in E. exact E.
Qed.
(** Monotone, and inverse on unchanged blocks. *)
Lemma old2new_bounds : forall dim ps n k x, nth_error (old2new dim n ps) k = Some x -> n <= x /\ x < n + length (new_blocks dim ps).
Proof.
  intros dim. pose proof (nleaf_ge dim). induction ps as [|p ps IH]; intros n k x E; [destruct k; discriminate|].
  rewrite old2new_cons in E. rewrite new_len_cons. assert (Hp : 1 <= nlen dim p) by (destruct p; cbn; lia).
  destruct (Nat.lt_ge_cases k (length (piece_o2n dim n p))) as [Hk|Hk].
  - rewrite nth_error_app1 in E by exact Hk. apply nth_error_In in E. destruct p; cbn [piece_o2n] in E; try (destruct E as [<-|[]]; lia).
    apply repeat_spec in E. lia.
  - rewrite nth_error_app2 in E by exact Hk. apply IH in E. lia.
Qed.
Lemma old2new_mono : forall dim ps n i j x y, i <= j -> nth_error (old2new dim n ps) i = Some x -> nth_error (old2new dim n ps) j = Some y -> x <= y.
Proof.
  intros dim. induction ps as [|p ps IH]; intros n i j x y Hij Ei Ej; [destruct i; discriminate|].
  rewrite old2new_cons in Ei, Ej.
  assert (Hc : forall k z, k < length (piece_o2n dim n p) -> nth_error (piece_o2n dim n p) k = Some z -> z = n).
  { intros k z _ Hz. apply nth_error_In in Hz. destruct p; cbn [piece_o2n] in Hz; try (destruct Hz as [<-|[]]; reflexivity).
    apply repeat_spec in Hz. exact Hz. }
  destruct (Nat.lt_ge_cases i (length (piece_o2n dim n p))) as [Hi|Hi].
  - rewrite nth_error_app1 in Ei by exact Hi. apply Hc in Ei; [|exact Hi]. subst x.
    destruct (Nat.lt_ge_cases j (length (piece_o2n dim n p))) as [Hj|Hj].
    + rewrite nth_error_app1 in Ej by exact Hj. apply Hc in Ej; [lia|exact Hj].
    + rewrite nth_error_app2 in Ej by exact Hj. apply old2new_bounds in Ej. lia.
  - rewrite nth_error_app2 in Ei by exact Hi. rewrite nth_error_app2 in Ej by lia.
    refine (IH _ _ _ _ _ _ Ei Ej). lia.
Qed.
Lemma child_level : forall l j, level (child l j) = S (level l).
Proof. reflexivity. Qed.
Lemma n2o_inverse : forall dim ps n o l, nth_error (new2old dim 0 ps) n = Some o -> nth_error (new_blocks dim ps) n = Some l ->
  nth_error (old_blocks dim ps) o = Some l -> nth_error (old2new dim 0 ps) o = Some n.
Proof.
  intros dim ps n o l Hn Hl Ho. assert (H : n < length (new_blocks dim ps)) by (apply nth_error_Some; congruence).
  destruct (find_new dim ps n H) as (ps1 & p & ps2 & j & -> & -> & Hj). pose proof (nleaf_ge dim) as Hnl.
  rewrite at_n2o in Hn by exact Hj. injection Hn as <-. pose proof (at_o2n dim ps1 p ps2 0) as E. rewrite Nat.add_0_r in E.
  destruct p as [q|q|q]; cbn [nlen olen] in *.
  - rewrite E by lia. f_equal. lia.
  - exfalso. rewrite (at_new dim ps1 (Split q) ps2 j (child q j)) in Hl by (cbn [piece_new]; apply nth_error_children; exact Hj).
    pose proof (at_old dim ps1 (Split q) ps2 0 q eq_refl) as E'. rewrite Nat.add_0_r in E'.
    rewrite E' in Ho. injection Hl as <-. injection Ho as Ho. apply (f_equal level) in Ho. rewrite child_level in Ho. lia.
  - exfalso. destruct j; [|lia]. rewrite (at_new dim ps1 (Merge q) ps2 0 q eq_refl) in Hl. injection Hl as <-.
    pose proof (at_old dim ps1 (Merge q) ps2 0 (child q 0) (nth_error_children dim q 0 ltac:(lia))) as E'. rewrite Nat.add_0_r in E'.
    rewrite E' in Ho. injection Ho as Ho. apply (f_equal level) in Ho. rewrite child_level in Ho. lia.
Qed.

(** ** Messages *)
Definition mk (a : amr) (t : nat * nat) : msg :=
  let '(o, n) := t in
  let ol := locs_at (oldloc a) o in let nl := locs_at (newloc a) n in
  let r' := at_ (newrank a) n in
  mkM (at_ (ranklist a) o) r'
    (if Nat.ltb (level nl) (level ol) then oxtag (n - nslist a r') ol else zerotag (n - nslist a r'))
    (if Nat.ltb (level nl) (level ol) then F2C else if Nat.eqb (level ol) (level nl) then Same else C2F) o n.

Lemma filter_flat_map : forall {A B} (f : A -> list B) (p : B -> bool) l, filter p (flat_map f l) = flat_map (fun x => filter p (f x)) l.
Proof. intros A B f p l. induction l as [|x l IH]; [reflexivity|]. cbn. rewrite filter_app, IH. reflexivity. Qed.
Lemma map_flat_map : forall {A B C} (f : A -> list B) (g : B -> C) l, map g (flat_map f l) = flat_map (fun x => map g (f x)) l.
Proof. intros A B C f g l. induction l as [|x l IH]; [reflexivity|]. cbn. rewrite map_app, IH. reflexivity. Qed.
Lemma flat_map_filter : forall {A B} (f : A -> list B) (p : A -> bool) l,
  flat_map f (filter p l) = flat_map (fun x => if p x then f x else []) l.
Proof. intros A B f p l. induction l as [|x l IH]; [reflexivity|]. cbn. destruct (p x); cbn; rewrite IH; reflexivity. Qed.
Lemma flat_map_if : forall {A B} (f : A -> B) (p : A -> bool) l,
  flat_map (fun x => if p x then [] else [f x]) l = map f (filter (fun x => negb (p x)) l).
Proof. intros A B f p l. induction l as [|x l IH]; [reflexivity|]. cbn. destruct (p x); cbn; rewrite IH; reflexivity. Qed.
Lemma filter_map : forall {A B} (f : A -> B) (p : B -> bool) l, filter p (map f l) = map f (filter (fun x => p (f x)) l).
Proof. intros A B f p l. induction l as [|x l IH]; [reflexivity|]. cbn. destruct (p (f x)); cbn; rewrite IH; reflexivity. Qed.
Lemma filter_filter : forall {A} (p q : A -> bool) l, filter p (filter q l) = filter (fun x => q x && p x) l.
Proof.
  intros A p q l. induction l as [|x l IH]; [reflexivity|]. cbn. destruct (q x); cbn; [destruct (p x)|]; rewrite IH; reflexivity.
Qed.
Lemma filter_none : forall {A} (p : A -> bool) l, (forall x, In x l -> p x = false) -> filter p l = [].
Proof.
  intros A p l. induction l as [|x l IH]; intros H; [reflexivity|]. cbn. rewrite (H x (or_introl eq_refl)).
  apply IH. intros y Hy. apply H. right; exact Hy.
Qed.
Lemma filter_all : forall {A} (p : A -> bool) l, (forall x, In x l -> p x = true) -> filter p l = l.
Proof.
  intros A p l. induction l as [|x l IH]; intros H; [reflexivity|]. cbn. rewrite (H x (or_introl eq_refl)). f_equal.
  apply IH. intros y Hy. apply H. right; exact Hy.
Qed.

Lemma owned_filter : forall nr nb rl tbl me, good_partition nr nb rl tbl -> me < nr ->
  owned tbl me = filter (fun b => Nat.eqb (at_ rl b) me) (seq 0 nb).
Proof.
  intros nr nb rl tbl me (Hl & Ht & Hr & Hm & Ho) Hme.
  destruct (Ho me Hme) as (s & n & E & Hn & Hsn & Hown).
  unfold owned. rewrite (nth_error_nth _ _ _ E). cbn zeta. cbn [fst snd].
  replace nb with (s + (n + (nb - s - n))) by lia. rewrite seq_app, seq_app, !filter_app.
  rewrite filter_none, (filter_all _ (seq (0 + s) n)), (filter_none _ (seq (0 + s + n) _)).
  - rewrite app_nil_r. reflexivity.
  - intros b Hb. apply in_seq in Hb. apply Nat.eqb_neq. intros Heq. unfold at_ in Heq.
    rewrite (nth_indep rl 0 nr) in Heq by lia. apply Hown in Heq; lia.
  - intros b Hb. apply in_seq in Hb. apply Nat.eqb_eq. unfold at_.
    rewrite (nth_indep rl 0 nr) by lia. apply Hown; lia.
  - intros b Hb. apply in_seq in Hb. apply Nat.eqb_neq. intros Heq. unfold at_ in Heq.
    rewrite (nth_indep rl 0 nr) in Heq by lia. apply Hown in Heq; lia.
Qed.

Section Step.
Variables (nr : nat) (ps : list piece) (a : amr).
Hypothesis HR : redistribution nr ps a.

Lemma all_pairs_recv : flat_map (rp (a_dim a) (oldloc a) (newloc a) (newtoold a)) (seq 0 (length (newloc a))) = transfers (a_dim a) 0 0 ps.
Proof.
  destruct HR as (_ & _ & _ & -> & -> & -> & _). exact (recv_all (a_dim a) ps [] [] [] eq_refl).
Qed.
Lemma otn_ok : oldtonew a = old2new (a_dim a) 0 ps.
Proof. destruct HR as (_ & Hne & _ & Ho & _ & Hn & _). unfold oldtonew. rewrite Hn, Ho. apply old_to_new_ok. exact Hne. Qed.
Lemma all_pairs_send : flat_map (sp (a_dim a) (oldloc a) (newloc a) (oldtonew a)) (seq 0 (length (oldloc a))) = transfers (a_dim a) 0 0 ps.
Proof.
  rewrite otn_ok. destruct HR as (_ & _ & _ & -> & -> & _). exact (send_all (a_dim a) ps [] [] [] eq_refl).
Qed.

(** The levels of the blocks of a transfer: f2c pairs all have the same relation. *)
Lemma recv_block_ok : forall me n, at_ (newrank a) n = me ->
  (forall l, l < nleaf (a_dim a) -> level (locs_at (newloc a) n) < level (locs_at (oldloc a) (at_ (newtoold a) n)) ->
     level (locs_at (newloc a) n) < level (locs_at (oldloc a) (at_ (newtoold a) n + l))) ->
  recv_block a me n = map (mk a) (filter (fun t => negb (Nat.eqb (at_ (ranklist a) (fst t)) me)) (rp (a_dim a) (oldloc a) (newloc a) (newtoold a) n)).
Proof.
  intros me n Hme Hlev. unfold recv_block, rp. cbn zeta. fold (a_nlf a) in *.
  destruct (Nat.ltb_spec (level (locs_at (newloc a) n)) (level (locs_at (oldloc a) (at_ (newtoold a) n)))) as [H|H].
  - rewrite filter_map, map_map. cbn [fst].
    rewrite <- (flat_map_if (fun x => mk a (at_ (newtoold a) n + x, n))).
    apply flat_map_ext_in. intros l Hl. apply in_seq in Hl. destruct (Nat.eqb_spec (at_ (ranklist a) (at_ (newtoold a) n + l)) me); [reflexivity|].
    unfold mk. rewrite Hme. specialize (Hlev l ltac:(lia) H).
    destruct (Nat.ltb_spec (level (locs_at (newloc a) n)) (level (locs_at (oldloc a) (at_ (newtoold a) n + l)))); [reflexivity|lia].
  - cbn [filter fst]. destruct (Nat.eqb_spec (at_ (ranklist a) (at_ (newtoold a) n)) me); cbn [negb]; [reflexivity|].
    cbn [map]. unfold mk. rewrite Hme.
    destruct (Nat.ltb_spec (level (locs_at (newloc a) n)) (level (locs_at (oldloc a) (at_ (newtoold a) n)))); [lia|reflexivity].
Qed.

Lemma locs_at_nth : forall l n x, nth_error l n = Some x -> locs_at l n = x.
Proof. intros l n x H. unfold locs_at. apply nth_error_nth. exact H. Qed.
Lemma at_nth : forall l n x, nth_error l n = Some x -> at_ l n = x.
Proof. intros l n x H. unfold at_. apply nth_error_nth. exact H. Qed.
Lemma recvs_eq : forall me, me < nr -> amr_recvs a me =
  map (mk a) (filter (fun t => Nat.eqb (at_ (newrank a) (snd t)) me && negb (Nat.eqb (at_ (ranklist a) (fst t)) me)) (transfers (a_dim a) 0 0 ps)).
Proof.
  intros me Hme. unfold amr_recvs. pose proof HR as HR'. destruct HR' as (Hd & Hne & Hdis & Ho & Hn & Hno & Hg1 & Hg2).
  rewrite (owned_filter nr _ _ _ me Hg2 Hme). rewrite <- all_pairs_recv.
  rewrite flat_map_filter, filter_flat_map, map_flat_map. apply flat_map_ext_in. intros n Hin. apply in_seq in Hin.
  assert (Hsnd : forall t, In t (rp (a_dim a) (oldloc a) (newloc a) (newtoold a) n) -> snd t = n).
  { intros t Ht. unfold rp in Ht. cbn zeta in Ht. destruct (Nat.ltb _ _) in Ht.
    - apply in_map_iff in Ht as (l & <- & _). reflexivity.
    - destruct Ht as [<-|[]]. reflexivity. }
  destruct (Nat.eqb_spec (at_ (newrank a) n) me) as [E|E].
  - rewrite recv_block_ok; [|exact E|].
    + f_equal. apply filter_ext_in. intros t Ht. rewrite (Hsnd t Ht), E, Nat.eqb_refl. reflexivity.
    + intros l Hl Hlev. rewrite Hn in Hin |- *. rewrite Ho in *. rewrite Hno in *. rewrite Hn in Hlev.
      destruct (n2o_meaning (a_dim a) ps n ltac:(lia)) as (o & nl & E1 & E2 & [E3|[(ol & j & E3 & Hj & E4)|E3]]).
      * rewrite (at_nth _ _ _ E1), (locs_at_nth _ _ _ E2) in *. rewrite (locs_at_nth _ _ _ E3) in Hlev. lia.
      * rewrite (at_nth _ _ _ E1), (locs_at_nth _ _ _ E2) in *. rewrite (locs_at_nth _ _ _ E3), E4, child_level in Hlev. lia.
      * rewrite (at_nth _ _ _ E1), (locs_at_nth _ _ _ E2) in *. rewrite (locs_at_nth _ _ _ (E3 l Hl)), child_level. lia.
  - rewrite filter_none; [reflexivity|]. intros t Ht. rewrite (Hsnd t Ht). apply Nat.eqb_neq in E. rewrite E. reflexivity.
Qed.
Lemma send_block_ok : forall me n, at_ (ranklist a) n = me ->
  (forall l, l < nleaf (a_dim a) -> level (locs_at (oldloc a) n) < level (locs_at (newloc a) (at_ (oldtonew a) n)) ->
     level (locs_at (oldloc a) n) < level (locs_at (newloc a) (at_ (oldtonew a) n + l))) ->
  send_block a me n = map (mk a) (filter (fun t => negb (Nat.eqb (at_ (newrank a) (snd t)) me)) (sp (a_dim a) (oldloc a) (newloc a) (oldtonew a) n)).
Proof.
  intros me n Hme Hlev. unfold send_block, sp. cbn zeta. fold (a_nlf a) in *.
  destruct (Nat.eqb_spec (level (locs_at (newloc a) (at_ (oldtonew a) n))) (level (locs_at (oldloc a) n))) as [H|H].
  - cbn [filter snd]. destruct (Nat.eqb_spec (at_ (newrank a) (at_ (oldtonew a) n)) me); cbn [negb]; [reflexivity|].
    cbn [map]. unfold mk. rewrite Hme, H, Nat.ltb_irrefl, Nat.eqb_refl. reflexivity.
  - destruct (Nat.ltb_spec (level (locs_at (oldloc a) n)) (level (locs_at (newloc a) (at_ (oldtonew a) n)))) as [H'|H'].
    + rewrite filter_map, map_map. cbn [snd].
      rewrite <- (flat_map_if (fun x => mk a (n, at_ (oldtonew a) n + x))).
      apply flat_map_ext_in. intros l Hl. apply in_seq in Hl. destruct (Nat.eqb_spec (at_ (newrank a) (at_ (oldtonew a) n + l)) me); [reflexivity|].
      unfold mk. rewrite Hme. specialize (Hlev l ltac:(lia) H').
      destruct (Nat.ltb_spec (level (locs_at (newloc a) (at_ (oldtonew a) n + l))) (level (locs_at (oldloc a) n))); [lia|].
      destruct (Nat.eqb_spec (level (locs_at (oldloc a) n)) (level (locs_at (newloc a) (at_ (oldtonew a) n + l)))); [lia|reflexivity].
    + cbn [filter snd]. destruct (Nat.eqb_spec (at_ (newrank a) (at_ (oldtonew a) n)) me); cbn [negb]; [reflexivity|].
      cbn [map]. unfold mk. rewrite Hme.
      destruct (Nat.ltb_spec (level (locs_at (newloc a) (at_ (oldtonew a) n))) (level (locs_at (oldloc a) n))); [reflexivity|lia].
Qed.
Lemma sends_eq : forall me, me < nr -> amr_sends a me =
  map (mk a) (filter (fun t => Nat.eqb (at_ (ranklist a) (fst t)) me && negb (Nat.eqb (at_ (newrank a) (snd t)) me)) (transfers (a_dim a) 0 0 ps)).
Proof.
  intros me Hme. unfold amr_sends. pose proof HR as HR'. destruct HR' as (Hd & Hne & Hdis & Ho & Hn & Hno & Hg1 & Hg2).
  rewrite (owned_filter nr _ _ _ me Hg1 Hme). rewrite <- all_pairs_send.
  rewrite flat_map_filter, filter_flat_map, map_flat_map. apply flat_map_ext_in. intros n Hin. apply in_seq in Hin.
  assert (Hfst : forall t, In t (sp (a_dim a) (oldloc a) (newloc a) (oldtonew a) n) -> fst t = n).
  { intros t Ht. unfold sp in Ht. cbn zeta in Ht. destruct (Nat.eqb _ _) in Ht; [destruct Ht as [<-|[]]; reflexivity|].
    destruct (Nat.ltb _ _) in Ht.
    - apply in_map_iff in Ht as (l & <- & _). reflexivity.
    - destruct Ht as [<-|[]]. reflexivity. }
  destruct (Nat.eqb_spec (at_ (ranklist a) n) me) as [E|E].
  - rewrite send_block_ok; [|exact E|].
    + f_equal. apply filter_ext_in. intros t Ht. rewrite (Hfst t Ht), E, Nat.eqb_refl. reflexivity.
    + intros l Hl Hlev. rewrite otn_ok in *. rewrite Ho in Hin |- *. rewrite Ho in Hlev. rewrite Hn in *.
      destruct (o2n_meaning (a_dim a) ps n ltac:(lia)) as (o & nl & E1 & E2 & [E3|[(ol & j & E3 & Hj & E4)|E3]]).
      * rewrite (at_nth _ _ _ E1), (locs_at_nth _ _ _ E2) in *. rewrite (locs_at_nth _ _ _ E3) in Hlev. lia.
      * rewrite (at_nth _ _ _ E1), (locs_at_nth _ _ _ E2) in *. rewrite (locs_at_nth _ _ _ E3), E4, child_level in Hlev. lia.
      * rewrite (at_nth _ _ _ E1), (locs_at_nth _ _ _ E2) in *. rewrite (locs_at_nth _ _ _ (E3 l Hl)), child_level. lia.
  - rewrite filter_none; [reflexivity|]. intros t Ht. rewrite (Hfst t Ht). apply Nat.eqb_neq in E. rewrite E. reflexivity.
Qed.

Definition from (src : nat) (m : msg) : bool := Nat.eqb (m_src m) src.
Definition to (dst : nat) (m : msg) : bool := Nat.eqb (m_dst m) dst.
Lemma mk_src : forall t, m_src (mk a t) = at_ (ranklist a) (fst t).
Proof. intros [o n]. reflexivity. Qed.
Lemma mk_dst : forall t, m_dst (mk a t) = at_ (newrank a) (snd t).
Proof. intros [o n]. reflexivity. Qed.
Lemma amr_match : forall src dst, src < nr -> dst < nr ->
  filter (to dst) (amr_sends a src) = filter (from src) (amr_recvs a dst).
Proof.
  intros src dst Hs Hd. rewrite recvs_eq, sends_eq by assumption. rewrite !filter_map, !filter_filter. f_equal.
  apply filter_ext. intros t. unfold from, to. rewrite mk_src, mk_dst.
  destruct (Nat.eqb_spec (at_ (newrank a) (snd t)) dst) as [->|E1], (Nat.eqb_spec (at_ (ranklist a) (fst t)) src) as [->|E2]; cbn [andb negb].
  - rewrite (Nat.eqb_sym src dst). rewrite !andb_true_r. reflexivity.
  - rewrite andb_false_r. reflexivity.
  - rewrite andb_false_r. reflexivity.
  - reflexivity.
Qed.
Lemma xor1_invol : forall f, xor1 (xor1 f) = f.
Proof.
  intros f. unfold xor1. destruct (Nat.odd f) eqn:E.
  - destruct f as [|f]; [discriminate E|]. replace (S f - 1) with f by lia. rewrite Nat.odd_succ in E.
    rewrite <- Nat.negb_even, E. cbn. lia.
  - replace (f + 1) with (S f) by lia. rewrite Nat.odd_succ, <- Nat.negb_odd, E. cbn. lia.
Qed.
Definition mkf (t : nat * nat * nat) : msg :=
  let '(i, n, fc) := t in
  mkM (at_ (ranklist a) i) (at_ (newrank a) n) (ffctag (n - nslist a (at_ (newrank a) n)) fc) FFC i n.
Lemma ffc_recvs_eq : forall g me, ffc_recvs a g me =
  map mkf (filter (fun t => Nat.eqb (at_ (newrank a) (snd (fst t))) me && negb (Nat.eqb (at_ (ranklist a) (fst (fst t))) me)) (ffc_pairs a g)).
Proof.
  intros g me. unfold ffc_recvs. induction (ffc_pairs a g) as [|[[i n] fc] l IH]; [reflexivity|]. cbn [flat_map filter fst snd]. rewrite IH.
  destruct (Nat.eqb_spec (at_ (newrank a) n) me) as [<-|E]; cbn [andb]; [|reflexivity].
  destruct (Nat.eqb (at_ (ranklist a) i) (at_ (newrank a) n)); reflexivity.
Qed.
Lemma ffc_sends_eq : forall g me, ffc_sends a g me =
  map mkf (filter (fun t => Nat.eqb (at_ (ranklist a) (fst (fst t))) me && negb (Nat.eqb (at_ (newrank a) (snd (fst t))) me)) (ffc_pairs a g)).
Proof.
  intros g me. unfold ffc_sends. induction (ffc_pairs a g) as [|[[i n] fc] l IH]; [reflexivity|]. cbn [flat_map filter fst snd]. rewrite IH.
  destruct (Nat.eqb_spec (at_ (ranklist a) i) me) as [<-|E]; cbn [andb]; [|reflexivity].
  rewrite xor1_invol. destruct (Nat.eqb (at_ (newrank a) n) (at_ (ranklist a) i)); reflexivity.
Qed.
Lemma ffc_match : forall g src dst, filter (to dst) (ffc_sends a g src) = filter (from src) (ffc_recvs a g dst).
Proof.
  intros g src dst. rewrite ffc_recvs_eq, ffc_sends_eq. rewrite !filter_map, !filter_filter. f_equal.
  apply filter_ext. intros [[i n] fc]. unfold from, to. cbn [mkf m_src m_dst fst snd].
  destruct (Nat.eqb_spec (at_ (newrank a) n) dst) as [->|E1], (Nat.eqb_spec (at_ (ranklist a) i) src) as [->|E2]; cbn [andb negb].
  - rewrite (Nat.eqb_sym src dst). rewrite !andb_true_r. reflexivity.
  - rewrite andb_false_r. reflexivity.
  - rewrite andb_false_r. reflexivity.
  - reflexivity.
Qed.
End Step.
