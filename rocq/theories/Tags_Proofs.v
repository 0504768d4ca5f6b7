From Coq Require Import List Arith NArith ZArith Bool Lia.
From Verif Require Import Tags_Model.
Import ListNotations.
Local Open Scope N_scope.

Lemma lor_low : forall b k a, a < 2 ^ k -> N.lor (N.shiftl b k) a = b * 2 ^ k + a.
Proof.
  intros b k a H. assert (Hl : N.land (N.shiftl b k) a = 0).
  { apply N.bits_inj. intros i. rewrite N.land_spec, N.bits_0. destruct (N.lt_ge_cases i k) as [Hi|Hi].
    - rewrite N.shiftl_spec_low by exact Hi. reflexivity.
    - rewrite <- (N.mod_small a (2 ^ k)) by exact H. rewrite N.mod_pow2_bits_high by exact Hi. apply andb_false_r. }
  rewrite <- N.lxor_lor by exact Hl. rewrite <- N.add_nocarry_lxor by exact Hl.
  rewrite N.shiftl_mul_pow2. reflexivity.
Qed.
Lemma shiftl_shift : forall a k m, N.shiftl a (k + m) = N.shiftl (N.shiftl a k) m.
Proof. intros. rewrite N.shiftl_shiftl. reflexivity. Qed.

Lemma bvals_tag_value : forall lid bufid phys, bufid < 64 -> phys < 32 ->
  CreateBvalsMPITag lid bufid phys = lid * 2048 + bufid * 32 + phys.
Proof.
  intros lid bufid phys Hb Hp. unfold CreateBvalsMPITag. change 11 with (6 + 5).
  rewrite shiftl_shift, <- N.shiftl_lor, lor_low, lor_low by (cbn; lia).
  change (2 ^ 6) with 64. change (2 ^ 5) with 32. lia.
Qed.
Lemma amr_tag_value : forall lid o1 o2 o3, o1 < 2 -> o2 < 2 -> o3 < 2 ->
  CreateAMRMPITag lid o1 o2 o3 = lid * 256 + o1 * 128 + o2 * 64 + o3 * 32.
Proof.
  intros lid o1 o2 o3 H1 H2 H3. unfold CreateAMRMPITag.
  change 8 with (1 + 7). rewrite shiftl_shift. rewrite <- N.shiftl_lor.
  change 7 with (1 + 6). rewrite shiftl_shift. rewrite <- N.shiftl_lor.
  change 6 with (1 + 5). rewrite shiftl_shift. rewrite <- N.shiftl_lor.
  rewrite !lor_low by (cbn; lia). rewrite N.shiftl_mul_pow2. change (2 ^ 1) with 2. change (2 ^ 5) with 32. lia.
Qed.
Lemma ffc_tag_value : forall lid f, f < 8 -> CreateFaceFieldCorrectionMPITag lid f = lid * 256 + f * 32 + 1.
Proof.
  intros lid f Hf. unfold CreateFaceFieldCorrectionMPITag. change 8 with (3 + 5) at 1.
  rewrite shiftl_shift, <- N.shiftl_lor, lor_low, lor_low by (cbn; lia). change (2 ^ 3) with 8. change (2 ^ 5) with 32. lia.
Qed.

Theorem bvals_tag_inj : forall lid lid' b b' p p', b < 64 -> b' < 64 -> p < 32 -> p' < 32 ->
  CreateBvalsMPITag lid b p = CreateBvalsMPITag lid' b' p' -> lid = lid' /\ b = b' /\ p = p'.
Proof. intros lid lid' b b' p p' Hb Hb' Hp Hp' H. rewrite !bvals_tag_value in H by assumption. lia. Qed.
Theorem bvals_tag_range : forall lid b p, b < 64 -> p < 32 ->
  (lid < 2 ^ 20 -> CreateBvalsMPITag lid b p < 2 ^ 31) /\ (lid < 16 -> CreateBvalsMPITag lid b p <= 32767).
Proof. intros lid b p Hb Hp. rewrite bvals_tag_value by assumption. change (2 ^ 20) with 1048576. change (2 ^ 31) with 2147483648. lia. Qed.
Theorem amr_tag_inj : forall lid lid' a b c a' b' c', a < 2 -> b < 2 -> c < 2 -> a' < 2 -> b' < 2 -> c' < 2 ->
  CreateAMRMPITag lid a b c = CreateAMRMPITag lid' a' b' c' -> lid = lid' /\ a = a' /\ b = b' /\ c = c'.
Proof. intros lid lid' a b c a' b' c' Ha Hb Hc Ha' Hb' Hc' H. rewrite !amr_tag_value in H by assumption. lia. Qed.
Theorem ffc_tag_inj : forall lid lid' f f', f < 8 -> f' < 8 ->
  CreateFaceFieldCorrectionMPITag lid f = CreateFaceFieldCorrectionMPITag lid' f' -> lid = lid' /\ f = f'.
Proof. intros lid lid' f f' Hf Hf' H. rewrite !ffc_tag_value in H by assumption. lia. Qed.
Theorem ffc_amr_disjoint : forall lid lid' f a b c, f < 8 -> a < 2 -> b < 2 -> c < 2 ->
  CreateFaceFieldCorrectionMPITag lid f <> CreateAMRMPITag lid' a b c.
Proof. intros lid lid' f a b c Hf Ha Hb Hc H. rewrite ffc_tag_value, amr_tag_value in H by assumption. lia. Qed.

(** *** Slots. *)
Local Open Scope nat_scope.
Lemma find_index_nth : forall l i k b, NoDup l -> nth_error l k = Some b -> find_index b l i = Some (i + k).
Proof.
  induction l as [|x l IH]; intros i k b Hn Hk; [destruct k; discriminate|].
  inversion Hn as [|? ? Hx Hl]; subst. cbn. destruct (Z.eqb_spec b x) as [->|Hne].
  - destruct k as [|k]; [f_equal; lia|]. exfalso. apply Hx. cbn in Hk. apply nth_error_In in Hk. exact Hk.
  - destruct k as [|k]; [cbn in Hk; congruence|]. rewrite (IH (S i) k) by assumption. f_equal. lia.
Qed.
Fixpoint nodupz (l : list Z) : bool := match l with [] => true | x :: l => negb (existsb (Z.eqb x) l) && nodupz l end.
Lemma nodupz_sound : forall l, nodupz l = true -> NoDup l.
Proof.
  induction l as [|x l IH]; intros H; [constructor|]. cbn in H. apply andb_true_iff in H. destruct H as [H1 H2].
  constructor; [|apply IH, H2]. intros Hin. apply negb_true_iff in H1.
  assert (existsb (Z.eqb x) l = true) by (apply existsb_exists; exists x; split; [exact Hin|apply Z.eqb_refl]). congruence.
Qed.
Fixpoint nodupn (l : list nat) : bool := match l with [] => true | x :: l => negb (existsb (Nat.eqb x) l) && nodupn l end.
Lemma nodupn_sound : forall l, nodupn l = true -> NoDup l.
Proof.
  induction l as [|x l IH]; intros H; [constructor|]. cbn in H. apply andb_true_iff in H. destruct H as [H1 H2].
  constructor; [|apply IH, H2]. intros Hin. apply negb_true_iff in H1.
  assert (existsb (Nat.eqb x) l = true) by (apply existsb_exists; exists x; split; [exact Hin|apply Nat.eqb_refl]). congruence.
Qed.
Lemma dims : forall dim, 1 <= dim <= 3 -> dim = 1 \/ dim = 2 \/ dim = 3.
Proof. lia. Qed.
Lemma bufids_nodup : forall dim ml, 1 <= dim <= 3 -> NoDup (bufids dim ml).
Proof.
  intros dim ml H. apply nodupz_sound. destruct (dims dim H) as [->|[->| ->]]; destruct ml; vm_compute; reflexivity.
Qed.

Lemma slot_roundtrip : forall dim ml k e, 1 <= dim <= 3 -> nth_error (BufferTable dim ml) k = Some e ->
  FindBufferID dim ml (ox1 e) (ox2 e) (ox3 e) (fi1 e) (fi2 e) = Some k.
Proof.
  intros dim ml k e H Hk. unfold FindBufferID. rewrite (find_index_nth _ 0 k); [reflexivity|apply bufids_nodup, H|].
  unfold bufids. rewrite nth_error_map, Hk. reflexivity.
Qed.
Lemma slots_56 : forall dim ml, 1 <= dim <= 3 -> length (BufferTable dim ml) <= 56.
Proof. intros dim ml H. destruct (dims dim H) as [->|[->| ->]]; destruct ml; vm_compute; lia. Qed.

(** *** Completeness of the slot table. *)
From Verif Require Import Tags_Spec.
Definition ctype_eqb (a b : ctype) : bool := match a, b with face, face => true | edge, edge => true | corner, corner => true | _, _ => false end.
Definition nidx_eqb (a b : nidx) : bool :=
  Z.eqb (ox1 a) (ox1 b) && Z.eqb (ox2 a) (ox2 b) && Z.eqb (ox3 a) (ox3 b) && Z.eqb (fi1 a) (fi1 b) && Z.eqb (fi2 a) (fi2 b)
  && ctype_eqb (nty a) (nty b).
Lemma nidx_eqb_eq : forall a b, nidx_eqb a b = true -> a = b.
Proof.
  intros [a1 a2 a3 a4 a5 a6] [b1 b2 b3 b4 b5 b6] H. unfold nidx_eqb in H. cbn in H.
  repeat (apply andb_true_iff in H; destruct H as [H ?]).
  repeat match goal with K : Z.eqb _ _ = true |- _ => apply Z.eqb_eq in K; subst end.
  destruct a6, b6; try discriminate; reflexivity.
Qed.
Definition offb (o : Z) : bool := Z.eqb o (-1) || Z.eqb o 0 || Z.eqb o 1.
Definition subb (f : Z) (h : bool) : bool := if h then Z.eqb f 0 || Z.eqb f 1 else Z.eqb f 0.
Definition validb (dim : nat) (ml : bool) (e : nidx) : bool :=
  offb (ox1 e) && offb (ox2 e) && offb (ox3 e) && (Nat.leb 2 dim || Z.eqb (ox2 e) 0) && (Nat.leb 3 dim || Z.eqb (ox3 e) 0)
  && ctype_eqb (nty e) (match ndisp e with 1 => face | 2 => edge | _ => corner end) && negb (Nat.eqb (ndisp e) 0)
  && subb (fi1 e) (ml && Nat.leb (ndisp e + 1) dim) && subb (fi2 e) (ml && Nat.leb (ndisp e + 2) dim).
Lemma offb_ok : forall o, offb o = true -> offset_ok o.
Proof. intros o H. unfold offb in H. unfold offset_ok. lia. Qed.
Lemma subb_ok : forall f h, subb f h = true -> sub_ok f h.
Proof. intros f [] H; unfold subb, sub_ok in *; lia. Qed.
Lemma ndisp_le : forall e, ndisp e <= 3.
Proof. intros e. unfold ndisp, active. do 3 destruct (Z.eqb _ _); cbn; lia. Qed.
Lemma validb_sound : forall dim ml e, validb dim ml e = true -> valid_slot dim ml e.
Proof.
  intros dim ml e H. unfold validb in H. pose proof (ndisp_le e) as Hd.
  repeat (apply andb_true_iff in H; destruct H as [H ?]).
  unfold valid_slot. repeat split; try (apply offb_ok; assumption); try (apply subb_ok; assumption).
  - intros Hdim. match goal with K : Nat.leb 2 dim || _ = true |- _ => clear - K Hdim; destruct (Nat.leb_spec 2 dim); [lia|apply Z.eqb_eq, K] end.
  - intros Hdim. match goal with K : Nat.leb 3 dim || _ = true |- _ => clear - K Hdim; destruct (Nat.leb_spec 3 dim); [lia|apply Z.eqb_eq, K] end.
  -   match goal with K : ctype_eqb _ _ = true, L : negb _ = true |- _ => clear - K L Hd end.
  destruct (ndisp e) as [|[|[|[|n]]]]; destruct (nty e); cbn in *; try discriminate; try lia; intuition.
Qed.
Lemma table_valid : forall dim ml e, 1 <= dim <= 3 -> In e (BufferTable dim ml) -> valid_slot dim ml e.
Proof.
  intros dim ml e H He. apply validb_sound. revert e He. apply forallb_forall.
  destruct (dims dim H) as [->|[->| ->]]; destruct ml; vm_compute; reflexivity.
Qed.
Definition offs : list Z := [-1; 0; 1]%Z.
Definition cands (dim : nat) : list nidx :=
  flat_map (fun a => flat_map (fun b => flat_map (fun c => flat_map (fun f => map (fun g =>
    let e := mkNI a b c f g face in mkNI a b c f g (match ndisp e with 1 => face | 2 => edge | _ => corner end)) [0; 1]%Z) [0; 1]%Z)
    (if Nat.leb 3 dim then offs else [0%Z])) (if Nat.leb 2 dim then offs else [0%Z])) offs.
Definition inb (e : nidx) (l : list nidx) : bool := existsb (nidx_eqb e) l.
Lemma cands_in : forall dim ml e, 1 <= dim <= 3 -> valid_slot dim ml e -> In e (cands dim).
Proof.
  intros dim ml e Hd (H1 & H2 & H3 & H4 & H5 & H6 & H7 & H8). destruct e as [a b c f g t].
  cbn [ox1 ox2 ox3 fi1 fi2 nty] in *. unfold cands. apply in_flat_map. exists a. split; [unfold offset_ok in H1; cbn; intuition|].
  apply in_flat_map. exists b. split; [destruct (Nat.leb_spec 2 dim); unfold offset_ok in H2; cbn; intuition|].
  apply in_flat_map. exists c. split; [destruct (Nat.leb_spec 3 dim); unfold offset_ok in H3; cbn; intuition|].
  apply in_flat_map. exists f. split; [destruct (ml && _) in H7; unfold sub_ok in H7; cbn; intuition|].
  apply in_map_iff. exists g. split; [|destruct (ml && _) in H8; unfold sub_ok in H8; cbn; intuition].
  cbn zeta. f_equal. unfold ndisp in *. cbn in *. destruct H6 as [[-> ->]|[[-> ->]|[-> ->]]]; reflexivity.
Qed.
Lemma valid_validb : forall dim ml e, valid_slot dim ml e -> validb dim ml e = true.
Proof.
  intros dim ml e (H1 & H2 & H3 & H4 & H5 & H6 & H7 & H8). unfold validb.
  assert (Hs : forall f h, sub_ok f h -> subb f h = true) by (intros f [] Hf; unfold sub_ok, subb in *; lia).
  assert (Ho : forall o, offset_ok o -> offb o = true) by (intros o Hf; unfold offset_ok, offb in *; lia).
  rewrite !Ho, !Hs by assumption.
  assert (E1 : Nat.leb 2 dim || Z.eqb (ox2 e) 0 = true)
    by (destruct (Nat.leb_spec 2 dim); [reflexivity|]; rewrite H4 by lia; reflexivity).
  assert (E2 : Nat.leb 3 dim || Z.eqb (ox3 e) 0 = true)
    by (destruct (Nat.leb_spec 3 dim); [reflexivity|]; rewrite H5 by lia; reflexivity).
  rewrite E1, E2. destruct H6 as [[-> ->]|[[-> ->]|[-> ->]]]; reflexivity.
Qed.
Lemma table_complete : forall dim ml e, 1 <= dim <= 3 -> valid_slot dim ml e -> In e (BufferTable dim ml).
Proof.
  intros dim ml e H He.
  assert (G : forallb (fun e => implb (validb dim ml e) (inb e (BufferTable dim ml))) (cands dim) = true).
  { destruct (dims dim H) as [->|[->| ->]]; destruct ml; vm_compute; reflexivity. }
  rewrite forallb_forall in G. specialize (G e (cands_in dim ml e H He)). rewrite (valid_validb dim ml e He) in G.
  apply existsb_exists in G. destruct G as (x & Hx & E). apply nidx_eqb_eq in E. subst. exact Hx.
Qed.
Lemma table_nodup : forall dim ml, 1 <= dim <= 3 -> NoDup (BufferTable dim ml).
Proof. intros dim ml H. apply (NoDup_map_inv (fun e => CreateBufferID (ox1 e) (ox2 e) (ox3 e) (fi1 e) (fi2 e))), bufids_nodup, H. Qed.

(** *** Physics ids. *)
Definition bools := [true; false].
Definition all_popt : list popt :=
  flat_map (fun a => flat_map (fun b => flat_map (fun c => flat_map (fun d => flat_map (fun e => flat_map (fun f =>
  flat_map (fun g => flat_map (fun h => map (fun i => mkPO a b c d e f g h i) bools) bools) bools) bools) bools) bools) bools) bools) bools.
Lemma all_popt_in : forall o, In o all_popt.
Proof.
  intros [a b c d e f g h i]. unfold all_popt.
  assert (B : forall x, In x bools) by (intros []; cbn; auto).
  repeat (apply in_flat_map; eexists; split; [apply B|]). apply in_map_iff. eexists; split; [reflexivity|apply B].
Qed.
Definition later (restart : bool) (o : popt) : bool :=
  (* does an unadvanced variable precede another one? *)
  (p_im o && negb (p_nr o) && (p_cr o || p_crdiff o || p_orbital o))
  || (restart && p_sixray o && (p_nr o || p_im o || p_cr o || p_crdiff o || p_orbital o)).
Definition everything (o : popt) : bool :=
  p_mhd o && p_grav o && p_scalars o && p_sixray o && p_nr o && p_cr o && p_crdiff o && p_orbital o.
Definition ids_ok (restart : bool) (o : popt) : bool :=
  nodupn (phys_ids restart o) && forallb (fun i => Nat.leb 1 i && Nat.leb i 31) (phys_ids restart o).
Lemma ids_check : forall restart o, later restart o = false -> everything o = false ->
  NoDup (phys_ids restart o) /\ forall i, In i (phys_ids restart o) -> 1 <= i <= 31.
Proof.
  intros restart o Hl He.
  assert (G : forallb (fun o => later restart o || everything o || ids_ok restart o) all_popt = true)
    by (destruct restart; vm_compute; reflexivity).
  rewrite forallb_forall in G. specialize (G o (all_popt_in o)). rewrite Hl, He in G. cbn in G.
  unfold ids_ok in G. apply andb_true_iff in G. destruct G as [G1 G2]. split; [apply nodupn_sound, G1|].
  intros i Hi. rewrite forallb_forall in G2. specialize (G2 i Hi).
  apply andb_true_iff in G2. rewrite !Nat.leb_le in G2. exact G2.
Qed.
