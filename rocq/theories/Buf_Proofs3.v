(** The three kinds of message: ranges, sizes, contents. *)
From Coq Require Import List Arith ZArith Bool Lia.
From Verif Require Import Loc Arr_Model Arr_Spec Arr_Proofs Buf_Model Buf_Spec Buf_Proofs Buf_Proofs2.
Import ListNotations.
Local Open Scope Z_scope.

(** ranges inside the arrays *)
Ltac fall := repeat match goal with H : Forall2 _ (_ :: _) _ |- _ => inversion H; clear H; subst | H : Forall2 _ [] _ |- _ => inversion H; clear H; subst end; cbn [fst snd] in *.
Lemma in_send : forall B V il iu jl ju kl ku a rs, In (a, rs) (send_list B V il iu jl ju kl ku) <-> exists d, In (a, rs, d) (xfers B V il iu jl ju kl ku 0 0 0).
Proof.
  intros. rewrite (send_xfers B V il iu jl ju kl ku 0 0 0), in_map_iff. split.
  - intros ([[a' rs'] d] & E & H). unfold src_of in E. cbn [fst snd] in E. injection E as -> ->. exists d. exact H.
  - intros (d & H). exists (a, rs, d). split; [reflexivity|exact H].
Qed.
Lemma list_inside : forall B V dm il iu jl ju kl ku,
  (forall i, 0 <= il /\ 0 <= jl /\ 0 <= kl /\ iu < nx1 (dm (Cc i)) /\ ju < nx2 (dm (Cc i)) /\ ku < nx3 (dm (Cc i)) /\ nx4 (dm (Cc i)) = nth i (ncc V) 0 /\ nx5 (dm (Cc i)) = 1 /\ nx6 (dm (Cc i)) = 1) ->
  (iu < nx2 (dm Rad) /\ ju < nx3 (dm Rad) /\ ku < nx4 (dm Rad) /\ nx1 (dm Rad) = match nrad V with Some n => n | None => 0 end /\ nx5 (dm Rad) = 1 /\ nx6 (dm Rad) = 1) ->
  (forall i, iu + 1 < nx1 (dm (X1f i)) /\ ju < nx2 (dm (X1f i)) /\ ku < nx3 (dm (X1f i)) /\ nx4 (dm (X1f i)) = 1 /\ nx5 (dm (X1f i)) = 1 /\ nx6 (dm (X1f i)) = 1) ->
  (forall i, iu < nx1 (dm (X2f i)) /\ ju + f2 B < nx2 (dm (X2f i)) /\ ku < nx3 (dm (X2f i)) /\ nx4 (dm (X2f i)) = 1 /\ nx5 (dm (X2f i)) = 1 /\ nx6 (dm (X2f i)) = 1) ->
  (forall i, iu < nx1 (dm (X3f i)) /\ ju < nx2 (dm (X3f i)) /\ ku + f3 B < nx3 (dm (X3f i)) /\ nx4 (dm (X3f i)) = 1 /\ nx5 (dm (X3f i)) = 1 /\ nx6 (dm (X3f i)) = 1) ->
  all_inside dm (send_list B V il iu jl ju kl ku).
Proof.
  intros B V dm il iu jl ju kl ku HC HR H1 H2 H3 a rs Hin x Hx. apply in_send in Hin as (d & Hin). apply in_xfers in Hin. unfold within in Hx. destruct a as [m| |m|m|m].
  - destruct Hin as (nv & Hn & -> & _). fall. specialize (HC m). rewrite (nth_error_nth _ _ 0 Hn) in HC. unfold pad. cbn [length Nat.sub repeat app]. unfold inrange, extents. repeat constructor; lia.
  - destruct Hin as (nv & Hn & -> & _). fall. rewrite Hn in HR. specialize (HC 0%nat). unfold pad. cbn [length Nat.sub repeat app]. unfold inrange, extents. repeat constructor; lia.
  - destruct Hin as (_ & -> & _). fall. specialize (HC 0%nat). specialize (H1 m). unfold pad. cbn [length Nat.sub repeat app]. unfold inrange, extents. repeat constructor; lia.
  - destruct Hin as (_ & -> & _). fall. specialize (HC 0%nat). specialize (H2 m). unfold pad. cbn [length Nat.sub repeat app]. unfold inrange, extents. repeat constructor; lia.
  - destruct Hin as (_ & -> & _). fall. specialize (HC 0%nat). specialize (H3 m). unfold pad. cbn [length Nat.sub repeat app]. unfold inrange, extents. repeat constructor; lia.
Qed.
Lemma xfers_shape : forall B V il iu jl ju kl ku di dj dk a rs d, In (a, rs, d) (xfers B V il iu jl ju kl ku di dj dk) -> (3 <= length rs <= 4)%nat /\ length d = length rs.
Proof. intros until d. intros H. apply in_xfers in H. destruct a; [destruct H as (? & _ & -> & ->)|destruct H as (? & _ & -> & ->)|destruct H as (_ & -> & ->)..]; cbn [length]; lia. Qed.
Lemma xfers_ok : forall B V dm il iu jl ju kl ku di dj dk, all_inside dm (map dst_of (xfers B V il iu jl ju kl ku di dj dk)) -> Forall (okx dm) (xfers B V il iu jl ju kl ku di dj dk).
Proof.
  intros. apply Forall_forall. intros [[a rs] d] Hin. destruct (xfers_shape _ _ _ _ _ _ _ _ _ _ _ _ _ _ Hin). split; [assumption|]. split; [assumption|]. apply H. apply in_map_iff. exists (a, rs, d). split; [reflexivity|exact Hin].
Qed.
(** one kind of message *)
Lemma moved : forall A B V dms dmd il iu jl ju kl ku di dj dk il' iu' jl' ju' kl' ku' (T S : store A) buf, il' = il + di -> iu' = iu + di -> jl' = jl + dj -> ju' = ju + dj -> kl' = kl + dk -> ku' = ku + dk ->
  all_inside dmd (recv_list B V il' iu' jl' ju' kl' ku') ->
  let b := pack_all dms T (send_list B V il iu jl ju kl ku) buf in let r := unpack_all dmd (fst b) (recv_list B V il' iu' jl' ju' kl' ku') S in
  snd b = total (send_list B V il iu jl ju kl ku) /\ snd r = snd b /\ (forall p, p < 0 \/ snd b <= p -> fst b p = buf p) /\
  result dms dmd T S (fst r) (xfers B V il iu jl ju kl ku di dj dk) /\
  result dms dmd T S (copy_all dmd dms T (copy_list B V il' iu' jl' ju' kl' ku' (- di) (- dj) (- dk)) S) (xfers B V il iu jl ju kl ku di dj dk).
Proof.
  intros A B V dms dmd il iu jl ju kl ku di dj dk il' iu' jl' ju' kl' ku' T S buf -> -> -> -> -> -> Hin b r.
  rewrite (recv_xfers B V il iu jl ju kl ku di dj dk) in Hin. pose proof (xfers_ok _ _ _ _ _ _ _ _ _ _ _ _ Hin) as Hok. pose proof (xfers_NoDup B V il iu jl ju kl ku di dj dk) as ND.
  subst r b. unfold pack_all, unpack_all. rewrite (recv_xfers B V il iu jl ju kl ku di dj dk), copy_xfers, (send_xfers B V il iu jl ju kl ku di dj dk).
  destruct (pack_all_holds A dms dmd T _ (buf, 0) Hok) as (P1 & P2 & P3). cbn zeta in *. cbn [fst snd] in *.
  set (b' := fold_left _ (map src_of _) (buf, 0)) in *.
  destruct (unpack_all_result A dms dmd T (fst b') _ (S, 0) Hok ND P1) as (U1 & U2). cbn zeta in *. cbn [fst snd] in *.
  split; [lia|]. split; [lia|]. split; [exact P3|]. split; [exact U2|]. apply (copy_all_result A dms dmd T _ S Hok ND).
Qed.

(** the two results agree *)
Lemma result_eq : forall A dms dmd (T S S1 S2 : store A) cs, result dms dmd T S S1 cs -> result dms dmd T S S2 cs -> forall a q, S1 a q = S2 a q.
Proof.
  intros A dms dmd T S S1 S2 cs (A1 & A2) (B1 & B2) a q. destruct (in_dec arr_dec a (map (fun c => fst (fst c)) cs)) as [Hin|N]; [|rewrite A2, B2 by exact N; reflexivity].
  apply in_map_iff in Hin as ([[a' rs] d] & E & Hin). cbn [fst] in E. subst a'. destruct (A1 a rs d Hin) as (P1 & P2). destruct (B1 a rs d Hin) as (Q1 & Q2).
  destruct (in_dec Z.eq_dec q (map (fun x => addr (dmd a) (plus x d)) (tuples rs))) as [Hq|Hq].
  - apply in_map_iff in Hq as (x & <- & Hx). apply in_tuples in Hx. rewrite P1, Q1 by exact Hx. reflexivity.
  - assert (Hn : forall x, within rs x -> q <> addr (dmd a) (plus x d)) by (intros x Hx ->; apply Hq, in_map_iff; exists x; split; [reflexivity|apply in_tuples, Hx]). rewrite P2, Q2 by exact Hn. reflexivity.
Qed.
Lemma written_iff : forall A dms dmd P P' R (T S S' : store A), (forall a x, P a x <-> P' a x) -> written dmd dms P R T S S' -> written dmd dms P' R T S S'.
Proof. intros A dms dmd P P' R T S S' H (A1 & A2). split; [intros a x y Hx; apply A1, H, Hx|intros a q Hq; apply A2; intros x y Hx; apply Hq, H, Hx]. Qed.

(** ** One direction *)
Lemma act_spec : forall n, 1 <= n -> (act n = true /\ 1 < n) \/ (act n = false /\ n = 1).
Proof. intros n H. unfold act. destruct (Z.ltb_spec 1 n); [left|right]; split; lia. Qed.
Lemma even_half : forall n, Z.even n = true -> n = 2 * (n / 2) /\ (n + 1) / 2 = n / 2.
Proof. intros n H. apply Z.even_spec in H as (k & ->). split; [rewrite Z.mul_comm, Z.div_mul by lia; lia|]. rewrite (Z.mul_comm 2 k), Z.div_mul, Z.div_add_l by lia. cbn. lia. Qed.
Lemma half_one : (1 + 1) / 2 = 1 /\ 1 / 2 = 0. Proof. split; reflexivity. Qed.
Lemma odd_parent : forall x, x = 2 * (x / 2) + (if odd_ x then 1 else 0).
Proof. intros x. unfold odd_. pose proof (Z.div_mod x 2 ltac:(lia)) as H. rewrite Zmod_odd in H. exact H. Qed.
Ltac dirs B HG := 
  let H1 := fresh in let H2 := fresh in let H3 := fresh in let H4 := fresh in
  destruct HG as (H1 & H2 & H3 & H4); unfold f2, f3, je_, ke_, ie_, cje_, cke_, cie_, js_, ks_, cjs_, cks_, is_, cis_, ncells, ncc_ in *;
  let E2 := fresh "EA" in let E3 := fresh "EB" in
  destruct (act_spec (bn2 B) H3) as [(E2 & ?)|(E2 & ?)]; rewrite ?E2; destruct (act_spec (bn3 B) H4) as [(E3 & ?)|(E3 & ?)]; rewrite ?E3.
Ltac ins := apply list_inside; [intros i|..|intros i|intros i|intros i]; unfold main_dims, coarse_dims; cbn [nx1 nx2 nx3 nx4 nx5 nx6].

Lemma same_inside : forall B V, good_block B -> all_inside (main_dims B V) (PrepareSendSameLevel B V).
Proof. intros B V HG. unfold PrepareSendSameLevel. ins; dirs B HG. all: lia. Qed.
Lemma bn_half : forall B, refinable B -> bn1 B = 2 * (bn1 B / 2) /\ 1 <= bn1 B / 2 /\ (bn2 B = 2 * (bn2 B / 2) /\ (bn2 B + 1) / 2 = bn2 B / 2 /\ 1 <= bn2 B / 2 /\ 1 < bn2 B \/ bn2 B = 1 /\ (bn2 B + 1) / 2 = 1 /\ bn2 B / 2 = 0) /\
  (bn3 B = 2 * (bn3 B / 2) /\ (bn3 B + 1) / 2 = bn3 B / 2 /\ 1 <= bn3 B / 2 /\ 1 < bn3 B \/ bn3 B = 1 /\ (bn3 B + 1) / 2 = 1 /\ bn3 B / 2 = 0).
Proof.
  intros B (HG & E1 & E2 & E3). destruct HG as (G0 & G1 & G2 & G3). apply even_half in E1 as (E1 & _). split; [exact E1|]. split; [lia|]. split.
  - destruct (act_spec _ G2) as [(_ & H)|(_ & ->)]; [left|right; repeat split]. destruct (even_half _ (E2 H)). repeat split; lia.
  - destruct (act_spec _ G3) as [(_ & H)|(_ & ->)]; [left|right; repeat split]. destruct (even_half _ (E3 H)). repeat split; lia.
Qed.
Lemma f2c_send_inside : forall B V, refinable B -> all_inside (coarse_dims B V) (PrepareSendFineToCoarseAMR B V).
Proof. intros B V HB. pose proof (bn_half B HB) as HH. destruct HB as (HG & _). unfold PrepareSendFineToCoarseAMR. ins; dirs B HG; lia. Qed.
(** displacements *)
Definition sh1 (B : bsz) (l : loc) := if odd_ (lx1 l) then bn1 B / 2 else 0.
Definition sh2 (B : bsz) (l : loc) := if odd_ (lx2 l) then bn2 B / 2 else 0.
Definition sh3 (B : bsz) (l : loc) := if odd_ (lx3 l) then bn3 B / 2 else 0.
Lemma f2c_ranges : forall B V l, refinable B -> loc_of B l -> FinishRecvFineToCoarseAMR B V l =
  recv_list B V (cis_ B + sh1 B l) (cie_ B + sh1 B l) (cjs_ B + sh2 B l) (cje_ B + sh2 B l) (cks_ B + sh3 B l) (cke_ B + sh3 B l).
Proof.
  intros B V l HB (L2 & L3). pose proof (bn_half B HB) as HH. destruct HB as (HG & _). unfold FinishRecvFineToCoarseAMR, sh1, sh2, sh3. 
  assert (O2 : bn2 B = 1 -> odd_ (lx2 l) = false) by (intros H; rewrite (L2 H); reflexivity). assert (O3 : bn3 B = 1 -> odd_ (lx3 l) = false) by (intros H; rewrite (L3 H); reflexivity).
  dirs B HG; try rewrite O2 by lia; try rewrite O3 by lia; destruct (odd_ (lx1 l)), (odd_ (lx2 l)), (odd_ (lx3 l)); f_equal; lia.
Qed.
Lemma f2c_recv_inside : forall B V l, refinable B -> loc_of B l -> all_inside (main_dims B V) (FinishRecvFineToCoarseAMR B V l).
Proof.
  intros B V l HB HL. rewrite (f2c_ranges B V l HB HL). destruct HL as (L2 & L3). pose proof (bn_half B HB) as HH. destruct HB as (HG & _). unfold sh1, sh2, sh3.
  assert (O2 : bn2 B = 1 -> odd_ (lx2 l) = false) by (intros H; rewrite (L2 H); reflexivity). assert (O3 : bn3 B = 1 -> odd_ (lx3 l) = false) by (intros H; rewrite (L3 H); reflexivity).
  rewrite recv_send. ins; dirs B HG; try rewrite O2 by lia; try rewrite O3 by lia; destruct (odd_ (lx1 l)), (odd_ (lx2 l)), (odd_ (lx3 l)); lia.
Qed.
Lemma f2c_copies : forall B V l, refinable B -> loc_of B l -> FillSameRankFineToCoarseAMR B V l =
  copy_list B V (cis_ B + sh1 B l) (cie_ B + sh1 B l) (cjs_ B + sh2 B l) (cje_ B + sh2 B l) (cks_ B + sh3 B l) (cke_ B + sh3 B l) (- sh1 B l) (- sh2 B l) (- sh3 B l).
Proof.
  intros B V l HB (L2 & L3). pose proof (bn_half B HB) as HH. destruct HB as (HG & _). unfold FillSameRankFineToCoarseAMR, sh1, sh2, sh3.
  assert (O2 : bn2 B = 1 -> odd_ (lx2 l) = false) by (intros H; rewrite (L2 H); reflexivity). assert (O3 : bn3 B = 1 -> odd_ (lx3 l) = false) by (intros H; rewrite (L3 H); reflexivity).
  cbv zeta. dirs B HG; try rewrite O2 by lia; try rewrite O3 by lia; destruct (odd_ (lx1 l)), (odd_ (lx2 l)), (odd_ (lx3 l)); rewrite ?Z.mul_1_l; change (0 * bn1 B / 2) with 0; change (0 * bn2 B / 2) with 0; change (0 * bn3 B / 2) with 0; f_equal; lia.
Qed.
Lemma c2f_ranges : forall B V l, refinable B -> loc_of B l -> PrepareSendCoarseToFineAMR B V l =
  send_list B V (cis_ B - 1 + sh1 B l) (cie_ B + 1 + sh1 B l) (cjs_ B - f2 B + sh2 B l) (cje_ B + f2 B + sh2 B l) (cks_ B - f3 B + sh3 B l) (cke_ B + f3 B + sh3 B l).
Proof.
  intros B V l HB (L2 & L3). pose proof (bn_half B HB) as HH. destruct HB as (HG & _). unfold PrepareSendCoarseToFineAMR, sh1, sh2, sh3. 
  assert (O2 : bn2 B = 1 -> odd_ (lx2 l) = false) by (intros H; rewrite (L2 H); reflexivity). assert (O3 : bn3 B = 1 -> odd_ (lx3 l) = false) by (intros H; rewrite (L3 H); reflexivity).
  dirs B HG; try rewrite O2 by lia; try rewrite O3 by lia; destruct (odd_ (lx1 l)), (odd_ (lx2 l)), (odd_ (lx3 l)); f_equal; lia.
Qed.
Lemma c2f_send_inside : forall B V l, refinable B -> loc_of B l -> all_inside (main_dims B V) (PrepareSendCoarseToFineAMR B V l).
Proof.
  intros B V l HB HL. rewrite (c2f_ranges B V l HB HL). destruct HL as (L2 & L3). pose proof (bn_half B HB) as HH. destruct HB as (HG & _). unfold sh1, sh2, sh3.
  assert (O2 : bn2 B = 1 -> odd_ (lx2 l) = false) by (intros H; rewrite (L2 H); reflexivity). assert (O3 : bn3 B = 1 -> odd_ (lx3 l) = false) by (intros H; rewrite (L3 H); reflexivity).
  ins; dirs B HG; try rewrite O2 by lia; try rewrite O3 by lia; destruct (odd_ (lx1 l)), (odd_ (lx2 l)), (odd_ (lx3 l)); lia.
Qed.
Lemma c2f_recv_inside : forall B V, refinable B -> all_inside (coarse_dims B V) (ReceiveCoarseToFineAMR B V).
Proof. intros B V HB. pose proof (bn_half B HB) as HH. destruct HB as (HG & _). unfold ReceiveCoarseToFineAMR. rewrite recv_send. ins; dirs B HG; lia. Qed.
Lemma c2f_copies : forall B V l, refinable B -> loc_of B l -> FillSameRankCoarseToFineAMR B V l =
  copy_list B V (cis_ B - 1) (cie_ B + 1) (cjs_ B - f2 B) (cje_ B + f2 B) (cks_ B - f3 B) (cke_ B + f3 B) (- - sh1 B l) (- - sh2 B l) (- - sh3 B l).
Proof.
  intros B V l HB (L2 & L3). pose proof (bn_half B HB) as HH. destruct HB as (HG & _). unfold FillSameRankCoarseToFineAMR, sh1, sh2, sh3.
  assert (O2 : bn2 B = 1 -> odd_ (lx2 l) = false) by (intros H; rewrite (L2 H); reflexivity). assert (O3 : bn3 B = 1 -> odd_ (lx3 l) = false) by (intros H; rewrite (L3 H); reflexivity).
  cbv zeta. dirs B HG; try rewrite O2 by lia; try rewrite O3 by lia; destruct (odd_ (lx1 l)), (odd_ (lx2 l)), (odd_ (lx3 l)); rewrite ?Z.mul_1_l; change (0 * bn1 B / 2) with 0; change (0 * bn2 B / 2) with 0; change (0 * bn3 B / 2) with 0; f_equal; lia.
Qed.

(** ** The moves *)
Lemma same_total : forall B V, good_block B -> goodv V -> total (PrepareSendSameLevel B V) + 1 = bssame B V.
Proof.
  intros B V HG (V1 & V2). unfold PrepareSendSameLevel. assert (F : 0 <= f2 B /\ 0 <= f3 B) by (dirs B HG; lia). destruct F as [F2 F3]. pose proof HG as (_ & G1 & G2 & G3).
  rewrite (send_total B V _ _ _ _ _ _ (bn1 B) (bn2 B) (bn3 B) V1 V2 F2 F3); [reflexivity|lia|lia|lia|..]; clear F2 F3 G1 G2 G3; dirs B HG; lia.
Qed.
Lemma f2c_total : forall B V, refinable B -> goodv V -> total (PrepareSendFineToCoarseAMR B V) = bsf2c B V.
Proof.
  intros B V HB (V1 & V2). pose proof (bn_half B HB) as HH. destruct HB as (HG & _). unfold PrepareSendFineToCoarseAMR. assert (F : 0 <= f2 B /\ 0 <= f3 B) by (dirs B HG; lia). destruct F as [F2 F3].
  rewrite (send_total B V _ _ _ _ _ _ (bn1 B / 2) ((bn2 B + 1) / 2) ((bn3 B + 1) / 2) V1 V2 F2 F3); [reflexivity|lia|lia|lia|..]; clear F2 F3; dirs B HG; lia.
Qed.
Lemma c2f_total : forall B V l, refinable B -> goodv V -> loc_of B l -> total (PrepareSendCoarseToFineAMR B V l) = bsc2f B V.
Proof.
  intros B V l HB (V1 & V2) HL. rewrite (c2f_ranges B V l HB HL). pose proof (bn_half B HB) as HH. destruct HB as (HG & _). assert (F : 0 <= f2 B /\ 0 <= f3 B) by (dirs B HG; lia). destruct F as [F2 F3].
  rewrite (send_total B V _ _ _ _ _ _ (bn1 B / 2 + 2) ((bn2 B + 1) / 2 + 2 * f2 B) ((bn3 B + 1) / 2 + 2 * f3 B) V1 V2 F2 F3); [unfold bsc2f; ring|lia|lia|lia|..]; clear F2 F3; dirs B HG; lia.
Qed.
Lemma in_cells_eq : forall B V il iu jl ju kl ku il' iu' jl' ju' kl' ku', il = il' -> iu = iu' -> jl = jl' -> ju = ju' -> kl = kl' -> ku = ku' -> forall a x, in_cells B V il iu jl ju kl ku a x <-> in_cells B V il' iu' jl' ju' kl' ku' a x.
Proof. intros; subst. reflexivity. Qed.
Lemma plus0 : forall a x B V il iu jl ju kl ku, in_cells B V il iu jl ju kl ku a x -> plus x (disp 0 0 0 a) = x.
Proof. intros a x B V il iu jl ju kl ku H. unfold in_cells in H. destruct a; repeat match goal with x : list Z |- _ => destruct x; try contradiction end; unfold plus, disp; cbn [combine map fst snd]; rewrite !Z.add_0_r; reflexivity. Qed.
Lemma same_level : forall A B V (T S : store A) buf, good_block B -> goodv V ->
  let b := pack_all (main_dims B V) T (PrepareSendSameLevel B V) buf in let r := unpack_all (main_dims B V) (fst b) (FinishRecvSameLevel B V) S in
  snd b + 1 = bssame B V /\ snd r = snd b /\ (forall p, p < 0 \/ snd b <= p -> fst b p = buf p) /\
  written (main_dims B V) (main_dims B V) (own_cells B V) (fun _ x y => y = x) T S (fst r).
Proof.
  intros A B V T S buf HG HV b r.
  destruct (moved A B V (main_dims B V) (main_dims B V) (is_ B) (ie_ B) (js_ B) (je_ B) (ks_ B) (ke_ B) 0 0 0 (is_ B) (ie_ B) (js_ B) (je_ B) (ks_ B) (ke_ B) T S buf ltac:(lia) ltac:(lia) ltac:(lia) ltac:(lia) ltac:(lia) ltac:(lia) (same_inside B V HG)) as (H1 & H2 & H3 & H4 & _).
  change (snd b = total (PrepareSendSameLevel B V)) in H1. change (snd r = snd b) in H2. split; [rewrite H1; apply same_total; assumption|]. split; [exact H2|]. split; [exact H3|].
  apply (written_iff A _ _ (in_cells B V (is_ B) (ie_ B) (js_ B) (je_ B) (ks_ B) (ke_ B))); [unfold own_cells; apply in_cells_eq; dirs B HG; lia|].
  eapply result_written; [|exact H4]. intros a x y Hx. rewrite (plus0 _ _ _ _ _ _ _ _ _ _ Hx). reflexivity.
Qed.
Lemma shifts : forall B l c, refinable B -> loc_of B l -> parent_loc l c -> lx1 l * (bn1 B / 2) = lx1 c * bn1 B + sh1 B l /\ lx2 l * (bn2 B / 2) = lx2 c * bn2 B + sh2 B l /\ lx3 l * (bn3 B / 2) = lx3 c * bn3 B + sh3 B l.
Proof.
  intros B l c HB (L2 & L3) (P1 & P2 & P3). pose proof (bn_half B HB) as HH.
  assert (S1 : lx1 l * (bn1 B / 2) = lx1 c * bn1 B + sh1 B l) by (rewrite P1; rewrite (odd_parent (lx1 l)) at 1; unfold sh1; destruct (odd_ (lx1 l)); nia).
  assert (S2 : lx2 l * (bn2 B / 2) = lx2 c * bn2 B + sh2 B l).
  { rewrite P2. destruct HH as (_ & _ & [(E & _)|(E & _ & E0)] & _); [rewrite (odd_parent (lx2 l)) at 1; unfold sh2; destruct (odd_ (lx2 l)); nia|]. unfold sh2. rewrite (L2 E). cbn. lia. }
  assert (S3 : lx3 l * (bn3 B / 2) = lx3 c * bn3 B + sh3 B l).
  { rewrite P3. destruct HH as (_ & _ & _ & [(E & _)|(E & _ & E0)]); [rewrite (odd_parent (lx3 l)) at 1; unfold sh3; destruct (odd_ (lx3 l)); nia|]. unfold sh3. rewrite (L3 E). cbn. lia. }
  repeat split; assumption.
Qed.
Lemma place : forall B V il iu jl ju kl ku l c a x y, in_cells B V il iu jl ju kl ku a x -> refinable B -> loc_of B l -> parent_loc l c ->
  (same_place B l c a x y <-> y = plus x (disp (sh1 B l) (sh2 B l) (sh3 B l) a)).
Proof.
  intros B V il iu jl ju kl ku l c a x y Hx HB HL HP. destruct (shifts B l c HB HL HP) as (S1 & S2 & S3).
  unfold in_cells in Hx. clear HB HL HP. destruct a; destruct x as [|x1 [|x2 [|x3 [|x4 [|x5 x]]]]]; try contradiction Hx; clear Hx;
    destruct y as [|y1 [|y2 [|y3 [|y4 [|y5 y]]]]]; cbn [same_place]; unfold plus, disp; cbn [combine map fst snd]; rewrite ?S1, ?S2, ?S3;
    (split; [intros HR; try contradiction HR; repeat match type of HR with _ /\ _ => destruct HR as [? HR] end; repeat f_equal; lia
            |intros E; try discriminate E; injection E; intros; subst; repeat split; lia]).
Qed.
Lemma place' : forall B V il iu jl ju kl ku l c a x y, in_cells B V il iu jl ju kl ku a x -> refinable B -> loc_of B l -> parent_loc l c ->
  (same_place B l c a y x <-> y = plus x (disp (- sh1 B l) (- sh2 B l) (- sh3 B l) a)).
Proof.
  intros B V il iu jl ju kl ku l c a x y Hx HB HL HP. destruct (shifts B l c HB HL HP) as (S1 & S2 & S3).
  unfold in_cells in Hx. clear HB HL HP. destruct a; destruct x as [|x1 [|x2 [|x3 [|x4 [|x5 x]]]]]; try contradiction Hx; clear Hx;
    destruct y as [|y1 [|y2 [|y3 [|y4 [|y5 y]]]]]; cbn [same_place]; unfold plus, disp; cbn [combine map fst snd]; rewrite ?S1, ?S2, ?S3;
    (split; [intros HR; try contradiction HR; repeat match type of HR with _ /\ _ => destruct HR as [? HR] end; repeat f_equal; lia
            |intros E; try discriminate E; injection E; intros; subst; repeat split; lia]).
Qed.
Lemma shifted_cells : forall B V il iu jl ju kl ku l c a x, refinable B -> loc_of B l -> parent_loc l c ->
  (in_cells B V (il + sh1 B l) (iu + sh1 B l) (jl + sh2 B l) (ju + sh2 B l) (kl + sh3 B l) (ku + sh3 B l) a x <-> exists y, in_cells B V il iu jl ju kl ku a y /\ same_place B l c a y x).
Proof.
  intros B V il iu jl ju kl ku l c a x HB HL HP. split.
  - intros Hx. pose proof (place' B V _ _ _ _ _ _ l c a x (plus x (disp (- sh1 B l) (- sh2 B l) (- sh3 B l) a)) Hx HB HL HP) as (_ & Hs). exists (plus x (disp (- sh1 B l) (- sh2 B l) (- sh3 B l) a)). split; [|exact (Hs eq_refl)].
    clear Hs. unfold in_cells in *. destruct a; destruct x as [|x1 [|x2 [|x3 [|x4 [|x5 x]]]]]; try contradiction Hx; unfold plus, disp; cbn [combine map fst snd];
      [destruct Hx as (nv & Hn & Hx); exists nv; split; [exact Hn|lia]|destruct Hx as (nv & Hn & Hx); exists nv; split; [exact Hn|lia]|lia..].
  - intros (y & Hy & Hs). apply (place B V _ _ _ _ _ _ l c a y x Hy HB HL HP) in Hs as ->. 
    unfold in_cells in *. destruct a; destruct y as [|y1 [|y2 [|y3 [|y4 [|y5 y]]]]]; try contradiction Hy; unfold plus, disp; cbn [combine map fst snd];
      [destruct Hy as (nv & Hn & Hy); exists nv; split; [exact Hn|lia]|destruct Hy as (nv & Hn & Hy); exists nv; split; [exact Hn|lia]|lia..].
Qed.
Section Moves.
Variables (A : Type) (B : bsz) (V : vars) (l c : loc) (T S : store A) (buf : mem A).
Hypotheses (HB : refinable B) (HV : goodv V) (HL : loc_of B l) (HP : parent_loc l c).
Lemma fine_to_coarse :
  let b := pack_all (coarse_dims B V) T (PrepareSendFineToCoarseAMR B V) buf in let r := unpack_all (main_dims B V) (fst b) (FinishRecvFineToCoarseAMR B V l) S in
  (snd b = bsf2c B V /\ snd r = snd b /\ (forall p, p < 0 \/ snd b <= p -> fst b p = buf p) /\
  written (main_dims B V) (coarse_dims B V) (coarse_cells B V 0) (same_place B l c) T S (fst r)) /\
  (forall a q, copy_all (main_dims B V) (coarse_dims B V) T (FillSameRankFineToCoarseAMR B V l) S a q = fst r a q).
Proof.
  intros b r. pose proof (f2c_recv_inside B V l HB HL) as HI. unfold r. rewrite (f2c_ranges B V l HB HL) in HI |- *.
  destruct (moved A B V (coarse_dims B V) (main_dims B V) (cis_ B) (cie_ B) (cjs_ B) (cje_ B) (cks_ B) (cke_ B) (sh1 B l) (sh2 B l) (sh3 B l) _ _ _ _ _ _ T S buf eq_refl eq_refl eq_refl eq_refl eq_refl eq_refl HI) as (H1 & H2 & H3 & H4 & H5).
  change (snd b = total (PrepareSendFineToCoarseAMR B V)) in H1. split; [split; [rewrite H1; apply f2c_total; assumption|]; split; [exact H2|]; split; [exact H3|]|].
  - apply (written_iff A _ _ (in_cells B V (cis_ B) (cie_ B) (cjs_ B) (cje_ B) (cks_ B) (cke_ B))).
    { pose proof (bn_half B HB) as HH. destruct HB as (HG & _). unfold coarse_cells. apply in_cells_eq; dirs B HG; lia. }
    eapply result_written; [|exact H4]. intros a x y Hx. apply (place B V _ _ _ _ _ _ l c a x y Hx HB HL HP).
  - rewrite (f2c_copies B V l HB HL). apply (result_eq A _ _ T S _ _ _ H5 H4).
Qed.
Lemma coarse_to_fine :
  let b := pack_all (main_dims B V) T (PrepareSendCoarseToFineAMR B V l) buf in let r := unpack_all (coarse_dims B V) (fst b) (ReceiveCoarseToFineAMR B V) S in
  (snd b = bsc2f B V /\ snd r = snd b /\ (forall p, p < 0 \/ snd b <= p -> fst b p = buf p) /\
  written (coarse_dims B V) (main_dims B V) (fun a x => exists y, coarse_cells B V 1 a y /\ same_place B l c a y x) (fun a x y => same_place B l c a y x) T S (fst r)) /\
  (forall a q, copy_all (coarse_dims B V) (main_dims B V) T (FillSameRankCoarseToFineAMR B V l) S a q = fst r a q).
Proof.
  intros b r. pose proof (c2f_recv_inside B V HB) as HI. pose proof (c2f_total B V l HB HV HL) as HT. unfold r, b. rewrite (c2f_ranges B V l HB HL) in HT |- *.
  destruct (moved A B V (main_dims B V) (coarse_dims B V) (cis_ B - 1 + sh1 B l) (cie_ B + 1 + sh1 B l) (cjs_ B - f2 B + sh2 B l) (cje_ B + f2 B + sh2 B l) (cks_ B - f3 B + sh3 B l) (cke_ B + f3 B + sh3 B l) (- sh1 B l) (- sh2 B l) (- sh3 B l)
    (cis_ B - 1) (cie_ B + 1) (cjs_ B - f2 B) (cje_ B + f2 B) (cks_ B - f3 B) (cke_ B + f3 B) T S buf ltac:(lia) ltac:(lia) ltac:(lia) ltac:(lia) ltac:(lia) ltac:(lia) HI) as (H1 & H2 & H3 & H4 & H5).
  split; [split; [rewrite H1; exact HT|]; split; [exact H2|]; split; [exact H3|]|].
  - apply (written_iff A _ _ (in_cells B V (cis_ B - 1 + sh1 B l) (cie_ B + 1 + sh1 B l) (cjs_ B - f2 B + sh2 B l) (cje_ B + f2 B + sh2 B l) (cks_ B - f3 B + sh3 B l) (cke_ B + f3 B + sh3 B l))).
    { intros a x. rewrite (shifted_cells B V _ _ _ _ _ _ l c a x HB HL HP). 
      assert (E : forall y, in_cells B V (cis_ B - 1) (cie_ B + 1) (cjs_ B - f2 B) (cje_ B + f2 B) (cks_ B - f3 B) (cke_ B + f3 B) a y <-> coarse_cells B V 1 a y).
      { intros y. pose proof (bn_half B HB) as HH. destruct HB as (HG & _). unfold coarse_cells. apply in_cells_eq; dirs B HG; lia. }
      split; intros (y & H6 & H7); exists y; (split; [apply E, H6|exact H7]). }
    eapply result_written; [|exact H4]. intros a x y Hx. apply (place' B V _ _ _ _ _ _ l c a x y Hx HB HL HP).
  - rewrite (c2f_copies B V l HB HL). apply (result_eq A _ _ T S _ _ _ H5 H4).
Qed.
End Moves.

(** The coarse buffers of the children together cover the block. *)
Definition half_of (n r : Z) : Z := if Z.leb (n / 2) r then 1 else 0.
Lemma children_cover : forall B V c, refinable B -> loc_of B c -> forall a x, own_cells B V a x -> exists l y, parent_loc l c /\ loc_of B l /\ coarse_cells B V 0 a y /\ same_place B l c a y x.
Proof.
  intros B V c HB (C2 & C3) a x Hx. pose proof (bn_half B HB) as HH. destruct HB as (HG & _).
  assert (HD : forall z b, (z * 2 + b) / 2 = z + b / 2) by (intros; apply Z.div_add_l; lia).
  assert (EX : forall p q r, exists l y1 y2 y3, parent_loc l c /\ loc_of B l /\ 
    (ng B <= r <= ng B + bn1 B -> lx1 l * (bn1 B / 2) + (y1 - ng B) = lx1 c * bn1 B + (r - ng B) /\ ng B <= y1 /\ (y1 < ng B + bn1 B / 2 \/ y1 = ng B + bn1 B / 2 /\ r = ng B + bn1 B)) /\
    (js_ B <= q <= js_ B + bn2 B - 1 + f2 B -> lx2 l * (bn2 B / 2) + (y2 - js_ B) = lx2 c * bn2 B + (q - js_ B) /\ js_ B <= y2 /\ (y2 < js_ B + (bn2 B + 1) / 2 \/ y2 = js_ B + (bn2 B + 1) / 2 /\ q = js_ B + bn2 B)) /\
    (ks_ B <= p <= ks_ B + bn3 B - 1 + f3 B -> lx3 l * (bn3 B / 2) + (y3 - ks_ B) = lx3 c * bn3 B + (p - ks_ B) /\ ks_ B <= y3 /\ (y3 < ks_ B + (bn3 B + 1) / 2 \/ y3 = ks_ B + (bn3 B + 1) / 2 /\ p = ks_ B + bn3 B))).
  { intros p q r. 
    exists (mkLoc (S (level c)) (lx1 c * 2 + half_of (bn1 B) (r - ng B)) (if act (bn2 B) then lx2 c * 2 + half_of (bn2 B) (q - js_ B) else 0) (if act (bn3 B) then lx3 c * 2 + half_of (bn3 B) (p - ks_ B) else 0)),
      (r - half_of (bn1 B) (r - ng B) * (bn1 B / 2)), (if act (bn2 B) then q - half_of (bn2 B) (q - js_ B) * (bn2 B / 2) else q), (if act (bn3 B) then p - half_of (bn3 B) (p - ks_ B) * (bn3 B / 2) else p).
    unfold parent_loc, loc_of. cbn [lx1 lx2 lx3]. unfold half_of. destruct HH as (H1 & H1' & HH2 & HH3).
    dirs B HG; destruct (Z.leb_spec (bn1 B / 2) (r - ng B)), (Z.leb_spec (bn2 B / 2) (q - ng B)), (Z.leb_spec (bn3 B / 2) (p - ng B)); rewrite ?HD; change (1 / 2) with 0; change (0 / 2) with 0; 
      repeat split; intros; try lia; try (rewrite ?C2, ?C3 by lia; cbn; lia); nia. }
  unfold own_cells, coarse_cells, in_cells in *. unfold same_place.
  destruct a; destruct x as [|x1 [|x2 [|x3 [|x4 [|x5 x]]]]]; try contradiction Hx.
  - destruct Hx as (nv & Hn & Hx). destruct (EX x2 x3 x4) as (l & y1 & y2 & y3 & P & L & E1 & E2 & E3). exists l, [x1; y3; y2; y1]. split; [exact P|]. split; [exact L|].
    assert (F : 0 <= f2 B /\ 0 <= f3 B) by (dirs B HG; lia). specialize (E1 ltac:(lia)). specialize (E2 ltac:(lia)). specialize (E3 ltac:(lia)). split; [exists nv; split; [exact Hn|lia]|lia].
  - destruct Hx as (nv & Hn & Hx). destruct (EX x1 x2 x3) as (l & y1 & y2 & y3 & P & L & E1 & E2 & E3). exists l, [y3; y2; y1; x4]. split; [exact P|]. split; [exact L|].
    assert (F : 0 <= f2 B /\ 0 <= f3 B) by (dirs B HG; lia). specialize (E1 ltac:(lia)). specialize (E2 ltac:(lia)). specialize (E3 ltac:(lia)). split; [exists nv; split; [exact Hn|lia]|lia].
  - destruct Hx as (Hn & Hx). destruct (EX x1 x2 x3) as (l & y1 & y2 & y3 & P & L & E1 & E2 & E3). exists l, [y3; y2; y1]. split; [exact P|]. split; [exact L|].
    assert (F : 0 <= f2 B /\ 0 <= f3 B) by (dirs B HG; lia). specialize (E1 ltac:(lia)). specialize (E2 ltac:(lia)). specialize (E3 ltac:(lia)). split; [split; [exact Hn|lia]|lia].
  - destruct Hx as (Hn & Hx). destruct (EX x1 x2 x3) as (l & y1 & y2 & y3 & P & L & E1 & E2 & E3). exists l, [y3; y2; y1]. split; [exact P|]. split; [exact L|].
    assert (F : 0 <= f2 B <= 1 /\ 0 <= f3 B) by (dirs B HG; lia). specialize (E1 ltac:(lia)). specialize (E2 ltac:(lia)). specialize (E3 ltac:(lia)). split; [split; [exact Hn|lia]|lia].
  - destruct Hx as (Hn & Hx). destruct (EX x1 x2 x3) as (l & y1 & y2 & y3 & P & L & E1 & E2 & E3). exists l, [y3; y2; y1]. split; [exact P|]. split; [exact L|].
    assert (F : 0 <= f2 B /\ 0 <= f3 B) by (dirs B HG; lia). specialize (E1 ltac:(lia)). specialize (E2 ltac:(lia)). specialize (E3 ltac:(lia)). split; [split; [exact Hn|lia]|lia].
Qed.
