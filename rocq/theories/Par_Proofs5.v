(** Conversions; a store that is too long to be read back. *)
From Coq Require Import Ascii String List Arith ZArith Bool Lia.
From Verif Require Import Par_Model Par_Spec Par_Proofs Par_Proofs2 Par_Proofs3 Par_Proofs4.
Import ListNotations.
Local Open Scope Z_scope.

Lemma digit_code : forall d, 0 <= d < 10 -> nat_of_ascii (digit d) = (48 + Z.to_nat d)%nat.
Proof. intros d H. unfold digit. apply nat_ascii_embedding. lia. Qed.
Lemma digit_is : forall d, 0 <= d < 10 -> isdigit (digit d) = true.
Proof. intros d H. unfold isdigit. rewrite digit_code by exact H. destruct (Nat.leb_spec 48 (48 + Z.to_nat d)); [|lia]. destruct (Nat.leb_spec (48 + Z.to_nat d) 57); [reflexivity|lia]. Qed.
Lemma atou_app : forall a b acc, forallb isdigit a = true -> atou acc (a ++ b) = atou (atou acc a) b.
Proof. induction a as [|c a IH]; intros b acc H; [reflexivity|]. cbn [forallb] in H. apply andb_prop in H as (H1 & H2). cbn [app atou]. rewrite H1. apply IH, H2. Qed.
Lemma digits_ok : forall fuel n, 0 <= n < 2 ^ Z.of_nat fuel -> forallb isdigit (digits fuel n) = true /\ (fuel <> O -> digits fuel n <> []) /\ forall acc, atou acc (digits fuel n) = acc * 10 ^ Z.of_nat (length (digits fuel n)) + n.
Proof.
  induction fuel as [|fuel IH]; intros n H.
  - change (2 ^ Z.of_nat 0) with 1 in H. split; [reflexivity|]. split; [congruence|]. intros acc. cbn [digits atou length]. change (10 ^ Z.of_nat 0) with 1. lia.
  - cbn [digits]. destruct (Z.ltb_spec n 10) as [L|L].
    + split; [cbn [forallb]; rewrite digit_is by lia; reflexivity|]. split; [discriminate|]. intros acc. cbn [atou length]. rewrite digit_is by lia. rewrite digit_code by lia. change (10 ^ Z.of_nat 1) with 10. lia.
    + assert (Hq : 0 <= n / 10 < 2 ^ Z.of_nat fuel). { rewrite Nat2Z.inj_succ, Z.pow_succ_r in H by lia. split; [apply Z.div_pos; lia|]. apply Z.div_lt_upper_bound; lia. }
      destruct (IH _ Hq) as (A & _ & B). assert (Hm : 0 <= n mod 10 < 10) by (apply Z.mod_pos_bound; lia). split; [rewrite forallb_app, A; cbn [forallb]; rewrite digit_is by exact Hm; reflexivity|]. split; [destruct (digits fuel (n / 10)); discriminate|].
      intros acc. rewrite atou_app by exact A. rewrite B. cbn [atou]. rewrite digit_is by exact Hm. rewrite digit_code by exact Hm. rewrite app_length. cbn [length]. rewrite Nat2Z.inj_add, Z.pow_add_r by lia. change (10 ^ Z.of_nat 1) with 10. pose proof (Z.div_mod n 10 ltac:(lia)). set (p := 10 ^ Z.of_nat (length (digits fuel (n / 10)))). nia.
Qed.
Lemma digits_log : forall n, 0 <= n -> 0 <= n < 2 ^ Z.of_nat (S (Z.to_nat (Z.log2 n))).
Proof. intros n H. split; [exact H|]. rewrite Nat2Z.inj_succ, Z2Nat.id by apply Z.log2_nonneg. destruct (Z.eq_dec n 0) as [->|N]; [reflexivity|]. apply Z.log2_spec. lia. Qed.
Lemma digit_head : forall c s, isdigit c = true -> atoi (c :: s) = atou 0 (c :: s).
Proof.
  intros c s H. unfold isdigit in H. apply andb_prop in H as (A & B). apply Nat.leb_le in A, B. unfold atoi. cbn [skipspace]. assert (E : isspace c = false). { unfold isspace. destruct (Nat.eqb_spec (nat_of_ascii c) 32); [lia|]. destruct (Nat.leb_spec (nat_of_ascii c) 13); [lia|]. rewrite andb_false_r. reflexivity. }
  rewrite E. destruct (Ascii.eqb_spec c "-") as [->|_]; [cbv in A; exfalso; repeat (apply le_S_n in A); inversion A|]. destruct (Ascii.eqb_spec c "+") as [->|_]; [cbv in A; exfalso; repeat (apply le_S_n in A); inversion A|]. reflexivity.
Qed.
Lemma atoi_print : forall z, atoi (print_int z) = z.
Proof.
  intros z. unfold print_int. destruct (Z.ltb_spec z 0) as [L|L].
  - destruct (digits_ok _ (- z) (digits_log (- z) ltac:(lia))) as (_ & _ & B). change (atoi ("-"%char :: digits (S (Z.to_nat (Z.log2 (- z)))) (- z))) with (- atou 0 (digits (S (Z.to_nat (Z.log2 (- z)))) (- z))). rewrite B. lia.
  - destruct (digits_ok _ z (digits_log z L)) as (A & N & B). destruct (digits (S (Z.to_nat (Z.log2 z))) z) as [|c s] eqn:E; [exfalso; apply N; [discriminate|reflexivity]|]. cbn [forallb] in A. apply andb_prop in A as (A & _). rewrite digit_head by exact A. rewrite B. lia.
Qed.
Lemma atob_print : forall b, atob (print_bool b) = b. Proof. intros []; reflexivity. Qed.

Definition long_store : store := SetString [] (str "a") (str "x") (repeat "x"%char (12 * kBufSize)).
Lemma long_is : long_store = [mkBl (str "a") [mkL (str "x") (repeat "x"%char (12 * kBufSize)) (str "# Updated during run time")] 1 (12 * kBufSize)].
Proof. unfold long_store, SetString, AddParameter. cbn [FindOrAddBlock on_block bname]. rewrite teqb_refl. unfold AddToBlock. cbn [blines GetPtrToLine bname]. rewrite repeat_length. reflexivity. Qed.
Lemma without_repeat : forall cs c n, ~ In c cs -> without cs (repeat c n).
Proof. intros cs c n H d Hd Hi. apply repeat_spec in Hi as ->. contradiction. Qed.
Lemma rev_repeat : forall (A : Type) (x : A) n, rev (repeat x n) = repeat x n.
Proof. intros A x n. induction n as [|n IH]; [reflexivity|]. cbn [repeat rev]. rewrite IH. symmetry. apply repeat_cons. Qed.
Lemma long_writable : writable long_store /\ no_angle long_store.
Proof.
  rewrite long_is. generalize (12 * kBufSize)%nat. intros m.
  assert (WV : without ["#"; NL; TAB]%char (repeat "x"%char m)) by (apply without_repeat; cbn; intuition discriminate).
  assert (TV : trimmed (repeat "x"%char m)) by (unfold trimmed; rewrite rev_repeat; destruct m; cbn; split; discriminate).
  split; [|constructor; [|constructor]; split; [cbn; intuition discriminate|constructor; [|constructor]; cbn [lname lvalue lcomment]; split; [cbn; intuition discriminate|split; [intros Hi; apply repeat_spec in Hi; discriminate Hi|cbn; intuition discriminate]]]].
  split; [split; cbn [map bname blines lname]; [repeat constructor; cbn; tauto|constructor; [|constructor]; cbn [blines map lname]; repeat constructor; cbn; tauto]|].
  split; [constructor; [|constructor]; cbn [blines maxn maxv]; constructor; [|constructor]; cbn [lname lvalue]; rewrite repeat_length; cbn; lia|].
  constructor; [|constructor]; cbn [bname blines]. split; [split; [intros c Hc Hi; cbn in Hc, Hi; intuition (subst; discriminate)|discriminate]|].
  constructor; [|constructor]; cbn [lname lvalue lcomment]. split; [split; [intros c Hc Hi; cbn in Hc, Hi; intuition (subst; discriminate)|split; [split; discriminate|discriminate]]|].
  split; [split; [exact WV|exact TV]|]. split; [right; reflexivity|]. intros c Hc Hi. cbn in Hc, Hi. intuition (subst; discriminate).
Qed.
Lemma long_length : (11 * kBufSize + 1 < length (ParameterDump long_store))%nat.
Proof. rewrite long_is. unfold ParameterDump. rewrite !app_length. cbn [flat_map]. unfold dump_block, dump_line, pad_to. cbn [bname blines flat_map lname lvalue lcomment maxn maxv]. rewrite !app_length, !repeat_length. change (length (str "<par_end>")) with 9%nat. generalize kBufSize (length rule). intros k r. cbn [length]. lia. Qed.

(** ** Histories of writable assignments *)
Definition goodl (l : line) : Prop := good_name (lname l) /\ good_value (lvalue l) /\ good_comment (lcomment l).
Definition goodst (st : store) : Prop := Forall (fun b => good_header (bname b) /\ Forall goodl (blines b)) st.
Lemma good_find : forall st b, goodst st -> good_header b -> goodst (FindOrAddBlock st b).
Proof. intros st b H Hb. induction H as [|x st Hx H IH]; cbn [FindOrAddBlock]; [repeat constructor; apply Hb|]. destruct (teqb (bname x) b); constructor; auto. Qed.
Lemma good_on : forall f st b, goodst st -> (forall x, good_header (bname x) /\ Forall goodl (blines x) -> good_header (bname (f x)) /\ Forall goodl (blines (f x))) -> goodst (on_block st b f).
Proof. intros f st b H Hf. induction H as [|x st Hx H IH]; cbn [on_block]; [constructor|]. destruct (teqb (bname x) b); constructor; auto. Qed.
Lemma good_replace : forall ls n v c, Forall goodl ls -> goodl (mkL n v c) -> Forall goodl (replace ls n v c).
Proof. intros ls n v c H Hl. induction H as [|l ls H0 H IH]; cbn [replace]; [constructor; [exact Hl|constructor]|]. destruct (teqb (lname l) n) eqn:E; [|constructor; assumption]. apply teqb_spec in E. rewrite E. constructor; assumption. Qed.
Lemma good_add : forall st b n v c, goodst st -> goodl (mkL n v c) -> goodst (AddParameter st b n v c).
Proof.
  intros st b n v c H Hl. apply good_on; [exact H|]. intros x (Hx & Hls). pose proof (good_replace _ n v c Hls Hl) as R. unfold AddToBlock. destruct (GetPtrToLine (blines x) n); [split; [exact Hx|exact R]|]. destruct (blines x); split; try exact Hx; [constructor; [exact Hl|constructor]|exact R].
Qed.
Lemma good_items : forall ls its, Forall2 file_line ls its -> forall s, goodst (fst s) -> goodst (fst (fold_left apply_item its s)).
Proof.
  intros ls its H. induction H as [|l it ls its (_ & HF) H IH]; intros (st & cur) G; [exact G|]. cbn [fold_left]. apply IH. inversion HF; subst; cbn [apply_item fst snd] in *; try exact G.
  - apply good_find; assumption.
  - destruct cur; [|exact G]. apply good_add; [exact G|]. repeat split; try apply H1; try apply H2; try apply H3; assumption.
Qed.
Lemma good_updated : good_comment (str "# Updated during run time") /\ good_comment (str "# Default value added at run time").
Proof. split; (split; [right; reflexivity|intros c Hc Hi; cbn in Hc, Hi; intuition (subst; discriminate)]). Qed.
Lemma good_modify : forall a st st', (forall b n v, is_assignment a b n v -> good_value v) -> ~ odd_arg a -> goodst st -> modify1 st a = Some st' -> goodst st'.
Proof.
  intros a st st' HV HO HS E. destruct (arg_cases a) as [O|[(b & n & v & A)|O]]; [contradiction| |rewrite modify_other in E by exact O; injection E as <-; exact HS].
  destruct (modify_parse a b n v A) as (E1 & E2 & E3 & E4 & E5). unfold modify1 in E. rewrite E1, E2, E3, E4, E5 in E. destruct (GetPtrToBlock st b); [|discriminate E]. destruct (GetPtrToLine _ n); [|discriminate E]. injection E as <-. apply good_on; [exact HS|]. intros x (Hx & Hls). split; [exact Hx|]. cbn [blines].
  specialize (HV _ _ _ A). clear - HV Hls. induction Hls as [|l ls H0 H IH]; cbn [assign_value]; [constructor|]. destruct (teqb (lname l) n); constructor; try assumption. destruct H0 as (P1 & P2 & P3). repeat split; try apply P1; try apply HV; try apply P3.
Qed.
Lemma good_op : forall o st st', op_ok o -> op_good o -> goodst st -> do_op st o = Some st' -> goodst st'.
Proof.
  intros [ls its e rest|b n v|b n d|args] st st' HO HG HS E; cbn [do_op op_ok op_good] in *.
  - destruct HO as (HF & HH). rewrite (load_file st ls its e rest HF HH) in E. injection E as <-. exact (good_items ls its HF (st, None) HS).
  - injection E as <-. destruct HG as (G1 & G2 & G3). apply good_add; [apply good_find; assumption|]. repeat split; try apply G2; try apply G3; apply good_updated.
  - injection E as <-. destruct HG as (G1 & G2 & G3). unfold GetOrAddString. destruct (DoesParameterExist st b n); [exact HS|]. cbn [fst]. apply good_add; [apply good_find; assumption|]. repeat split; try apply G2; try apply G3; apply good_updated.
  - revert st HS E. induction args as [|a args IH]; intros st HS E; cbn [ModifyFromCmdline] in E; [injection E as <-; exact HS|]. destruct (modify1 st a) as [s1|] eqn:E1; [|discriminate E]. inversion HO; subst. inversion HG; subst. apply (IH ltac:(assumption) ltac:(assumption) s1); [|exact E]. eapply good_modify; eassumption.
Qed.
Lemma run_writable : forall os st, Forall op_ok os -> Forall op_good os -> run [] os = Some st -> writable st.
Proof.
  intros os st HO HG E. destruct (history os [] st HO E) as (_ & K). destruct (proj1 (ok_iff st) (K ltac:(split; constructor))) as (D & L). split; [exact D|]. split; [exact L|]. clear D L K.
  assert (G : forall os s, Forall op_ok os -> Forall op_good os -> goodst s -> run s os = Some st -> goodst st).
  { clear. induction os as [|o os IH]; intros s HO HG HS E; cbn [run] in E; [injection E as <-; exact HS|]. destruct (do_op s o) as [s1|] eqn:E1; [|discriminate E]. inversion HO; subst. inversion HG; subst. apply (IH s1); try assumption. eapply good_op; eassumption. }
  apply (G os [] HO HG); [constructor|exact E].
Qed.
