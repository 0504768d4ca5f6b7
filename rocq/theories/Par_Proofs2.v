(** Loading, looking up, dumping. *)
From Coq Require Import Ascii String List Arith ZArith Bool Lia.
From Verif Require Import Par_Model Par_Spec Par_Proofs.
Import ListNotations.
Local Open Scope nat_scope.

Lemma getlines_line : forall l s, ~ In NL l -> getlines (l ++ NL :: s) = l :: getlines s.
Proof.
  intros l s H. induction l as [|x l IH]; cbn [app getlines]; [reflexivity|]. rewrite IH by (intros Hi; apply H; right; exact Hi). assert (E : Ascii.eqb x NL = false) by (apply Ascii.eqb_neq; intros ->; apply H; left; reflexivity). rewrite E. reflexivity.
Qed.
Lemma getlines_unlines : forall ls s, Forall (fun l => ~ In NL l) ls -> getlines (unlines ls ++ s) = ls ++ getlines s.
Proof. intros ls s H. induction H as [|l ls Hl H IH]; [reflexivity|]. cbn [unlines flat_map app]. fold (unlines ls). rewrite <- !app_assoc. cbn [app]. rewrite getlines_line by exact Hl. rewrite IH. reflexivity. Qed.

Definition apply_item (s : store * option text) (it : item) : store * option text :=
  match it with
  | Skip => s
  | Header b => (FindOrAddBlock (fst s) b, Some b)
  | Setting n v c => (match snd s with Some b => AddParameter (fst s) b n v c | None => fst s end, snd s)
  end.
Lemma head_line : forall i x r, x <> SP -> find (isnt " ") (blanks i ++ x :: r) = Some i.
Proof. intros i x r H. replace (Some i) with (Some (length (blanks i))) by (unfold blanks; rewrite repeat_length; reflexivity). apply find_at; [intros y Hy; apply isnt_eq; apply in_blanks in Hy; exact Hy|]. apply isnt_neq. exact H. Qed.
Lemma skip_blanks : forall i r, skipn i (blanks i ++ r) = r.
Proof. intros i r. replace i with (length (blanks i)) at 1 by (unfold blanks; apply repeat_length). apply skipn_exact. Qed.
Lemma load_setting : forall st b ls i n j k v m c l, l = blanks i ++ n ++ blanks j ++ "="%char :: blanks k ++ v ++ blanks m ++ c -> good_name n -> good_value v -> good_comment c ->
  exists first, find (isnt " ") l = Some first /\ starts (str "#") (skipn first l) = false /\ starts (str "<par_end>") (skipn first l) = false /\ starts (str "<") (skipn first l) = false /\
    (let '(n', v', c') := ParseLine l in LoadLines (AddParameter st b n' v' c') (Some b) ls) = LoadLines (AddParameter st b n v c) (Some b) ls.
Proof.
  intros st b ls i n j k v m c l El Hn Hv Hc. pose proof (parse_setting i n j k v m c Hn Hv Hc) as P. rewrite <- El in P. rewrite P.
  assert (HX : exists p x r, l = blanks p ++ x :: r /\ x <> SP /\ x <> "#"%char /\ x <> "<"%char).
  { destruct Hn as (Hn & Tn & Ln). destruct n as [|x n].
    - exists (i + j), "="%char, (blanks k ++ v ++ blanks m ++ c). rewrite El. cbn [app]. split; [|repeat split; discriminate]. rewrite app_assoc. f_equal. unfold blanks. symmetry. apply repeat_app.
    - exists i, x, (n ++ blanks j ++ "="%char :: blanks k ++ v ++ blanks m ++ c). rewrite El. cbn [app]. split; [reflexivity|]. destruct Tn as (Tn & _). cbn [hd_error] in *. split; [congruence|]. split; [intros ->; apply (Hn "#"%char); cbn; tauto|congruence]. }
  destruct HX as (p & x & r & E & X1 & X2 & X3). exists p. rewrite E. split; [apply head_line, X1|]. rewrite skip_blanks. split; [apply starts1_not; cbn; congruence|]. split; [|split; [apply starts1_not; cbn; congruence|reflexivity]].
  destruct (starts (str "<par_end>") (x :: r)) eqn:S; [|reflexivity]. apply starts_spec in S as (q & S). cbn in S. injection S as -> _. congruence.
Qed.
Lemma load_items : forall ls its st cur more, Forall2 file_line ls its -> (cur = None -> headed its) ->
  LoadLines st cur (ls ++ more) = LoadLines (fst (fold_left apply_item its (st, cur))) (snd (fold_left apply_item its (st, cur))) more.
Proof.
  intros ls its st cur more H. revert st cur. induction H as [|l it ls its (_ & HF) H IH]; intros st cur HH; [reflexivity|]. cbn [app LoadLines fold_left].
  set (l' := filter (isnt TAB) l) in *. remember l' as l0 eqn:El. destruct HF as [i|i s|b s Hb|i n j k v m c Hn Hv Hc].
  - rewrite find_none by (intros x Hx; apply isnt_eq; apply in_blanks in Hx; exact Hx). cbn [apply_item]. apply IH. exact HH.
  - rewrite head_line by discriminate. rewrite skip_blanks. change (starts (str "#") ("#"%char :: s)) with (starts ["#"%char] ("#"%char :: s)). rewrite (proj2 (starts1 _ _)) by reflexivity. cbn [apply_item]. apply IH. exact HH.
  - change ("<"%char :: b ++ ">"%char :: s) with (blanks 0 ++ "<"%char :: b ++ ">"%char :: s). rewrite head_line by discriminate. cbn [blanks repeat app skipn].
    change (starts (str "#") ("<"%char :: b ++ ">"%char :: s)) with (starts ["#"%char] ("<"%char :: b ++ ">"%char :: s)). rewrite starts1_not by discriminate.
    destruct Hb as (Hb & Hp). assert (S1 : starts (str "<par_end>") ("<"%char :: b ++ ">"%char :: s) = false).
    { destruct (starts _ _) eqn:S; [|reflexivity]. exfalso. apply starts_spec in S as (q & S). cbn [str list_ascii_of_string app] in S. injection S as S. apply Hp. clear - S Hb.
      assert (HB : find (is ">") (b ++ ">"%char :: s) = Some (length b)) by (apply find_at; [intros y Hy; apply is_neq; intros ->; apply (Hb ">"%char); [cbn; tauto|exact Hy]|apply is_eq; reflexivity]). rewrite S in HB. cbn in HB. injection HB as HB.
      pose proof (f_equal (firstn (length b)) S) as F. rewrite firstn_exact, <- HB in F. exact F. }
    rewrite S1. change (starts (str "<") ("<"%char :: b ++ ">"%char :: s)) with (starts ["<"%char] ("<"%char :: b ++ ">"%char :: s)). rewrite (proj2 (starts1 _ _)) by reflexivity.
    rewrite find_at; [|intros y Hy; apply is_neq; intros ->; apply (Hb ">"%char); [cbn; tauto|exact Hy]|apply is_eq; reflexivity]. cbn [substr skipn]. replace (1 + length b - 1) with (length b) by lia. rewrite firstn_exact. cbn [apply_item fst]. apply IH. discriminate.
  - destruct cur as [b|]; [|contradiction (HH eq_refl)].
    destruct (load_setting st b (ls ++ more) i n j k v m c _ eq_refl Hn Hv Hc) as (first & -> & -> & -> & -> & ->). cbn [apply_item fst snd]. apply IH. discriminate.
Qed.
Lemma load_file : forall st ls its e rest, Forall2 file_line ls its -> headed its -> LoadFromStream st (file_text ls e rest) = Some (fst (fold_left apply_item its (st, None))).
Proof.
  intros st ls its e rest H HH. unfold LoadFromStream, file_text. rewrite getlines_unlines.
  - rewrite (load_items ls its st None _ H (fun _ => HH)). destruct e; [|reflexivity].
    assert (G : exists t r, getlines (str "<par_end>" ++ rest) = (str "<par_end>" ++ t) :: r).
    { assert (G : forall a s, ~ In NL a -> exists t r, getlines (a ++ s) = (a ++ t) :: r).
      { intros a s Ha. induction a as [|x a IH]; cbn [app].
        - destruct s as [|y s]; [exists [], []; reflexivity|]. cbn [getlines]. destruct (Ascii.eqb y NL); [exists [], (getlines s); reflexivity|]. destruct (getlines s) as [|l r]; [exists [y], []; reflexivity|exists (y :: l), r; reflexivity].
        - cbn [getlines]. assert (E : Ascii.eqb x NL = false) by (apply Ascii.eqb_neq; intros ->; apply Ha; left; reflexivity). rewrite E. destruct IH as (t & r & ->); [intros Hi; apply Ha; right; exact Hi|]. exists t, r. reflexivity. }
      apply G. cbn. intuition discriminate. }
    destruct G as (t & r & ->). cbn [LoadLines]. rewrite filter_app. change (filter (isnt TAB) (str "<par_end>")) with (str "<par_end>"). set (t' := filter _ t).
    change (str "<par_end>" ++ t') with (blanks 0 ++ "<"%char :: str "par_end>" ++ t') at 1. rewrite head_line by discriminate. cbn [skipn].
    change (starts (str "#") (str "<par_end>" ++ t')) with (starts ["#"%char] (str "<par_end>" ++ t')). rewrite starts1_not by discriminate. rewrite starts_app. reflexivity.
  - clear - H. induction H as [|l it ls its (Hl & _) H IH]; constructor; assumption.
Qed.

(** ** Lookup *)
Definition has (st : store) (b : text) : bool := existsb (fun x => teqb (bname x) b) st.
Lemma get_find : forall st b b' n', GetString (FindOrAddBlock st b) b' n' = GetString st b' n'.
Proof.
  intros st b b' n'. unfold GetString. induction st as [|x st IH]; cbn [FindOrAddBlock GetPtrToBlock].
  - destruct (teqb (bname (mkBl b [] 0 0)) b'); reflexivity.
  - destruct (teqb (bname x) b); [reflexivity|]. cbn [GetPtrToBlock]. destruct (teqb (bname x) b'); [reflexivity|exact IH].
Qed.
Lemma has_find : forall st b b', has (FindOrAddBlock st b) b' = has st b' || teqb b b'.
Proof.
  intros st b b'. induction st as [|x st IH]; cbn [FindOrAddBlock has existsb]; [cbn [bname]; apply orb_comm || (destruct (teqb b b'); reflexivity)|]. destruct (teqb (bname x) b) eqn:E.
  - apply teqb_spec in E as <-. cbn [existsb]. fold (has st b'). destruct (teqb (bname x) b'); [reflexivity|rewrite !orb_false_r; reflexivity].
  - cbn [existsb]. fold (has st b'). fold (has (FindOrAddBlock st b) b'). rewrite IH. apply orb_assoc.
Qed.
Lemma has_get : forall st b n v, GetString st b n = Some v -> has st b = true.
Proof. intros st b n v. unfold GetString. induction st as [|x st IH]; cbn [GetPtrToBlock has existsb]; [discriminate|]. destruct (teqb (bname x) b); [reflexivity|exact IH]. Qed.
Lemma line_replace : forall ls n v c n', GetPtrToLine (replace ls n v c) n' = if teqb n n' then Some (mkL n v c) else GetPtrToLine ls n'.
Proof.
  intros ls n v c n'. induction ls as [|l ls IH]; cbn [replace GetPtrToLine]; [cbn [lname]; reflexivity|]. destruct (teqb (lname l) n) eqn:E.
  - apply teqb_spec in E. cbn [GetPtrToLine lname]. rewrite E. destruct (teqb n n'); reflexivity.
  - cbn [GetPtrToLine]. rewrite IH. destruct (teqb (lname l) n') eqn:E'; [|reflexivity]. apply teqb_spec in E'. subst n'. rewrite (teqb_sym n), E. reflexivity.
Qed.
Lemma addto_lines : forall b n v c, blines (AddToBlock b n v c) = replace (blines b) n v c.
Proof. intros b n v c. unfold AddToBlock. destruct (GetPtrToLine (blines b) n); [reflexivity|]. destruct (blines b) eqn:E; [reflexivity|cbn [blines]; reflexivity]. Qed.
Lemma addto_name : forall b n v c, bname (AddToBlock b n v c) = bname b.
Proof. intros b n v c. unfold AddToBlock. destruct (GetPtrToLine (blines b) n); [reflexivity|]. destruct (blines b); reflexivity. Qed.
Lemma on_block_get : forall st b f b', (forall x, bname (f x) = bname x) -> GetPtrToBlock (on_block st b f) b' = if teqb b b' then option_map f (GetPtrToBlock st b) else GetPtrToBlock st b'.
Proof.
  intros st b f b' Hf. induction st as [|x st IH]; cbn [on_block GetPtrToBlock]; [destruct (teqb b b'); reflexivity|]. destruct (teqb (bname x) b) eqn:E.
  - apply teqb_spec in E as <-. cbn [GetPtrToBlock]. rewrite Hf. destruct (teqb (bname x) b'); reflexivity.
  - cbn [GetPtrToBlock]. rewrite IH. destruct (teqb (bname x) b') eqn:E'; [|reflexivity]. apply teqb_spec in E'. subst b'. rewrite (teqb_sym b), E. reflexivity.
Qed.
Lemma has_ptr : forall st b, has st b = true <-> GetPtrToBlock st b <> None.
Proof. intros st b. induction st as [|x st IH]; cbn [has existsb GetPtrToBlock]; [split; [discriminate|congruence]|]. destruct (teqb (bname x) b); [split; [discriminate|reflexivity]|exact IH]. Qed.
Lemma get_add : forall st b n v c b' n', has st b = true -> GetString (AddParameter st b n v c) b' n' = updated (GetString st) b n v b' n'.
Proof.
  intros st b n v c b' n' H. apply has_ptr in H. unfold GetString, AddParameter, updated. rewrite on_block_get by (intros x; apply addto_name). rewrite (teqb_sym b'), (teqb_sym n'). destruct (teqb b b') eqn:E; [|reflexivity].
  apply teqb_spec in E as <-. cbn [andb]. destruct (GetPtrToBlock st b) as [x|]; [|congruence]. cbn [option_map]. rewrite addto_lines, line_replace. destruct (teqb n n'); reflexivity.
Qed.
Lemma has_on : forall st b f b', (forall x, bname (f x) = bname x) -> has (on_block st b f) b' = has st b'.
Proof. intros st b f b' Hf. induction st as [|x st IH]; [reflexivity|]. cbn [on_block]. destruct (teqb (bname x) b); cbn [has existsb]; [rewrite Hf; reflexivity|]. fold (has (on_block st b f) b') (has st b'). rewrite IH. reflexivity. Qed.
Lemma has_add : forall st b n v c b', has (AddParameter st b n v c) b' = has st b'.
Proof. intros. apply has_on. intros x. apply addto_name. Qed.
Lemma items_view : forall its st cur, (forall b, cur = Some b -> has st b = true) -> forall b n,
  GetString (fst (fold_left apply_item its (st, cur))) b n = match says cur its b n with Some v => Some v | None => GetString st b n end.
Proof.
  intros its. induction its as [|it its IH]; intros st cur HC b n; [reflexivity|]. cbn [fold_left]. destruct it as [|b'|n' v c]; cbn [apply_item fst snd says].
  - apply IH, HC.
  - rewrite IH; [rewrite get_find; reflexivity|]. intros b0 E. injection E as <-. rewrite has_find, teqb_refl. apply orb_true_r.
  - rewrite IH; [|intros b0 E; subst cur; rewrite has_add; apply HC; reflexivity]. destruct (says cur its b n); [reflexivity|]. destruct cur as [b'|]; [|reflexivity]. rewrite get_add by (apply HC; reflexivity). unfold updated. rewrite (teqb_sym b), (teqb_sym n). destruct (teqb b' b && teqb n' n); reflexivity.
Qed.
