(** Invariants, dump and reload, command line, histories, conversions. *)
From Coq Require Import Ascii String List Arith ZArith Bool Lia.
From Verif Require Import Par_Model Par_Spec Par_Proofs Par_Proofs2.
Import ListNotations.
Local Open Scope nat_scope.

(** ** Invariants *)
Definition okb (b : block) : Prop := NoDup (map lname (blines b)) /\ Forall (fun l => length (lname l) <= maxn b /\ length (lvalue l) <= maxv b) (blines b).
Definition ok (st : store) : Prop := NoDup (map bname st) /\ Forall okb st.
Lemma ok_iff : forall st, ok st <-> distinct st /\ lengths st.
Proof.
  intros st. unfold ok, distinct, lengths. split.
  - intros (H1 & H2). repeat split; [exact H1|..]; apply Forall_forall; intros b Hb; apply (proj1 (Forall_forall _ _) H2 b Hb).
  - intros ((H1 & H2) & H3). split; [exact H1|]. apply Forall_forall. intros b Hb. split; [apply (proj1 (Forall_forall _ _) H2 b Hb)|apply (proj1 (Forall_forall _ _) H3 b Hb)].
Qed.
Lemma in_find : forall st b x, In x (FindOrAddBlock st b) -> In x st \/ x = mkBl b [] 0 0.
Proof. intros st b x. induction st as [|y st IH]; cbn [FindOrAddBlock]; [intros [<-|[]]; right; reflexivity|]. destruct (teqb (bname y) b); [left; assumption|]. intros [<-|H]; [left; left; reflexivity|]. destruct (IH H) as [H'|H']; [left; right; exact H'|right; exact H']. Qed.
Lemma ok_find : forall st b, ok st -> ok (FindOrAddBlock st b).
Proof.
  intros st b (H1 & H2). split.
  - clear H2. induction st as [|y st IH]; cbn [FindOrAddBlock map]; [repeat constructor; intros []|]. destruct (teqb (bname y) b) eqn:E; [exact H1|]. inversion H1; subst. cbn [map]. constructor; [|apply IH; assumption].
    intros Hi. apply in_map_iff in Hi as (x & Ex & Hx). apply in_find in Hx as [Hx|Hx]; [|subst x; cbn in Ex; subst b; rewrite teqb_refl in E; discriminate E]. apply H2. apply in_map_iff. exists x. split; assumption.
  - apply Forall_forall. intros x Hx. apply in_find in Hx as [Hx| ->]; [apply (proj1 (Forall_forall _ _) H2 x Hx)|split; constructor].
Qed.
Lemma ok_on : forall st b f, (forall x, bname (f x) = bname x) -> (forall x, okb x -> okb (f x)) -> ok st -> ok (on_block st b f).
Proof.
  intros st b f Hn Hf (H1 & H2). split.
  - assert (E : map bname (on_block st b f) = map bname st); [|rewrite E; exact H1]. clear - Hn. induction st as [|y st IH]; [reflexivity|]. cbn [on_block]. destruct (teqb (bname y) b); cbn [map]; [rewrite Hn; reflexivity|rewrite IH; reflexivity].
  - clear H1. induction H2 as [|y st Hy H2 IH]; cbn [on_block]; [constructor|]. destruct (teqb (bname y) b); constructor; auto.
Qed.
Lemma replace_names : forall ls n v c, map lname (replace ls n v c) = match GetPtrToLine ls n with Some _ => map lname ls | None => map lname ls ++ [n] end.
Proof.
  intros ls n v c. induction ls as [|l ls IH]; [reflexivity|]. cbn [replace GetPtrToLine]. destruct (teqb (lname l) n); cbn [map]; [reflexivity|]. rewrite IH. destruct (GetPtrToLine ls n); reflexivity.
Qed.
Lemma ptr_none : forall ls n, GetPtrToLine ls n = None <-> ~ In n (map lname ls).
Proof.
  intros ls n. induction ls as [|l ls IH]; cbn [GetPtrToLine map]; [split; [intros _ []|reflexivity]|]. destruct (teqb (lname l) n) eqn:E.
  - apply teqb_spec in E. split; [discriminate|intros H; exfalso; apply H; left; exact E].
  - rewrite IH. split; [intros H [H'|H']; [rewrite H', teqb_refl in E; discriminate E|contradiction]|intros H H'; apply H; right; exact H'].
Qed.
Lemma in_replace : forall ls n v c l, In l (replace ls n v c) -> In l ls \/ (lname l = n /\ lvalue l = v).
Proof.
  intros ls n v c l. induction ls as [|y ls IH]; cbn [replace]; [intros [<-|[]]; right; split; reflexivity|]. destruct (teqb (lname y) n) eqn:E.
  - intros [<-|H]; [right; split; [apply teqb_spec in E; exact E|reflexivity]|left; right; exact H].
  - intros [<-|H]; [left; left; reflexivity|]. destruct (IH H) as [H'|H']; [left; right; exact H'|right; exact H'].
Qed.
Lemma ok_addto : forall b n v c, okb b -> okb (AddToBlock b n v c).
Proof.
  intros b n v c (H1 & H2). split.
  - rewrite addto_lines, replace_names. destruct (GetPtrToLine (blines b) n) eqn:E; [exact H1|]. apply ptr_none in E.
    clear - E H1. revert E H1. generalize (map lname (blines b)). intros l0. induction l0 as [|x l IH]; intros E H1; cbn [app]; [constructor; [intros []|constructor]|]. inversion H1 as [|? ? Hx1 Hx2]; subst. constructor; [|apply IH; [intros Hi; apply E; right; exact Hi|exact Hx2]]. rewrite in_app_iff. intros [Hi|[Hi|[]]]; [exact (Hx1 Hi)|apply E; left; symmetry; exact Hi].
  - rewrite addto_lines. apply Forall_forall. intros l Hl. apply in_replace in Hl.
    assert (K : (forall m, In m (blines b) -> length (lname m) <= maxn b /\ length (lvalue m) <= maxv b)) by (intros m Hm; apply (proj1 (Forall_forall _ _) H2 m Hm)).
    unfold AddToBlock. destruct (GetPtrToLine (blines b) n) as [l0|] eqn:E.
    + assert (L0 : length n <= maxn b).
      { assert (G : exists m, In m (blines b) /\ lname m = n). { clear - E. induction (blines b) as [|y ls IH]; cbn [GetPtrToLine] in E; [discriminate E|]. destruct (teqb (lname y) n) eqn:F; [apply teqb_spec in F; exists y; split; [left; reflexivity|exact F]|]. destruct (IH E) as (m & Hm & Em). exists m. split; [right; exact Hm|exact Em]. }
        destruct G as (m & Hm & <-). apply (K m Hm). }
      cbn [maxn maxv]. destruct (Nat.ltb_spec (maxv b) (length v)); destruct Hl as [Hl|(-> & ->)]; try (specialize (K l Hl)); lia.
    + destruct (blines b) as [|y ls] eqn:Eb; cbn [maxn maxv].
      * destruct Hl as [[]|(-> & ->)]. lia.
      * destruct (Nat.ltb_spec (maxn b) (length n)), (Nat.ltb_spec (maxv b) (length v)); destruct Hl as [Hl|(-> & ->)]; try (specialize (K l Hl)); lia.
Qed.
Lemma ok_add : forall st b n v c, ok st -> ok (AddParameter st b n v c).
Proof. intros. apply ok_on; [intros x; apply addto_name|intros x Hx; apply ok_addto, Hx|assumption]. Qed.
Lemma ok_items : forall its s, ok (fst s) -> ok (fst (fold_left apply_item its s)).
Proof. intros its. induction its as [|it its IH]; intros s H; [exact H|]. cbn [fold_left]. apply IH. destruct it as [|b|n v c]; cbn [apply_item fst]; [exact H|apply ok_find, H|]. destruct (snd s); [apply ok_add, H|exact H]. Qed.

(** ** Dump and reload *)
Definition block_lines (b : block) : list text := (str "<" ++ bname b ++ str ">") :: map (fun l => pad_to (maxn b) (lname l) ++ str "= " ++ pad_to (maxv b) (lvalue l) ++ lcomment l) (blines b).
Definition block_items (b : block) : list item := Header (bname b) :: map (fun l => Setting (lname l) (lvalue l) (lcomment l)) (blines b).
Definition rule0 : text := str "#------------------------- PAR_DUMP -------------------------".
Lemma dump_unlines : forall st, ParameterDump st = file_text (rule0 :: flat_map block_lines st ++ [rule0]) true [NL].
Proof.
  intros st. unfold ParameterDump, file_text, unlines. cbn [flat_map]. rewrite flat_map_app. cbn [flat_map]. rewrite app_nil_r. change (rule0 ++ [NL]) with rule. rewrite <- !app_assoc. f_equal. f_equal.
  induction st as [|b st IH]; [reflexivity|]. cbn [flat_map]. rewrite flat_map_app, IH. f_equal. unfold dump_block, block_lines. cbn [flat_map]. rewrite <- !app_assoc. do 3 f_equal.
  cbn [app]. f_equal. induction (blines b) as [|l ls IHl]; [reflexivity|]. cbn [flat_map map]. rewrite IHl. f_equal. unfold dump_line. rewrite <- !app_assoc. reflexivity.
Qed.
Lemma no_in : forall cs s c, without cs s -> In c cs -> ~ In c s. Proof. intros cs s c H Hc. apply H, Hc. Qed.
Lemma filter_id : forall (s : text), ~ In TAB s -> filter (isnt TAB) s = s.
Proof. intros s H. induction s as [|x s IH]; [reflexivity|]. cbn [filter]. assert (E : isnt TAB x = true) by (apply isnt_neq; intros ->; apply H; left; reflexivity). rewrite E, IH; [reflexivity|]. intros Hi. apply H. right. exact Hi. Qed.
Lemma block_form : forall b, good_header (bname b) -> Forall (fun l => good_name (lname l) /\ good_value (lvalue l) /\ good_comment (lcomment l)) (blines b) -> Forall2 file_line (block_lines b) (block_items b).
Proof.
  intros b Hb H. constructor.
  - pose proof Hb as (W & _). split.
    + intros Hi. cbn [str list_ascii_of_string app In] in Hi. destruct Hi as [Hi|Hi]; [discriminate Hi|]. apply in_app_iff in Hi as [Hi|[Hi|[]]]; [apply (W NL); [cbn; tauto|exact Hi]|discriminate Hi].
    + rewrite filter_id. * apply (Fheader (bname b) []), Hb. * intros Hi. cbn [str list_ascii_of_string app In] in Hi. destruct Hi as [Hi|Hi]; [discriminate Hi|]. apply in_app_iff in Hi as [Hi|[Hi|[]]]; [apply (W TAB); [cbn; tauto|exact Hi]|discriminate Hi].
  - induction H as [|l ls (Hn & Hv & Hc) H IH]; cbn [map]; constructor; [|exact IH].
    assert (W : forall c, (c = NL \/ c = TAB) -> ~ In c (pad_to (maxn b) (lname l) ++ str "= " ++ pad_to (maxv b) (lvalue l) ++ lcomment l)).
    { intros c Ec Hi. destruct Hn as (Wn & _), Hv as (Wv & _), Hc as (_ & Wc). unfold pad_to in Hi. rewrite !in_app_iff in Hi. destruct Hi as [[Hi|Hi]|[Hi|[[Hi|Hi]|Hi]]].
      - apply (Wn c); [destruct Ec; subst; cbn; tauto|exact Hi].
      - apply repeat_spec in Hi. destruct Ec; subst; discriminate Hi.
      - cbn in Hi. destruct Ec; subst; intuition discriminate.
      - apply (Wv c); [destruct Ec; subst; cbn; tauto|exact Hi].
      - apply repeat_spec in Hi. destruct Ec; subst; discriminate Hi.
      - apply (Wc c); [destruct Ec; subst; cbn; tauto|exact Hi]. }
    split; [apply W; left; reflexivity|]. rewrite filter_id by (apply W; right; reflexivity). unfold pad_to. rewrite <- !app_assoc.
    exact (Fsetting 0 (lname l) _ 1 (lvalue l) _ (lcomment l) Hn Hv Hc).
Qed.
Lemma rule_form : file_line rule0 Skip.
Proof. split; [cbn; intuition discriminate|]. exact (Fcomment 0 (str "------------------------- PAR_DUMP -------------------------")). Qed.
Lemma find_new : forall st b, ~ In b (map bname st) -> FindOrAddBlock st b = st ++ [mkBl b [] 0 0].
Proof. intros st b H. induction st as [|y st IH]; [reflexivity|]. cbn [FindOrAddBlock app]. rewrite teqb_neq by (intros E; apply H; left; exact E). rewrite IH; [reflexivity|]. intros Hi. apply H. right. exact Hi. Qed.
Lemma on_last : forall st x f, ~ In (bname x) (map bname st) -> on_block (st ++ [x]) (bname x) f = st ++ [f x].
Proof. intros st x f H. induction st as [|y st IH]; cbn [app on_block]; [rewrite teqb_refl; reflexivity|]. rewrite teqb_neq by (intros E; apply H; left; exact E). rewrite IH; [reflexivity|]. intros Hi. apply H. right. exact Hi. Qed.
Lemma replace_new : forall ls n v c, ~ In n (map lname ls) -> replace ls n v c = ls ++ [mkL n v c].
Proof. intros ls n v c H. induction ls as [|y ls IH]; [reflexivity|]. cbn [replace app]. rewrite teqb_neq by (intros E; apply H; left; exact E). rewrite IH; [reflexivity|]. intros Hi. apply H. right. exact Hi. Qed.
Definition shown (b : block) := (bname b, map (fun l => (lname l, lvalue l, lcomment l)) (blines b)).
Lemma items_lines : forall ls (st : store) x, ~ In (bname x) (map bname st) -> NoDup (map lname (blines x ++ ls)) ->
  exists y, fold_left apply_item (map (fun l => Setting (lname l) (lvalue l) (lcomment l)) ls) (st ++ [x], Some (bname x)) = (st ++ [y], Some (bname x)) /\ bname y = bname x /\ blines y = blines x ++ ls.
Proof.
  intros ls. induction ls as [|l ls IH]; intros st x Hx ND; cbn [map fold_left].
  - exists x. rewrite app_nil_r. repeat split.
  - cbn [apply_item fst snd]. unfold AddParameter. rewrite on_last by exact Hx. cbv beta. set (x' := AddToBlock x (lname l) (lvalue l) (lcomment l)). assert (E : bname x' = bname x) by apply addto_name. rewrite <- E.
    assert (Nn : ~ In (lname l) (map lname (blines x))).
    { rewrite map_app in ND. cbn [map] in ND. apply NoDup_remove_2 in ND. intros Hi. apply ND. rewrite in_app_iff. left. exact Hi. }
    assert (EL : blines x' = blines x ++ [l]) by (unfold x'; rewrite addto_lines, replace_new by exact Nn; destruct l; reflexivity).
    destruct (IH st x') as (y & Ey & E1 & E2); [rewrite E; exact Hx|rewrite EL, <- app_assoc; exact ND|]. exists y. split; [exact Ey|]. rewrite E2, EL, <- app_assoc. split; [exact E1|reflexivity].
Qed.
Lemma items_blocks : forall (st st0 : store) cur, NoDup (map bname st0 ++ map bname st) -> Forall (fun b => NoDup (map lname (blines b))) st ->
  exists st1 cur', fold_left apply_item (flat_map block_items st) (st0, cur) = (st0 ++ st1, cur') /\ map shown st1 = map shown st.
Proof.
  intros st. induction st as [|b st IH]; intros st0 cur ND HN; cbn [flat_map].
  - exists [], cur. rewrite app_nil_r. split; reflexivity.
  - rewrite fold_left_app. unfold block_items at 2. cbn [fold_left apply_item fst]. inversion HN; subst.
    assert (Nb : ~ In (bname b) (map bname st0)) by (intros Hi; cbn [map] in ND; apply NoDup_remove_2 in ND; apply ND; rewrite in_app_iff; left; exact Hi).
    rewrite find_new by exact Nb. destruct (items_lines (blines b) st0 (mkBl (bname b) [] 0 0) Nb H1) as (y & Ey & E1 & E2). cbn [bname] in Ey. match goal with |- context [fold_left apply_item (map ?f (blines b)) ?s] => replace (fold_left apply_item (map f (blines b)) s) with (st0 ++ [y], Some (bname b)) by (symmetry; exact Ey) end. cbn [bname blines app] in E1, E2.
    destruct (IH (st0 ++ [y]) (Some (bname b))) as (st1 & cur' & E3 & E4); [rewrite map_app; cbn [map]; rewrite E1, <- app_assoc; exact ND|assumption|]. exists (y :: st1), cur'. split; [etransitivity; [exact E3|]; rewrite <- app_assoc; reflexivity|]. cbn [map]. rewrite E4. f_equal. unfold shown. rewrite E1, E2. reflexivity.
Qed.
Lemma dump_form : forall st, writable st -> Forall2 file_line (rule0 :: flat_map block_lines st ++ [rule0]) (Skip :: flat_map block_items st ++ [Skip]) /\ headed (Skip :: flat_map block_items st ++ [Skip]).
Proof.
  intros st (_ & _ & H). split.
  - constructor; [apply rule_form|]. apply Forall2_app; [|constructor; [apply rule_form|constructor]]. induction H as [|b st (Hb & Hl) H IH]; cbn [flat_map]; [constructor|]. apply Forall2_app; [apply block_form; assumption|exact IH].
  - cbn [headed]. destruct st as [|b st]; exact I.
Qed.
Lemma reload : forall st rest, writable st -> exists st', LoadFromStream [] (ParameterDump st ++ rest) = Some st' /\ contents st' = contents st /\ distinct st' /\ lengths st'.
Proof.
  intros st rest H. destruct (dump_form st H) as (F & HH). pose proof H as ((D1 & D2) & _ & _).
  assert (ET : ParameterDump st ++ rest = file_text (rule0 :: flat_map block_lines st ++ [rule0]) true (NL :: rest)) by (rewrite dump_unlines; unfold file_text; rewrite <- !app_assoc; reflexivity).
  rewrite ET, (load_file [] _ _ true (NL :: rest) F HH). eexists. split; [reflexivity|].
  cbn [fold_left]. rewrite fold_left_app. cbn [apply_item]. destruct (items_blocks st [] None D1 D2) as (st1 & cur' & E & Es). match goal with |- context [fold_left apply_item (flat_map block_items st) ?s] => replace (fold_left apply_item (flat_map block_items st) s) with (([] : store) ++ st1, cur') by (symmetry; exact E) end. cbn [fold_left apply_item fst app].
  split; [exact Es|]. apply ok_iff. pose proof (ok_items (flat_map block_items st) ([], None)) as K. cbn [app] in E. match type of K with context [fold_left apply_item (flat_map block_items st) ?s] => replace (fold_left apply_item (flat_map block_items st) s) with (st1, cur') in K by (symmetry; exact E) end. apply K. split; constructor.
Qed.
