(** Command line, histories, headers of restart files, conversions. *)
From Coq Require Import Ascii String List Arith ZArith Bool Lia.
From Verif Require Import Par_Model Par_Spec Par_Proofs Par_Proofs2 Par_Proofs3.
Import ListNotations.
Local Open Scope nat_scope.

(** ** Command line *)
Lemma assign_line : forall ls n v n', GetPtrToLine (assign_value ls n v) n' = match GetPtrToLine ls n' with Some l => Some (if teqb n n' then mkL (lname l) v (lcomment l) else l) | None => None end.
Proof.
  intros ls n v n'. induction ls as [|l ls IH]; [reflexivity|]. cbn [assign_value GetPtrToLine]. destruct (teqb (lname l) n) eqn:E.
  - apply teqb_spec in E as <-. cbn [GetPtrToLine lname]. destruct (teqb (lname l) n') eqn:E'; [reflexivity|]. destruct (GetPtrToLine ls n'); reflexivity.
  - cbn [GetPtrToLine]. destruct (teqb (lname l) n') eqn:E'; [|exact IH]. apply teqb_spec in E' as <-. rewrite teqb_sym, E. reflexivity.
Qed.
Lemma assign_names : forall ls n v, map lname (assign_value ls n v) = map lname ls.
Proof. intros ls n v. induction ls as [|l ls IH]; [reflexivity|]. cbn [assign_value]. destruct (teqb (lname l) n); cbn [map lname]; [reflexivity|]. rewrite IH. reflexivity. Qed.
Lemma in_assign : forall ls n v l, In l (assign_value ls n v) -> In l ls \/ (exists m, In m ls /\ lname l = lname m /\ lvalue l = v).
Proof.
  intros ls n v l. induction ls as [|y ls IH]; [intros []|]. cbn [assign_value]. destruct (teqb (lname y) n).
  - intros [<-|H]; [right; exists y; split; [left; reflexivity|split; reflexivity]|left; right; exact H].
  - intros [<-|H]; [left; left; reflexivity|]. destruct (IH H) as [H'|(m & Hm & E)]; [left; right; exact H'|right; exists m; split; [right; exact Hm|exact E]].
Qed.
Lemma modify_parse : forall a b n v, is_assignment a b n v -> find (is "/") a = Some (length b) /\ find (is "=") a = Some (length b + S (length n)) /\
  firstn (length b) a = b /\ substr a (S (length b)) (minus (length b + S (length n)) (S (length b))) = n /\ skipn (S (length b + S (length n))) a = v.
Proof.
  intros a b n v (-> & Hb & Hn).
  assert (E1 : b ++ "/"%char :: n ++ "="%char :: v = (b ++ "/"%char :: n) ++ "="%char :: v) by (rewrite <- app_assoc; reflexivity).
  split; [apply find_at; [intros y Hy; apply is_neq; intros ->; apply (Hb "/"%char); [cbn; tauto|exact Hy]|apply is_eq; reflexivity]|].
  split.
  { rewrite E1. rewrite find_at; [rewrite app_length; reflexivity| |apply is_eq; reflexivity]. intros y Hy. apply is_neq. intros ->. apply in_app_iff in Hy as [Hy|[Hy|Hy]]; [apply (Hb "="%char); [cbn; tauto|exact Hy]|discriminate Hy|apply (Hn "="%char); [cbn; tauto|exact Hy]]. }
  split; [apply firstn_exact|]. split.
  - unfold minus. rewrite (proj2 (Nat.leb_le _ _)) by lia. replace (length b + S (length n) - S (length b)) with (length n) by lia. unfold substr.
    replace (b ++ "/"%char :: n ++ "="%char :: v) with ((b ++ ["/"%char]) ++ n ++ "="%char :: v) by (rewrite <- app_assoc; reflexivity). replace (S (length b)) with (length (b ++ ["/"%char])) by (rewrite app_length; cbn; lia). rewrite skipn_exact. apply firstn_exact.
  - rewrite E1. replace ((b ++ "/"%char :: n) ++ "="%char :: v) with (((b ++ "/"%char :: n) ++ ["="%char]) ++ v) by (rewrite <- !app_assoc; reflexivity). replace (S (length b + S (length n))) with (length ((b ++ "/"%char :: n) ++ ["="%char])) by (rewrite !app_length; cbn; lia). apply skipn_exact.
Qed.
Lemma arg_cases : forall a, odd_arg a \/ (exists b n v, is_assignment a b n v) \/ (~ In "/"%char a \/ ~ In "="%char a).
Proof.
  intros a. destruct (find (is "/") a) as [s|] eqn:E1; [|right; right; left; intros H; apply (find_none_inv _ _ E1) in H; apply is_neq in H; congruence].
  destruct (find (is "=") a) as [e|] eqn:E2; [|right; right; right; intros H; apply (find_none_inv _ _ E2) in H; apply is_neq in H; congruence].
  apply find_some in E1 as (A & x & R & -> & _ & Hx & HA). apply is_eq in Hx as ->. destruct (find (is "=") A) as [k|] eqn:E3.
  - left. apply find_some in E3 as (b & y & c & -> & _ & Hy & Hb). apply is_eq in Hy as ->. exists b, c, R. rewrite <- app_assoc. split; [reflexivity|]. split.
    + intros ch [<-|[<-|[]]] Hi; [specialize (HA "/"%char ltac:(rewrite in_app_iff; left; exact Hi)); discriminate HA|specialize (Hb _ Hi); discriminate Hb].
    + intros ch [<-|[]] Hi. specialize (HA "/"%char ltac:(rewrite in_app_iff; right; right; exact Hi)). discriminate HA.
  - right. left. pose proof (find_none_inv _ _ E3) as NA. rewrite find_skip in E2 by exact NA. cbn [find] in E2. change (is "=" "/") with false in E2. cbv iota in E2. destruct (find (is "=") R) as [k|] eqn:E4; [|discriminate E2].
    apply find_some in E4 as (n & y & v & -> & _ & Hy & Hn). apply is_eq in Hy as ->. exists A, n, v. split; [reflexivity|]. split.
    + intros ch [<-|[<-|[]]] Hi; [specialize (HA _ Hi); discriminate HA|specialize (NA _ Hi); discriminate NA].
    + intros ch [<-|[]] Hi. specialize (Hn _ Hi). discriminate Hn.
Qed.
Lemma modify_other : forall st a, ~ In "/"%char a \/ ~ In "="%char a -> modify1 st a = Some st.
Proof.
  intros st a H. unfold modify1. destruct H as [H|H].
  - rewrite find_none; [reflexivity|]. intros x Hx. apply is_neq. intros ->. contradiction.
  - rewrite (find_none (is "=")); [destruct (find (is "/") a); reflexivity|]. intros x Hx. apply is_neq. intros ->. contradiction.
Qed.
Lemma modify_assign : forall st a b n v, is_assignment a b n v ->
  match GetString st b n with
  | None => modify1 st a = None
  | Some _ => exists st', modify1 st a = Some st' /\ (forall b' n', GetString st' b' n' = updated (GetString st) b n v b' n') /\ names st' = names st /\ (ok st -> ok st')
  end.
Proof.
  intros st a b n v H. destruct (modify_parse a b n v H) as (E1 & E2 & E3 & E4 & E5). unfold modify1. rewrite E1, E2, E3, E4, E5. unfold GetString at 1. destruct (GetPtrToBlock st b) as [x|] eqn:EB; [|reflexivity]. destruct (GetPtrToLine (blines x) n) as [l|] eqn:EL; [|reflexivity].
  eexists. split; [reflexivity|]. set (f := fun x => mkBl _ _ _ _). assert (Hf : forall x, bname (f x) = bname x) by reflexivity. split; [|split].
  - intros b' n'. unfold GetString, updated. rewrite on_block_get by exact Hf. rewrite (teqb_sym b'), (teqb_sym n'). destruct (teqb b b') eqn:Eb; [|reflexivity]. apply teqb_spec in Eb as <-. rewrite EB. cbn [option_map]. unfold f. cbn [blines andb]. rewrite assign_line.
    destruct (teqb n n') eqn:En; [apply teqb_spec in En as <-; rewrite EL; reflexivity|]. destruct (GetPtrToLine (blines x) n'); reflexivity.
  - unfold names. clear EB. induction st as [|y st IH]; [reflexivity|]. cbn [on_block]. destruct (teqb (bname y) b); cbn [map]; [unfold f; cbn [bname blines]; rewrite assign_names; reflexivity|rewrite IH; reflexivity].
  - intros Hok. apply ok_on; [exact Hf| |exact Hok]. intros y (H1 & H2). unfold f. split; cbn [blines maxn maxv]; [rewrite assign_names; exact H1|]. apply Forall_forall. intros m Hm. pose proof (proj1 (Forall_forall _ _) H2) as K.
    destruct (Nat.ltb_spec (maxv y) (length v)); apply in_assign in Hm as [Hm|(m' & Hm & -> & ->)]; specialize (K _ Hm); cbv beta in K; lia.
Qed.
(** ** Histories *)
Definition eqv (f g : view) : Prop := forall b n, f b n = g b n.
Lemma updated_eqv : forall f g b n v, eqv f g -> eqv (updated f b n v) (updated g b n v).
Proof. intros f g b n v H b' n'. unfold updated. rewrite H. reflexivity. Qed.
Lemma arg_ext : forall f a g f', arg_effect f a g -> eqv f f' -> exists g', arg_effect f' a g' /\ eqv g g'.
Proof.
  intros f a g f' H E. destruct H as [f a b n v H1 H2|f a H1 H2]; [exists (updated f' b n v); split; [constructor; [exact H1|rewrite <- E; exact H2]|apply updated_eqv, E]|exists f'; split; [constructor; assumption|exact E]].
Qed.
Lemma args_ext : forall f a g, args_effect f a g -> forall f', eqv f f' -> exists g', args_effect f' a g' /\ eqv g g'.
Proof.
  intros f a g H. induction H as [f|f a f1 args f2 H1 H2 IH]; intros f' E; [exists f'; split; [constructor|exact E]|]. destruct (arg_ext _ _ _ _ H1 E) as (g1 & G1 & Q1). destruct (IH g1 Q1) as (g2 & G2 & Q2). exists g2. split; [econstructor; eassumption|exact Q2].
Qed.
Lemma op_ext : forall f o g f', op_effect f o g -> eqv f f' -> exists g', op_effect f' o g' /\ eqv g g'.
Proof.
  intros f o g f' H E. destruct H as [f ls its e rest|f b n v|f b n d Hn|f b n d Hn|f args g H].
  - eexists. split; [constructor|]. intros b n. rewrite (E b n). reflexivity.
  - eexists. split; [constructor|]. apply updated_eqv, E.
  - exists f'. split; [constructor; rewrite <- E; exact Hn|exact E].
  - eexists. split; [apply EAsk_new; rewrite <- E; exact Hn|]. apply updated_eqv, E.
  - destruct (args_ext _ _ _ H f' E) as (g' & G & Q). exists g'. split; [constructor; exact G|exact Q].
Qed.
Lemma effects_ext : forall f os g, effects f os g -> forall f', eqv f f' -> effects f' os g.
Proof.
  intros f os g H. induction H as [f g H|f o g os h H1 H2 IH]; intros f' E; [constructor; intros b n; rewrite H; apply E|]. destruct (op_ext _ _ _ _ H1 E) as (g' & G & Q). econstructor; [exact G|]. apply IH, Q.
Qed.
Lemma args_run : forall args st st', Forall (fun a => ~ odd_arg a) args -> ModifyFromCmdline st args = Some st' -> (exists g, args_effect (GetString st) args g /\ eqv g (GetString st')) /\ (ok st -> ok st').
Proof.
  intros args st st' H. revert st. induction H as [|a args Ha H IH]; intros st R; cbn [ModifyFromCmdline] in R.
  - injection R as <-. split; [exists (GetString st); split; [constructor|intros b n; reflexivity]|trivial].
  - destruct (arg_cases a) as [Ho|[(b & n & v & HA)|HO]]; [contradiction| |].
    + pose proof (modify_assign st a b n v HA) as M. destruct (GetString st b n) as [w|] eqn:EG; [|rewrite M in R; discriminate R]. destruct M as (st1 & E1 & EV & _ & K1). rewrite E1 in R. destruct (IH st1 R) as ((g & G & Q) & K2).
      split; [|intros K; apply K2, K1, K]. destruct (args_ext _ _ _ G (updated (GetString st) b n v)) as (g' & G' & Q'); [intros b' n'; apply EV|]. exists g'. split; [econstructor; [apply Aset; [exact HA|congruence]|exact G']|intros b' n'; rewrite <- Q'; apply Q].
    + rewrite (modify_other st a HO) in R. destruct (IH st R) as ((g & G & Q) & K2). split; [|exact K2]. exists g. split; [|exact Q]. econstructor; [|exact G]. constructor; [|exact HO]. intros b n v (-> & _). rewrite !in_app_iff in HO. cbn [In] in HO. rewrite !in_app_iff in HO. cbn [In] in HO. destruct HO as [HO|HO]; apply HO; [right; left; reflexivity|right; right; right; left; reflexivity].
Qed.
Lemma has_set : forall st b, has (FindOrAddBlock st b) b = true. Proof. intros. rewrite has_find, teqb_refl. apply orb_true_r. Qed.
Lemma get_set : forall st b n v b' n', GetString (SetString st b n v) b' n' = updated (GetString st) b n v b' n'.
Proof. intros. unfold SetString. rewrite get_add by apply has_set. unfold updated. rewrite get_find. reflexivity. Qed.
Lemma exist_get : forall st b n, DoesParameterExist st b n = true <-> GetString st b n <> None.
Proof. intros st b n. unfold DoesParameterExist, GetString. destruct (GetPtrToBlock st b) as [x|]; [|split; [discriminate|congruence]]. destruct (GetPtrToLine (blines x) n); split; congruence. Qed.
Lemma get_or_add : forall st b n d, let (st', v) := GetOrAddString st b n d in GetString st' b n = Some v /\ match GetString st b n with Some w => v = w /\ st' = st | None => v = d /\ forall b' n', GetString st' b' n' = updated (GetString st) b n d b' n' end.
Proof.
  intros st b n d. unfold GetOrAddString. destruct (DoesParameterExist st b n) eqn:E.
  - apply exist_get in E. destruct (GetString st b n) as [w|] eqn:G; [|congruence]. repeat split; exact G.
  - assert (G : GetString st b n = None) by (destruct (GetString st b n) eqn:G; [|reflexivity]; assert (X : DoesParameterExist st b n = true) by (apply exist_get; congruence); congruence). rewrite G.
    assert (V : forall b' n', GetString (AddParameter (FindOrAddBlock st b) b n d (str "# Default value added at run time")) b' n' = updated (GetString st) b n d b' n') by (intros; rewrite get_add by apply has_set; unfold updated; rewrite get_find; reflexivity).
    rewrite V. unfold updated. rewrite !teqb_refl. repeat split. exact V.
Qed.
Lemma op_run : forall o st st', op_ok o -> do_op st o = Some st' -> (exists g, op_effect (GetString st) o g /\ eqv g (GetString st')) /\ (ok st -> ok st').
Proof.
  intros o st st' Ho R. destruct o as [ls its e rest|b n v|b n d|args]; cbn [do_op] in R.
  - destruct Ho as (H1 & H2). rewrite (load_file st ls its e rest H1 H2) in R. injection R as <-. split; [|intros K; apply (ok_items its (st, None)), K]. eexists. split; [constructor|]. intros b n. symmetry. apply (items_view its st None). discriminate.
  - injection R as <-. split; [|intros K; apply ok_add, ok_find, K]. eexists. split; [constructor|]. intros b' n'. symmetry. apply get_set.
  - injection R as <-. pose proof (get_or_add st b n d) as G. unfold GetOrAddString in *. destruct (DoesParameterExist st b n) eqn:E; cbn [fst].
    + split; [|trivial]. exists (GetString st). split; [constructor; apply exist_get, E|intros b' n'; reflexivity].
    + destruct G as (_ & G). split; [|intros K; apply ok_add, ok_find, K]. assert (N : GetString st b n = None) by (destruct (GetString st b n) eqn:G'; [|reflexivity]; assert (X : DoesParameterExist st b n = true) by (apply exist_get; congruence); congruence).
      rewrite N in G. destruct G as (_ & G). eexists. split; [apply EAsk_new, N|]. intros b' n'. symmetry. apply G.
  - destruct (args_run args st st' Ho R) as ((g & G & Q) & K). split; [|exact K]. exists g. split; [constructor; exact G|exact Q].
Qed.
Lemma history : forall os st st', Forall op_ok os -> run st os = Some st' -> effects (GetString st) os (GetString st') /\ (ok st -> ok st').
Proof.
  intros os st st' H. revert st. induction H as [|o os Ho H IH]; intros st R; cbn [run] in R.
  - injection R as <-. split; [constructor; reflexivity|trivial].
  - destruct (do_op st o) as [st1|] eqn:E; [|discriminate R]. destruct (op_run o st st1 Ho E) as ((g & G & Q) & K1). destruct (IH st1 R) as (F & K2). split; [|auto]. econstructor; [exact G|]. apply (effects_ext _ _ _ F). intros b n. symmetry. apply Q.
Qed.

(** ** The header of a file *)
Definition P : text := str "<par_end>".
Lemma find_sub_skip : forall a s, ~ In "<"%char a -> find_sub P (a ++ s) = option_map (fun k => length a + k) (find_sub P s).
Proof.
  intros a s H. induction a as [|x a IH]; cbn [app length]; [destruct (find_sub P s); reflexivity|]. cbn [find_sub]. destruct (starts P (x :: a ++ s)) eqn:E; [apply starts_spec in E as (r & E); injection E as -> _; exfalso; apply H; left; reflexivity|].
  rewrite IH by (intros Hi; apply H; right; exact Hi). destruct (find_sub P s); reflexivity.
Qed.
Lemma find_sub_here : forall s, find_sub P (P ++ s) = Some 0.
Proof. intros s. cbn [P str list_ascii_of_string app find_sub]. change (starts P (P ++ s)) with (starts P (P ++ s)). assert (E : starts P (P ++ s) = true) by apply starts_app. cbn [P str list_ascii_of_string app] in E. unfold P, str. cbn [list_ascii_of_string]. rewrite E. reflexivity. Qed.
Lemma starts_firstn : forall t s m, starts t (firstn m s) = starts t s && Nat.leb (length t) m.
Proof.
  intros t s m. destruct (Nat.leb_spec (length t) m) as [L|L].
  - rewrite andb_true_r. unfold starts. rewrite firstn_firstn, Nat.min_l by exact L. reflexivity.
  - rewrite andb_false_r. destruct (starts t (firstn m s)) eqn:E; [|reflexivity]. apply starts_spec in E as (r & E). pose proof (f_equal (@length _) E) as EL. rewrite app_length in EL. pose proof (firstn_le_length m s). lia.
Qed.
Lemma find_sub_firstn : forall s k m, find_sub P s = Some k -> find_sub P (firstn m s) = if Nat.leb (k + 9) m then Some k else None.
Proof.
  intros s. induction s as [|x s IH]; intros k m H.
  - cbn in H. discriminate H.
  - destruct m as [|m].
    + replace (Nat.leb (k + 9) 0) with false by (destruct (Nat.leb_spec (k + 9) 0); [lia|reflexivity]). reflexivity.
    + cbn [find_sub] in H. cbn [firstn find_sub]. change (x :: firstn m s) with (firstn (S m) (x :: s)). rewrite starts_firstn. destruct (starts P (x :: s)) eqn:E.
      * injection H as <-. cbn [andb]. change (length P) with 9. change (0 + 9) with 9. destruct (Nat.leb_spec 9 (S m)); [reflexivity|].
        assert (N : find_sub P (firstn m s) = None). { destruct (find_sub P (firstn m s)) as [q|] eqn:F; [|reflexivity]. exfalso.
          assert (G : forall t q, find_sub P t = Some q -> q + 9 <= length t). { clear. intros t. induction t as [|y t IH]; intros q H; [cbn in H; discriminate H|]. cbn [find_sub] in H. destruct (starts P (y :: t)) eqn:E. - injection H as <-. apply starts_spec in E as (r & E). rewrite E, app_length. change (length P) with 9. lia. - destruct (find_sub P t) as [q'|]; [|discriminate H]. injection H as <-. specialize (IH q' eq_refl). cbn [length]. lia. }
          specialize (G _ _ F). pose proof (firstn_le_length m s). lia. }
        rewrite N. reflexivity.
      * cbn [andb]. destruct (find_sub P s) as [k'|]; [|discriminate H]. injection H as <-. rewrite (IH k' m eq_refl). cbn [Nat.add Nat.leb]. destruct (Nat.leb (k' + 9) m); reflexivity.
Qed.
Lemma skipn_skipn : forall (A : Type) i j (l : list A), skipn i (skipn j l) = skipn (i + j) l.
Proof. intros A i j. induction j as [|j IH]; intros l; [rewrite Nat.add_0_r; reflexivity|]. destruct l as [|x l]; [rewrite !skipn_nil; reflexivity|]. rewrite Nat.add_succ_r. cbn [skipn]. apply IH. Qed.
Lemma header_found : forall buf file k, 1 <= buf -> find_sub P file = Some k -> k + 10 <= length file -> k + 9 <= 11 * buf -> forall fuel j, j * buf < k + 9 -> k + 9 - j * buf < fuel ->
  exists m, k + 9 <= m /\ read_header fuel (firstn (j * buf) file) (skipn (j * buf) file) buf (buf * 10) = Some (k + 10, firstn m file).
Proof.
  intros buf file k Hb HF HL HK. induction fuel as [|fuel IH]; intros j Hj Hf; [lia|]. cbn [read_header].
  assert (EP : firstn (j * buf) file ++ firstn buf (skipn (j * buf) file) = firstn (S j * buf) file).
  { rewrite <- (firstn_skipn (j * buf) (firstn (S j * buf) file)). rewrite firstn_firstn, Nat.min_l by lia. f_equal. rewrite skipn_firstn_comm. f_equal. lia. }
  rewrite EP. fold P. rewrite (find_sub_firstn file k (S j * buf) HF). destruct (Nat.leb_spec (k + 9) (S j * buf)) as [L|L]; [exists (S j * buf); split; [exact L|reflexivity]|].
  assert (Lm : length (firstn (S j * buf) file) = S j * buf) by (apply firstn_length_le; lia). rewrite Lm. assert (J : S j <= 10) by nia. replace (Nat.ltb (buf * 10) (S j * buf)) with false by (destruct (Nat.ltb_spec (buf * 10) (S j * buf)); [nia|reflexivity]).
  assert (Lg : length (firstn buf (skipn (j * buf) file)) = buf) by (apply firstn_length_le; rewrite skipn_length; lia). rewrite Lg, Nat.eqb_refl. rewrite skipn_skipn. replace (buf + j * buf) with (S j * buf) by lia. apply IH; lia.
Qed.
Lemma header_lost : forall buf file k, 1 <= buf -> find_sub P file = Some k -> 11 * buf < k + 9 -> k + 10 <= length file -> forall fuel j, j <= 10 -> read_header fuel (firstn (j * buf) file) (skipn (j * buf) file) buf (buf * 10) = None.
Proof.
  intros buf file k Hb HF HK HL. induction fuel as [|fuel IH]; intros j Hj; [reflexivity|]. cbn [read_header].
  assert (EP : firstn (j * buf) file ++ firstn buf (skipn (j * buf) file) = firstn (S j * buf) file).
  { rewrite <- (firstn_skipn (j * buf) (firstn (S j * buf) file)). rewrite firstn_firstn, Nat.min_l by lia. f_equal. rewrite skipn_firstn_comm. f_equal. lia. }
  rewrite EP. fold P. rewrite (find_sub_firstn file k (S j * buf) HF). destruct (Nat.leb_spec (k + 9) (S j * buf)) as [L|L]; [nia|].
  assert (Lm : length (firstn (S j * buf) file) = S j * buf) by (apply firstn_length_le; nia). rewrite Lm. destruct (Nat.ltb_spec (buf * 10) (S j * buf)); [reflexivity|].
  assert (Lg : length (firstn buf (skipn (j * buf) file)) = buf) by (apply firstn_length_le; rewrite skipn_length; nia). rewrite Lg, Nat.eqb_refl. rewrite skipn_skipn. replace (buf + j * buf) with (S j * buf) by lia. apply IH. nia.
Qed.
Definition body (st : store) : text := rule ++ flat_map dump_block st ++ rule.
Lemma dump_body : forall st, ParameterDump st = body st ++ P ++ [NL].
Proof. intros st. unfold ParameterDump, body. rewrite <- !app_assoc. reflexivity. Qed.
Lemma body_end : forall st s, Forall (fun b => good_header (bname b)) st -> no_angle st -> find_sub P (body st ++ P ++ s) = Some (length (body st)).
Proof.
  intros st s HG HN. unfold body. rewrite <- !app_assoc. assert (NR : ~ In "<"%char rule) by (cbn; intuition discriminate).
  assert (G : forall st, Forall (fun b => good_header (bname b)) st -> no_angle st -> forall q k, find_sub P q = Some k -> find_sub P (flat_map dump_block st ++ q) = Some (length (flat_map dump_block st) + k)).
  { clear st s HG HN. intros st HG HN. induction st as [|b st IH]; intros q k H; [exact H|]. cbn [flat_map]. rewrite <- app_assoc. inversion HG as [|? ? Hb HG']; subst. inversion HN as [|? ? (Nb & Nl) HN']; subst. specialize (IH HG' HN' q k H).
    assert (LB : length (dump_block b) = S (length (bname b ++ str ">" ++ NL :: flat_map (dump_line b) (blines b)))) by reflexivity.
    unfold dump_block at 1. change (str "<") with ["<"%char]. cbn [app]. set (tl := (bname b ++ str ">" ++ NL :: flat_map (dump_line b) (blines b))) in *.
    replace ((bname b ++ str ">" ++ NL :: flat_map (dump_line b) (blines b)) ++ flat_map dump_block st ++ q) with (tl ++ flat_map dump_block st ++ q) by reflexivity.
    assert (NT : ~ In "<"%char tl).
    { unfold tl. rewrite !in_app_iff. cbn [In]. intros [Hi|[Hi|[Hi|Hi]]]; [contradiction|cbn in Hi; intuition discriminate|discriminate Hi|]. apply in_flat_map in Hi as (l & Hl & Hi). pose proof (proj1 (Forall_forall _ _) Nl l Hl) as (N1 & N2 & N3). unfold dump_line, pad_to in Hi. rewrite !in_app_iff in Hi. destruct Hi as [[Hi|Hi]|[Hi|[[Hi|Hi]|[Hi|Hi]]]]; try contradiction; try (apply repeat_spec in Hi; discriminate Hi); cbn in Hi; intuition discriminate. }
    cbn [find_sub]. destruct (starts P ("<"%char :: tl ++ flat_map dump_block st ++ q)) eqn:E.
    - exfalso. apply starts_spec in E as (r & E). unfold P in E. cbn [str list_ascii_of_string app] in E. injection E as E. unfold tl in E. rewrite <- !app_assoc in E. cbn [str list_ascii_of_string app] in E. destruct Hb as (Wb & Hp). apply Hp.
      assert (HB : forall s, find (is ">") (bname b ++ ">"%char :: s) = Some (length (bname b))) by (intros; apply find_at; [intros y Hy; apply is_neq; intros ->; apply (Wb ">"%char); [cbn; tauto|exact Hy]|apply is_eq; reflexivity]).
      pose proof (f_equal (find (is ">")) E) as F. rewrite HB in F. cbn in F. injection F as F. pose proof (f_equal (firstn (length (bname b))) E) as F2. rewrite firstn_exact, F in F2. exact F2.
    - rewrite find_sub_skip by exact NT. rewrite IH. cbn [option_map]. f_equal. rewrite app_length, LB. lia. }
  rewrite find_sub_skip by exact NR. rewrite (G st HG HN (rule ++ P ++ s) (length rule + 0)); [cbn [option_map]; f_equal; rewrite !app_length; lia|]. rewrite find_sub_skip by exact NR. rewrite find_sub_here. reflexivity.
Qed.
Lemma restart_header : forall st data, writable st -> no_angle st -> length (ParameterDump st) <= 11 * kBufSize + 1 ->
  exists st', LoadFromFile [] (ParameterDump st ++ data) = Some (length (ParameterDump st), st') /\ contents st' = contents st.
Proof.
  intros st data HW HN HL. assert (HG : Forall (fun b => good_header (bname b)) st) by (destruct HW as (_ & _ & H); apply Forall_forall; intros b Hb; apply (proj1 (Forall_forall _ _) H b Hb)).
  set (file := ParameterDump st ++ data). assert (EF : file = body st ++ P ++ (NL :: data)) by (unfold file; rewrite dump_body, <- !app_assoc; reflexivity).
  assert (HF : find_sub P file = Some (length (body st))) by (rewrite EF; apply body_end; assumption). assert (LD : length (ParameterDump st) = length (body st) + 10) by (rewrite dump_body, !app_length; reflexivity).
  unfold LoadFromFile. destruct (header_found kBufSize file (length (body st)) ltac:(unfold kBufSize; lia) HF) with (fuel := S (length file)) (j := 0) as (m & Hm & ER).
  - unfold file. rewrite app_length, LD. lia.
  - rewrite LD in HL. clear - HL. revert HL. generalize kBufSize. intros. lia.
  - lia.
  - unfold file. rewrite app_length, LD. lia.
  - cbn [Nat.mul firstn skipn] in ER. rewrite ER. rewrite LD.
    assert (EM : exists rest, firstn m file = body st ++ P ++ rest).
    { exists (firstn (m - length (body st ++ P)) (NL :: data)). rewrite EF. rewrite app_assoc. rewrite firstn_app. rewrite firstn_all2; [rewrite <- app_assoc; reflexivity|]. rewrite app_length. exact Hm. }
    destruct EM as (rest & ->). destruct (dump_form st HW) as (F & HH). pose proof (dump_unlines st) as DU. rewrite dump_body in DU. unfold file_text in DU. fold P in DU. rewrite !app_assoc in DU. apply app_inj_tail in DU as (DU & _). apply app_inv_tail in DU.
    rewrite DU. change (unlines (rule0 :: flat_map block_lines st ++ [rule0]) ++ P ++ rest) with (file_text (rule0 :: flat_map block_lines st ++ [rule0]) true rest). rewrite (load_file [] _ _ true rest F HH).
    eexists. split; [reflexivity|]. destruct HW as ((D1 & D2) & _ & _). cbn [fold_left]. rewrite fold_left_app. cbn [apply_item]. destruct (items_blocks st [] None D1 D2) as (st1 & cur' & E & Es). match goal with |- context [fold_left apply_item (flat_map block_items st) ?s] => replace (fold_left apply_item (flat_map block_items st) s) with (([] : store) ++ st1, cur') by (symmetry; exact E) end. exact Es.
Qed.
Lemma restart_long : forall st data, writable st -> no_angle st -> 11 * kBufSize + 1 < length (ParameterDump st) -> LoadFromFile [] (ParameterDump st ++ data) = None.
Proof.
  intros st data HW HN HL. assert (HG : Forall (fun b => good_header (bname b)) st) by (destruct HW as (_ & _ & H); apply Forall_forall; intros b Hb; apply (proj1 (Forall_forall _ _) H b Hb)).
  set (file := ParameterDump st ++ data). assert (EF : file = body st ++ P ++ (NL :: data)) by (unfold file; rewrite dump_body, <- !app_assoc; reflexivity).
  assert (HF : find_sub P file = Some (length (body st))) by (rewrite EF; apply body_end; assumption). assert (LD : length (ParameterDump st) = length (body st) + 10) by (rewrite dump_body, !app_length; reflexivity).
  unfold LoadFromFile. pose proof (header_lost kBufSize file (length (body st)) ltac:(unfold kBufSize; lia) HF) as H. cbn [Nat.mul firstn skipn] in H.
  specialize (H ltac:(rewrite LD in HL; clear - HL; revert HL; generalize kBufSize; intros; lia) ltac:(unfold file; rewrite app_length, LD; lia) (S (length file)) 0 ltac:(lia)). cbn [Nat.mul firstn skipn] in H. rewrite H. reflexivity.
Qed.
