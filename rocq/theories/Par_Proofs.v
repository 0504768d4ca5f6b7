(** Proofs about the parameter store. *)
From Coq Require Import Ascii String List Arith ZArith Bool Lia.
From Verif Require Import Par_Model Par_Spec.
Import ListNotations.
Local Open Scope nat_scope.

(** ** Text *)
Lemma teqb_spec : forall a b, teqb a b = true <-> a = b.
Proof. intros a b. unfold teqb. destruct (list_eq_dec ascii_dec a b); split; congruence. Qed.
Lemma teqb_refl : forall a, teqb a a = true. Proof. intros a. apply teqb_spec. reflexivity. Qed.
Lemma teqb_neq : forall a b, a <> b -> teqb a b = false.
Proof. intros a b H. destruct (teqb a b) eqn:E; [apply teqb_spec in E; contradiction|reflexivity]. Qed.
Lemma teqb_sym : forall a b, teqb a b = teqb b a.
Proof. intros a b. destruct (teqb a b) eqn:E; [apply teqb_spec in E as ->; symmetry; apply teqb_refl|]. symmetry. apply teqb_neq. intros ->. rewrite teqb_refl in E. discriminate E. Qed.
Lemma find_skip : forall p a b, (forall x, In x a -> p x = false) -> find p (a ++ b) = option_map (fun k => length a + k) (find p b).
Proof.
  intros p a b H. induction a as [|x a IH]; cbn [app find length]; [destruct (find p b); reflexivity|]. rewrite (H x (or_introl eq_refl)), IH by (intros y Hy; apply H; right; exact Hy). destruct (find p b); reflexivity.
Qed.
Lemma find_at : forall p a x b, (forall y, In y a -> p y = false) -> p x = true -> find p (a ++ x :: b) = Some (length a).
Proof. intros p a x b H Hx. rewrite find_skip by exact H. cbn [find]. rewrite Hx. cbn. f_equal. lia. Qed.
Lemma find_none : forall p s, (forall x, In x s -> p x = false) -> find p s = None.
Proof. intros p s H. rewrite <- (app_nil_r s), find_skip by exact H. reflexivity. Qed.
Lemma find_some : forall p s k, find p s = Some k -> exists a x b, s = a ++ x :: b /\ length a = k /\ p x = true /\ forall y, In y a -> p y = false.
Proof.
  intros p s. induction s as [|x s IH]; intros k H; cbn [find] in H; [discriminate H|]. destruct (p x) eqn:E.
  - injection H as <-. exists [], x, s. repeat split; [exact E|intros y []].
  - destruct (find p s) as [k'|]; [|discriminate H]. injection H as <-. destruct (IH k' eq_refl) as (a & y & b & -> & L & Hy & Ha). exists (x :: a), y, b. cbn [app length]. rewrite L. repeat split; [exact Hy|]. intros z [<-|Hz]; [exact E|apply Ha, Hz].
Qed.
Lemma find_none_inv : forall p s, find p s = None -> forall x, In x s -> p x = false.
Proof.
  intros p s. induction s as [|x s IH]; intros H y Hy; [contradiction Hy|]. cbn [find] in H. destruct (p x) eqn:E; [discriminate H|]. destruct (find p s) eqn:F; [discriminate H|]. destruct Hy as [<-|Hy]; [exact E|apply (IH eq_refl y Hy)].
Qed.
Lemma is_eq : forall c x, is c x = true <-> x = c. Proof. intros c x. unfold is. apply Ascii.eqb_eq. Qed.
Lemma is_neq : forall c x, is c x = false <-> x <> c. Proof. intros c x. unfold is. apply Ascii.eqb_neq. Qed.
Lemma isnt_eq : forall c x, isnt c x = false <-> x = c. Proof. intros c x. unfold isnt. rewrite negb_false_iff. apply Ascii.eqb_eq. Qed.
Lemma isnt_neq : forall c x, isnt c x = true <-> x <> c. Proof. intros c x. unfold isnt. rewrite negb_true_iff. apply Ascii.eqb_neq. Qed.
Lemma in_blanks : forall i x, In x (blanks i) -> x = SP. Proof. intros i x H. apply repeat_spec in H. exact H. Qed.
Lemma find_last_app_none : forall p a b, (forall x, In x b -> p x = false) -> find_last p (a ++ b) = find_last p a.
Proof.
  intros p a b H. induction a as [|x a IH]; cbn [app find_last]; [|rewrite IH; reflexivity]. induction b as [|y b IHb]; [reflexivity|]. cbn [find_last]. rewrite IHb by (intros z Hz; apply H; right; exact Hz). rewrite (H y (or_introl eq_refl)). reflexivity.
Qed.
Lemma find_last_app : forall p a x, p x = true -> find_last p (a ++ [x]) = Some (length a).
Proof. intros p a x H. induction a as [|y a IH]; cbn [app find_last length]; [rewrite H; reflexivity|rewrite IH; reflexivity]. Qed.
Lemma rtrim_blanks : forall s m, (s = [] \/ exists a x, s = a ++ [x] /\ x <> SP) -> rtrim (s ++ blanks m) = s.
Proof.
  intros s m H. unfold rtrim. change " "%char with SP. rewrite find_last_app_none by (intros x Hx; apply isnt_eq; apply in_blanks in Hx; exact Hx).
  destruct H as [->|(a & x & -> & Hx)]; [reflexivity|]. rewrite find_last_app by (apply isnt_neq; exact Hx). replace (S (length a)) with (length (a ++ [x])) by (rewrite app_length; cbn; lia). rewrite firstn_app, Nat.sub_diag, firstn_all. apply app_nil_r.
Qed.
Lemma trimmed_end : forall s, trimmed s -> s = [] \/ exists a x, s = a ++ [x] /\ x <> SP.
Proof.
  intros s (_ & H). destruct s as [|y s]; [left; reflexivity|right]. destruct (@exists_last _ (y :: s) ltac:(discriminate)) as (a & x & E). exists a, x. split; [exact E|]. rewrite E, rev_app_distr in H. cbn in H. congruence.
Qed.
Lemma ltrim_blanks : forall k s, hd_error s <> Some SP -> (s = [] -> True) -> ltrim (blanks k ++ s) = match s with [] => [] | _ => s end.
Proof.
  intros k s H _. unfold ltrim. change " "%char with SP. rewrite find_skip by (intros x Hx; apply isnt_eq; apply in_blanks in Hx; exact Hx). destruct s as [|x s]; [reflexivity|]. cbn [find hd_error] in *. assert (E : isnt SP x = true) by (apply isnt_neq; congruence). rewrite E. cbn [option_map]. rewrite Nat.add_0_r. rewrite skipn_app, Nat.sub_diag, skipn_all. reflexivity.
Qed.
Lemma ltrim_all : forall k, ltrim (blanks k) = [].
Proof. intros k. unfold ltrim. rewrite find_none; [reflexivity|]. intros x Hx. apply isnt_eq. apply in_blanks in Hx. exact Hx. Qed.
Lemma starts_app : forall t s, starts t (t ++ s) = true.
Proof. intros t s. unfold starts. rewrite firstn_app, Nat.sub_diag, firstn_all. cbn. rewrite app_nil_r. apply teqb_refl. Qed.
Lemma starts_spec : forall t s, starts t s = true <-> exists r, s = t ++ r.
Proof.
  intros t s. split; [|intros (r & ->); apply starts_app]. unfold starts. intros H. apply teqb_spec in H. exists (skipn (length t) s). rewrite <- H at 1. symmetry. apply firstn_skipn.
Qed.
Lemma starts1 : forall c s, starts [c] s = true <-> hd_error s = Some c.
Proof. intros c s. rewrite starts_spec. split; [intros (r & ->); reflexivity|]. destruct s as [|x s]; cbn; [discriminate|]. intros H. injection H as ->. exists s. reflexivity. Qed.
Lemma starts1_not : forall c s, hd_error s <> Some c -> starts [c] s = false.
Proof. intros c s H. destruct (starts [c] s) eqn:E; [apply starts1 in E; contradiction|reflexivity]. Qed.
Lemma skipn_exact : forall (a b : text), skipn (length a) (a ++ b) = b.
Proof. intros a b. rewrite skipn_app, Nat.sub_diag, skipn_all. reflexivity. Qed.
Lemma firstn_exact : forall (a b : text), firstn (length a) (a ++ b) = a.
Proof. intros a b. rewrite firstn_app, Nat.sub_diag, firstn_all. cbn. apply app_nil_r. Qed.

(** ** Parsing a setting *)
Lemma parse_setting : forall i n j k v m c, good_name n -> good_value v -> good_comment c ->
  ParseLine (blanks i ++ n ++ blanks j ++ "="%char :: blanks k ++ v ++ blanks m ++ c) = (n, v, c).
Proof.
  intros i n j k v m c (Hn & Tn & Ln) (Hv & Tv) (Hc & _). unfold ParseLine. set (l := blanks i ++ n ++ blanks j ++ "="%char :: blanks k ++ v ++ blanks m ++ c).
  assert (HE : find (is "=") l = Some (length (blanks i ++ n ++ blanks j))).
  { unfold l. replace (blanks i ++ n ++ blanks j ++ "="%char :: blanks k ++ v ++ blanks m ++ c) with ((blanks i ++ n ++ blanks j) ++ "="%char :: blanks k ++ v ++ blanks m ++ c) by (rewrite !app_assoc; reflexivity).
    apply find_at; [|apply is_eq; reflexivity]. intros x Hx. apply is_neq. intros ->. rewrite !in_app_iff in Hx. destruct Hx as [Hx|[Hx|Hx]]; [apply in_blanks in Hx; discriminate Hx|exact (Hn _ ltac:(cbn; tauto) Hx)|apply in_blanks in Hx; discriminate Hx]. }
  assert (HH : find (is "#") l = match c with [] => None | _ => Some (S (length (blanks i ++ n ++ blanks j)) + length (blanks k ++ v ++ blanks m)) end).
  { unfold l. replace (blanks i ++ n ++ blanks j ++ "="%char :: blanks k ++ v ++ blanks m ++ c) with ((blanks i ++ n ++ blanks j ++ "="%char :: blanks k ++ v ++ blanks m) ++ c) by (rewrite <- !app_assoc; cbn [app]; rewrite <- !app_assoc; reflexivity).
    assert (HA : forall x, In x (blanks i ++ n ++ blanks j ++ "="%char :: blanks k ++ v ++ blanks m) -> is "#" x = false).
    { intros x Hx. apply is_neq. intros ->. rewrite !in_app_iff in Hx. cbn [In] in Hx. rewrite !in_app_iff in Hx.
      destruct Hx as [Hx|[Hx|[Hx|[Hx|[Hx|[Hx|Hx]]]]]]; try (apply in_blanks in Hx; discriminate Hx); [exact (Hn "#"%char ltac:(cbn; tauto) Hx)|discriminate Hx|exact (Hv "#"%char ltac:(cbn; tauto) Hx)]. }
    rewrite find_skip by exact HA. destruct c as [|x c]; [reflexivity|]. destruct Hc as [Hc|Hc]; [discriminate Hc|]. cbn [hd_error] in Hc. injection Hc as ->. cbn [find]. change (is "#" "#") with true. cbn [option_map]. f_equal. rewrite !app_length. cbn [length]. rewrite !app_length. lia. }
  rewrite HE, HH. cbv zeta.
  assert (HF : match find (isnt " ") l with Some i0 => i0 | None => 0 end = match n with [] => length (blanks i ++ n ++ blanks j) | _ => length (blanks i) end).
  { unfold l. change " "%char with SP. rewrite find_skip by (intros x Hx; apply isnt_eq; apply in_blanks in Hx; exact Hx). destruct n as [|x n].
    - cbn [app]. rewrite find_skip by (intros x Hx; apply isnt_eq; apply in_blanks in Hx; exact Hx). cbn [find]. change (isnt SP "=") with true. cbn [option_map]. rewrite app_length. lia.
    - cbn [app find]. destruct Tn as (Tn & _). cbn [hd_error] in Tn. assert (E : isnt SP x = true) by (apply isnt_neq; congruence). rewrite E. cbn [option_map]. lia. }
  rewrite HF. f_equal; [f_equal|].
  - destruct n as [|x n'].
    + unfold minus. rewrite Nat.leb_refl, Nat.sub_diag. cbn [substr firstn]. reflexivity.
    + set (n := x :: n') in *. assert (E : minus (length (blanks i ++ n ++ blanks j)) (length (blanks i)) = Some (length (n ++ blanks j))). { unfold minus. rewrite app_length. rewrite (proj2 (Nat.leb_le _ _)) by lia. f_equal. lia. }
      rewrite E. unfold substr, l. rewrite skipn_exact. rewrite app_assoc, firstn_exact. apply rtrim_blanks, trimmed_end, Tn.
  - assert (E : substr l (S (length (blanks i ++ n ++ blanks j))) (match match c with [] => None | _ :: _ => Some (S (length (blanks i ++ n ++ blanks j)) + length (blanks k ++ v ++ blanks m)) end with Some h => minus h (S (length (blanks i ++ n ++ blanks j))) | None => None end) = blanks k ++ v ++ blanks m).
    { assert (Es : skipn (S (length (blanks i ++ n ++ blanks j))) l = blanks k ++ v ++ blanks m ++ c).
      { unfold l. replace (S (length (blanks i ++ n ++ blanks j))) with (length ((blanks i ++ n ++ blanks j) ++ ["="%char])) by (rewrite app_length; cbn; lia).
        replace (blanks i ++ n ++ blanks j ++ "="%char :: blanks k ++ v ++ blanks m ++ c) with (((blanks i ++ n ++ blanks j) ++ ["="%char]) ++ blanks k ++ v ++ blanks m ++ c) by (rewrite <- !app_assoc; reflexivity). apply skipn_exact. }
      unfold substr. destruct c as [|x c]; rewrite Es; [rewrite !app_nil_r; reflexivity|].
      unfold minus. rewrite (proj2 (Nat.leb_le _ _)) by lia. replace (S (length (blanks i ++ n ++ blanks j)) + length (blanks k ++ v ++ blanks m) - S (length (blanks i ++ n ++ blanks j))) with (length (blanks k ++ v ++ blanks m)) by lia.
      replace (blanks k ++ v ++ blanks m ++ x :: c) with ((blanks k ++ v ++ blanks m) ++ x :: c) by (rewrite <- !app_assoc; reflexivity). apply firstn_exact. }
    transitivity (rtrim (ltrim (blanks k ++ v ++ blanks m))); [|].
    { f_equal. f_equal. destruct c; exact E. }
    destruct v as [|x v'].
    + cbn [app]. unfold blanks. rewrite <- repeat_app. fold (blanks (k + m)). rewrite ltrim_all. reflexivity.
    + rewrite ltrim_blanks; [|destruct Tv as (Tv & _); exact Tv|trivial]. cbn [app]. change (rtrim ((x :: v') ++ blanks m) = x :: v'). apply rtrim_blanks, trimmed_end, Tv.
  - destruct c as [|x c]; [reflexivity|]. unfold l. replace (S (length (blanks i ++ n ++ blanks j)) + length (blanks k ++ v ++ blanks m)) with (length (blanks i ++ n ++ blanks j ++ "="%char :: blanks k ++ v ++ blanks m)) by (rewrite !app_length; cbn [length]; rewrite !app_length; lia).
    replace (blanks i ++ n ++ blanks j ++ "="%char :: blanks k ++ v ++ blanks m ++ x :: c) with ((blanks i ++ n ++ blanks j ++ "="%char :: blanks k ++ v ++ blanks m) ++ x :: c) by (rewrite <- !app_assoc; cbn [app]; rewrite <- !app_assoc; reflexivity). apply skipn_exact.
Qed.
