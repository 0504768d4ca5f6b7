(** C30-C32 and the header part of C33: input parameters. *)
From Coq Require Import Ascii String List Arith ZArith Bool Lia.
From Verif Require Import Par_Model Par_Spec Par_Proofs Par_Proofs2 Par_Proofs3 Par_Proofs4 Par_Proofs5.
Import ListNotations.
Local Open Scope nat_scope.

(** C30.  A dump, whatever follows it, is read back as the same blocks, names, values and comments in the same order. *)
Theorem C30_dump_reload : forall st rest, writable st -> exists st', LoadFromStream [] (ParameterDump st ++ rest) = Some st' /\ contents st' = contents st /\ distinct st' /\ lengths st'.
Proof. exact reload. Qed.
(** This applies to the store of a run: after files of the documented format, assignments, queries with defaults and command line arguments in any
    order, when the values given by the latter can be written. *)
Theorem C30_run_reload : forall os st rest, Forall op_ok os -> Forall op_good os -> run [] os = Some st ->
  exists st', LoadFromStream [] (ParameterDump st ++ rest) = Some st' /\ forall b n, GetString st' b n = GetString st b n.
Proof.
  intros os st rest HO HG E. destruct (reload st rest (run_writable os st HO HG E)) as (st' & E' & C & _). exists st'. split; [exact E'|]. clear - C. revert st' C.
  assert (GL : forall (l l' : list line) n, map (fun l => (lname l, lvalue l, lcomment l)) l' = map (fun l => (lname l, lvalue l, lcomment l)) l -> option_map lvalue (GetPtrToLine l' n) = option_map lvalue (GetPtrToLine l n)).
  { induction l as [|x l IH]; intros [|y l'] n H; try discriminate H; [reflexivity|]. cbn [map] in H. injection H as H1 H2 H3 H. cbn [GetPtrToLine]. rewrite H1. destruct (teqb (lname x) n); [cbn [option_map]; rewrite H2; reflexivity|apply IH, H]. }
  induction st as [|x st IH]; intros [|y st'] C b n; try discriminate C; [reflexivity|]. unfold contents in C. cbn [map] in C. injection C as C1 C2 C. unfold GetString. cbn [GetPtrToBlock]. rewrite C1. destruct (teqb (bname x) b); [|apply (IH st' C b n)].
  specialize (GL _ _ n C2). destruct (GetPtrToLine (blines y) n), (GetPtrToLine (blines x) n); cbn [option_map] in GL; congruence.
Qed.
(** The restart file: its header is found and read back, and the reader stops where the data begins, if the header is at most 45057 bytes long. *)
Theorem C33_header : forall st data, writable st -> no_angle st -> length (ParameterDump st) <= 11 * kBufSize + 1 ->
  exists st', LoadFromFile [] (ParameterDump st ++ data) = Some (length (ParameterDump st), st') /\ contents st' = contents st.
Proof. exact restart_header. Qed.
(** Finding: a longer header is written without complaint but no run can start from the file. *)
Theorem C33_long_header_refuted :
  (forall st data, writable st -> no_angle st -> 11 * kBufSize + 1 < length (ParameterDump st) -> LoadFromFile [] (ParameterDump st ++ data) = None) /\
  exists b n v st, run [] [Set_ b n v] = Some st /\ writable st /\ no_angle st /\ 11 * kBufSize + 1 < length (ParameterDump st).
Proof. split; [exact restart_long|]. exists (str "a"), (str "x"), (repeat "x"%char (12 * kBufSize)), long_store. split; [reflexivity|]. split; [apply long_writable|]. split; [apply long_writable|exact long_length]. Qed.

(** C31.  A file of the documented format sets exactly the parameters it lists, to the last value given for each, and leaves the others. *)
Theorem C31_load : forall st ls its e rest, Forall2 file_line ls its -> headed its ->
  exists st', LoadFromStream st (file_text ls e rest) = Some st' /\ forall b n, GetString st' b n = match says None its b n with Some v => Some v | None => GetString st b n end.
Proof. intros st ls its e rest HF HH. rewrite (load_file st ls its e rest HF HH). eexists. split; [reflexivity|]. intros b n. apply (items_view its st None). intros b' Hb; discriminate Hb. Qed.
(** Any history of loads, assignments, queries and arguments has exactly the effect of its operations; each name occurs once. *)
Theorem C31_history : forall os st st', Forall op_ok os -> run st os = Some st' -> effects (GetString st) os (GetString st').
Proof. intros os st st' HO E. exact (proj1 (history os st st' HO E)). Qed.
Theorem C31_no_duplicates : forall os st', Forall op_ok os -> run [] os = Some st' -> distinct st' /\ lengths st'.
Proof. intros os st' HO E. apply ok_iff, (history os [] st' HO E). split; constructor. Qed.
Theorem C31_set_get : forall st b n v b' n', GetString (SetString st b n v) b' n' = if teqb b' b && teqb n' n then Some v else GetString st b' n'.
Proof. exact get_set. Qed.
Theorem C31_get_or_add : forall st b n d, let (st', v) := GetOrAddString st b n d in
  GetString st' b n = Some v /\ match GetString st b n with Some w => v = w /\ st' = st | None => v = d /\ forall b' n', GetString st' b' n' = updated (GetString st) b n d b' n' end.
Proof. exact get_or_add. Qed.
Theorem C31_exists : forall st b n, DoesParameterExist st b n = true <-> GetString st b n <> None.
Proof. exact exist_get. Qed.
(** Integers and booleans come back as they were set. *)
Theorem C31_integers : forall st b n z, GetInteger (SetInteger st b n z) b n = Some z.
Proof. intros st b n z. unfold GetInteger, SetInteger. rewrite get_set. unfold updated. rewrite !teqb_refl. cbn [andb option_map]. rewrite atoi_print. reflexivity. Qed.
Theorem C31_booleans : forall st b n v, GetBoolean (SetBoolean st b n v) b n = Some v.
Proof. intros st b n v. unfold GetBoolean, SetBoolean. rewrite get_set. unfold updated. rewrite !teqb_refl. cbn [andb option_map]. rewrite atob_print. reflexivity. Qed.

(** C32.  An argument block/name=value updates an existing parameter and nothing else, or is a fatal error; others have no effect. *)
Theorem C32_assignment : forall st a b n v, is_assignment a b n v ->
  match GetString st b n with
  | None => modify1 st a = None
  | Some _ => exists st', modify1 st a = Some st' /\ (forall b' n', GetString st' b' n' = updated (GetString st) b n v b' n') /\ names st' = names st
  end.
Proof. intros st a b n v H. pose proof (modify_assign st a b n v H) as K. destruct (GetString st b n); [|exact K]. destruct K as (st' & K1 & K2 & K3 & _). exists st'. auto. Qed.
Theorem C32_other : forall st a, ~ In "/"%char a \/ ~ In "="%char a -> modify1 st a = Some st.
Proof. exact modify_other. Qed.
(** These are all arguments except those with '=' before the first '/'. *)
Theorem C32_all_arguments : forall a, odd_arg a \/ (exists b n v, is_assignment a b n v) \/ (~ In "/"%char a \/ ~ In "="%char a).
Proof. exact arg_cases. Qed.
Theorem C32_no_new_parameters : forall args st st', Forall (fun a => ~ odd_arg a) args -> ModifyFromCmdline st args = Some st' -> names st' = names st.
Proof.
  induction args as [|a args IH]; intros st st' H E; cbn [ModifyFromCmdline] in E; [injection E as <-; reflexivity|]. destruct (modify1 st a) as [s1|] eqn:E1; [|discriminate E]. inversion H; subst. rewrite (IH s1 st') by assumption.
  destruct (arg_cases a) as [O|[(b & n & v & A)|O]]; [contradiction| |rewrite modify_other in E1 by exact O; injection E1 as <-; reflexivity]. pose proof (modify_assign st a b n v A) as K. destruct (GetString st b n); [|congruence]. destruct K as (s & K1 & _ & K3 & _). congruence.
Qed.

(** ** A concrete store *)
Definition ex_lines : list text := map str ["# problem"; "<time>  # comment"; "  cfl_number = 0.3    # CFL"; "tlim=1.0"; ""; "<mesh>"; "nx1   =  64 "; "<time>"; "tlim = 2.5"]%string.
Definition ex_items : list item := [Skip; Header (str "time"); Setting (str "cfl_number") (str "0.3") (str "# CFL"); Setting (str "tlim") (str "1.0") []; Skip; Header (str "mesh"); Setting (str "nx1") (str "64") []; Header (str "time"); Setting (str "tlim") (str "2.5") []].
Ltac wo := let c := fresh in let H := fresh in let K := fresh in intros c H K; cbn in H, K; intuition (subst; discriminate).
Ltac gn := split; [wo|split; [split; discriminate|discriminate]].
Ltac gv := split; [wo|split; discriminate].
Ltac gc := split; [first [left; reflexivity|right; reflexivity]|wo].
Ltac gh := split; [wo|discriminate].
Example ex_format : Forall2 file_line ex_lines ex_items /\ headed ex_items.
Proof.
  split; [|exact I]. unfold ex_lines, ex_items. cbn [map]. repeat constructor; try (cbn; intuition discriminate).
  - exact (Fcomment 0 (str " problem")).
  - apply (Fheader (str "time") (str "  # comment")). gh.
  - apply (Fsetting 2 (str "cfl_number") 1 1 (str "0.3") 4 (str "# CFL")); [gn|gv|gc].
  - apply (Fsetting 0 (str "tlim") 0 0 (str "1.0") 0 []); [gn|gv|gc].
  - exact (Fblank 0).
  - apply (Fheader (str "mesh") []). gh.
  - apply (Fsetting 0 (str "nx1") 3 2 (str "64") 1 []); [gn|gv|gc].
  - apply (Fheader (str "time") []). gh.
  - apply (Fsetting 0 (str "tlim") 1 1 (str "2.5") 0 []); [gn|gv|gc].
Qed.
Definition ex_ops : list op := [Load ex_lines ex_items true (str "anything"); Args [str "time/tlim=4"; str "-d"; str "run/x"]; Ask (str "mesh") (str "nx2") (str "1"); Set_ (str "time") (str "dt") (str "0.1")].
Example ex_ops_ok : Forall op_ok ex_ops /\ Forall op_good ex_ops.
Proof.
  assert (A1 : is_assignment (str "time/tlim=4") (str "time") (str "tlim") (str "4")) by (split; [reflexivity|split; wo]).
  assert (NI : forall a, In a [str "-d"; str "run/x"] -> ~ In "="%char a) by (cbn; intros a [<-|[<-|[]]]; cbn; intuition discriminate).
  split.
  - constructor; [exact ex_format|]. constructor; [|repeat constructor]. cbn [op_ok]. constructor; [|constructor; [|constructor; [|constructor]]]; intros (b & c & v & E & Hb & Hc).
    + apply (Hb "/"%char); [left; reflexivity|]. destruct b as [|c0 [|c1 [|c2 [|c3 [|c4 b]]]]]; try discriminate E. injection E; intros; subst; cbn; tauto.
    + apply (NI (str "-d")); [cbn; tauto|]. rewrite E. apply in_or_app. right. left. reflexivity.
    + apply (NI (str "run/x")); [cbn; tauto|]. rewrite E. apply in_or_app. right. left. reflexivity.
  - constructor; [exact I|]. constructor; [|constructor; [|constructor; [|constructor]]]; cbn [op_good]; [|split; [gh|split; [gn|gv]]..].
    constructor; [|constructor; [|constructor; [|constructor]]]; intros b n v A.
    + destruct A as (E & Hb & Hn). pose proof (modify_parse _ _ _ _ (conj E (conj Hb Hn))) as (F1 & F2 & F3 & F4 & F5). pose proof (modify_parse _ _ _ _ A1) as (G1 & G2 & G3 & G4 & G5). rewrite F2 in G2. injection G2 as G2. rewrite G2 in F5. assert (EV : v = str "4") by (rewrite <- F5; reflexivity). subst v. gv.
    + exfalso. apply (NI (str "-d")); [cbn; tauto|]. destruct A as (E & _). rewrite E. apply in_or_app. right. right. apply in_or_app. right. left. reflexivity.
    + exfalso. apply (NI (str "run/x")); [cbn; tauto|]. destruct A as (E & _). rewrite E. apply in_or_app. right. right. apply in_or_app. right. left. reflexivity.
Qed.
Example ex_run : exists st, run [] ex_ops = Some st /\ GetString st (str "time") (str "tlim") = Some (str "4") /\ GetString st (str "mesh") (str "nx2") = Some (str "1") /\
  names st = [(str "time", map str ["cfl_number"; "tlim"; "dt"]); (str "mesh", map str ["nx1"; "nx2"])]%string /\ writable st /\ no_angle st /\ length (ParameterDump st) <= 11 * kBufSize + 1.
Proof.
  destruct (run [] ex_ops) as [st|] eqn:E; [|vm_compute in E; discriminate E]. exists st. split; [reflexivity|]. pose proof (run_writable ex_ops st (proj1 ex_ops_ok) (proj2 ex_ops_ok) E) as W. vm_compute in E. injection E as <-.
  split; [reflexivity|]. split; [reflexivity|]. split; [reflexivity|]. split; [exact W|]. split; [repeat constructor; cbn; intuition discriminate|]. apply Nat.leb_le. vm_compute. reflexivity.
Qed.

(** Findings. *)
(** C30: a value with '#', which the command line accepts, is cut at the '#' in the restarted run. *)
Theorem C30_hash_value_refuted : exists st st', run [] [Load [str "<job>"; str "problem_id = a"] [Header (str "job"); Setting (str "problem_id") (str "a") []] false []; Args [str "job/problem_id=run#2"]] = Some st /\
  GetString st (str "job") (str "problem_id") = Some (str "run#2") /\ LoadFromStream [] (ParameterDump st) = Some st' /\ GetString st' (str "job") (str "problem_id") = Some (str "run").
Proof. eexists. eexists. split; [vm_compute; reflexivity|]. split; [reflexivity|]. split; [vm_compute; reflexivity|reflexivity]. Qed.
(** C31: an indented header names the wrong block: the length is computed as if the line began with '<'. *)
Theorem C31_indented_header_refuted : exists st, LoadFromStream [] (unlines [str "  <mesh> # cells"; str "nx1 = 64"]) = Some st /\ GetString st (str "mesh") (str "nx1") = None /\ GetString st (str "mesh> ") (str "nx1") = Some (str "64").
Proof. eexists. split; [vm_compute; reflexivity|]. split; reflexivity. Qed.
(** C31: a line without '=' is accepted as a parameter whose name and value are both the line. *)
Theorem C31_no_equal_sign_refuted : exists st, LoadFromStream [] (unlines [str "<mesh>"; str "nx1 64"]) = Some st /\ GetString st (str "mesh") (str "nx1 64") = Some (str "nx1 64").
Proof. eexists. split; [vm_compute; reflexivity|reflexivity]. Qed.
(** C32: an argument with '=' before '/', such as an option with a path, is not ignored but a fatal error. *)
Theorem C32_path_argument_refuted : exists st a, (forall b n v, ~ is_assignment a b n v) /\ run [] ex_ops = Some st /\ modify1 st a = None.
Proof.
  destruct (run [] ex_ops) as [st|] eqn:E; [|vm_compute in E; discriminate E]. exists st, (str "--dir=out/run"). vm_compute in E. injection E as <-. split; [|split; reflexivity]. intros b n v (A & Hb & _).
  apply (Hb "="%char); [cbn; tauto|]. do 6 (destruct b as [|? b]; [discriminate A|]). injection A; intros; subst. cbn [In]. tauto.
Qed.
Print Assumptions C30_dump_reload. Print Assumptions C30_run_reload. Print Assumptions C33_header. Print Assumptions C33_long_header_refuted. Print Assumptions C31_load. Print Assumptions C31_history. Print Assumptions C31_no_duplicates. Print Assumptions C31_set_get. Print Assumptions C31_get_or_add. Print Assumptions C31_exists. Print Assumptions C31_integers. Print Assumptions C31_booleans.
Print Assumptions C32_assignment. Print Assumptions C32_other. Print Assumptions C32_all_arguments. Print Assumptions C32_no_new_parameters. Print Assumptions C30_hash_value_refuted. Print Assumptions C31_indented_header_refuted. Print Assumptions C31_no_equal_sign_refuted. Print Assumptions C32_path_argument_refuted.
