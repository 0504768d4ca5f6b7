(** What the parameter store has to do. *)
From Coq Require Import Ascii String List Arith ZArith Bool.
From Verif Require Import Par_Model.
Import ListNotations.
Local Open Scope nat_scope.

Definition SP : ascii := " "%char.
Definition blanks (n : nat) : text := repeat SP n.
(** No blanks at the two ends. *)
Definition trimmed (s : text) : Prop := hd_error s <> Some SP /\ hd_error (rev s) <> Some SP.
Definition without (cs : list ascii) (s : text) : Prop := forall c, In c cs -> ~ In c s.
(** Names, values, comments and block names that can be written in an input file. *)
Definition good_name (n : text) : Prop := without ["="; "#"; NL; TAB]%char n /\ trimmed n /\ hd_error n <> Some "<"%char.
Definition good_value (v : text) : Prop := without ["#"; NL; TAB]%char v /\ trimmed v.
Definition good_comment (c : text) : Prop := (c = [] \/ hd_error c = Some "#"%char) /\ without [NL; TAB] c.
Definition good_header (b : text) : Prop := without [">"; NL; TAB]%char b /\ b <> str "par_end".

(** ** The file format (parameter_input.cpp 14-33), line by line. *)
Inductive item := Skip | Header (b : text) | Setting (n v c : text).
Inductive line_form : text -> item -> Prop :=
| Fblank : forall i, line_form (blanks i) Skip
| Fcomment : forall i s, line_form (blanks i ++ "#"%char :: s) Skip
| Fheader : forall b s, good_header b -> line_form ("<"%char :: b ++ ">"%char :: s) (Header b)
| Fsetting : forall i n j k v m c, good_name n -> good_value v -> good_comment c ->
    line_form (blanks i ++ n ++ blanks j ++ "="%char :: blanks k ++ v ++ blanks m ++ c) (Setting n v c).
(** A line of a file: tabs are ignored. *)
Definition file_line (l : text) (it : item) : Prop := ~ In NL l /\ line_form (filter (isnt TAB) l) it.
Definition unlines (ls : list text) : text := flat_map (fun l => l ++ [NL]) ls.
(** The first header comes before the first setting. *)
Fixpoint headed (its : list item) : Prop := match its with [] => True | Skip :: its => headed its | Header _ :: _ => True | Setting _ _ _ :: _ => False end.
(** What the items say about parameter [n] of block [b]: the last setting. *)
Fixpoint says (cur : option text) (its : list item) (b n : text) : option text :=
  match its with
  | [] => None
  | Skip :: its => says cur its b n
  | Header b' :: its => says (Some b') its b n
  | Setting n' v _ :: its => match says cur its b n with Some w => Some w | None => match cur with Some b' => if teqb b' b && teqb n' n then Some v else None | None => None end end
  end.

(** ** Stores: each block once, each parameter once per block; the recorded lengths are large enough. *)
Definition distinct (st : store) : Prop := NoDup (map bname st) /\ Forall (fun b => NoDup (map lname (blines b))) st.
Definition lengths (st : store) : Prop := Forall (fun b => Forall (fun l => length (lname l) <= maxn b /\ length (lvalue l) <= maxv b) (blines b)) st.
(** What can be seen of a store. *)
Definition contents (st : store) : list (text * list (text * text * text)) := map (fun b => (bname b, map (fun l => (lname l, lvalue l, lcomment l)) (blines b))) st.
Definition names (st : store) : list (text * list text) := map (fun b => (bname b, map lname (blines b))) st.
Definition writable (st : store) : Prop := distinct st /\ lengths st /\
  Forall (fun b => good_header (bname b) /\ Forall (fun l => good_name (lname l) /\ good_value (lvalue l) /\ good_comment (lcomment l)) (blines b)) st.

(** ** Histories.  A file of the documented format, an assignment, a query with default, command line arguments. *)
Inductive op := Load (ls : list text) (its : list item) (end_ : bool) (rest : text) | Set_ (b n v : text) | Ask (b n d : text) | Args (args : list text).
Definition file_text (ls : list text) (end_ : bool) (rest : text) : text := unlines ls ++ (if end_ then str "<par_end>" ++ rest else []).
(** Arguments that look like options or paths, with '=' before the first '/' (see the finding in Par_Props). *)
Definition odd_arg (a : text) : Prop := exists b c v, a = b ++ "="%char :: c ++ "/"%char :: v /\ without ["/"; "="]%char b /\ without ["/"]%char c.
Definition op_ok (o : op) : Prop := match o with Load ls its _ _ => Forall2 file_line ls its /\ headed its | Args args => Forall (fun a => ~ odd_arg a) args | _ => True end.
Definition do_op (st : store) (o : op) : option store :=
  match o with
  | Load ls _ e rest => LoadFromStream st (file_text ls e rest)
  | Set_ b n v => Some (SetString st b n v)
  | Ask b n d => Some (fst (GetOrAddString st b n d))
  | Args args => ModifyFromCmdline st args
  end.
Fixpoint run (st : store) (os : list op) : option store := match os with [] => Some st | o :: os => match do_op st o with Some st => run st os | None => None end end.
(** The parameters as a function of block and name, and what each operation is supposed to do to it. *)
Definition view := text -> text -> option text.
Definition updated (f : view) (b n v : text) : view := fun b' n' => if teqb b' b && teqb n' n then Some v else f b' n'.
(** An argument block/name=value: no '/' or '=' in the block, no '=' in the name. *)
Definition is_assignment (a b n v : text) : Prop := a = b ++ "/"%char :: n ++ "="%char :: v /\ without ["/"; "="]%char b /\ without ["="]%char n.
Inductive arg_effect : view -> text -> view -> Prop :=
| Aset : forall f a b n v, is_assignment a b n v -> f b n <> None -> arg_effect f a (updated f b n v)
| Aother : forall f a, (forall b n v, ~ is_assignment a b n v) -> (~ In "/"%char a \/ ~ In "="%char a) -> arg_effect f a f.
Inductive args_effect : view -> list text -> view -> Prop :=
| ANil : forall f, args_effect f [] f
| ACons : forall f a f1 args f2, arg_effect f a f1 -> args_effect f1 args f2 -> args_effect f (a :: args) f2.
Inductive op_effect : view -> op -> view -> Prop :=
| ELoad : forall f ls its e rest, op_effect f (Load ls its e rest) (fun b n => match says None its b n with Some v => Some v | None => f b n end)
| ESet : forall f b n v, op_effect f (Set_ b n v) (updated f b n v)
| EAsk_old : forall f b n d, f b n <> None -> op_effect f (Ask b n d) f
| EAsk_new : forall f b n d, f b n = None -> op_effect f (Ask b n d) (updated f b n d)
| EArgs : forall f args g, args_effect f args g -> op_effect f (Args args) g.
Inductive effects : view -> list op -> view -> Prop :=
| Enil : forall f g, (forall b n, g b n = f b n) -> effects f [] g
| Econs : forall f o g os h, op_effect f o g -> effects g os h -> effects f (o :: os) h.
(** Histories whose assignments can be written in a file (what a file says always can). *)
Definition op_good (o : op) : Prop :=
  match o with
  | Load _ _ _ _ => True
  | Set_ b n v | Ask b n v => good_header b /\ good_name n /\ good_value v
  | Args args => Forall (fun a => forall b n v, is_assignment a b n v -> good_value v) args
  end.
(** No '<' in names, values and comments. *)
Definition no_angle (st : store) : Prop := Forall (fun b => ~ In "<"%char (bname b) /\ Forall (fun l => ~ In "<"%char (lname l) /\ ~ In "<"%char (lvalue l) /\ ~ In "<"%char (lcomment l)) (blines b)) st.
