(** Input parameters: src/parameter_input.cpp. *)
From Coq Require Import Ascii String List Arith ZArith Bool.
Import ListNotations.
Local Open Scope nat_scope.

(** std::string.  Literals are written with [str]. *)
Definition text := list ascii.
Definition str (s : string) : text := list_ascii_of_string s.
Definition NL : ascii := "010"%char.
Definition TAB : ascii := "009"%char.
Definition teqb (a b : text) : bool := if list_eq_dec ascii_dec a b then true else false.
(** find_first_of(c), find_first_not_of(c), find_last_not_of(c): a position, or npos. *)
Fixpoint find (p : ascii -> bool) (s : text) : option nat :=
  match s with [] => None | x :: s => if p x then Some 0 else option_map S (find p s) end.
Definition is (c x : ascii) : bool := Ascii.eqb x c.
Definition isnt (c x : ascii) : bool := negb (Ascii.eqb x c).
Fixpoint find_last (p : ascii -> bool) (s : text) : option nat :=
  match s with [] => None | x :: s => match find_last p s with Some i => Some (S i) | None => if p x then Some 0 else None end end.
(** substr(pos, count) and assign(line, pos, count); [None] is a count that reaches beyond the end (npos, or a difference that
    wraps around: these exceed any length). *)
Definition substr (s : text) (pos : nat) (count : option nat) : text := match count with Some n => firstn n (skipn pos s) | None => skipn pos s end.
(** a - b for positions, as a count. *)
Definition minus (a b : nat) : option nat := if Nat.leb b a then Some (a - b) else None.
(** Blanks at the end removed: s.erase(s.find_last_not_of(" ") + 1, npos) (npos + 1 is 0). *)
Definition rtrim (s : text) : text := match find_last (isnt " ") s with Some i => firstn (S i) s | None => [] end.
(** Blanks at the start removed: s.erase(0, s.find_first_not_of(" ")). *)
Definition ltrim (s : text) : text := match find (isnt " ") s with Some i => skipn i s | None => [] end.
(** s.compare(pos, n, t) == 0 with n = length of t. *)
Definition starts (t s : text) : bool := teqb (firstn (length t) s) t.

(** InputLine and InputBlock (parameter_input.hpp 36-60): parameters of a block in order, longest name and value. *)
Record line := mkL { lname : text; lvalue : text; lcomment : text }.
Record block := mkBl { bname : text; blines : list line; maxn : nat; maxv : nat }.
Definition store := list block.

(** FindOrAddBlock, 232-262: the caller then works on the block of this name; a new block comes last.  max_len_* of a new block
    are not set until its first parameter is added: 0 here. *)
Fixpoint FindOrAddBlock (st : store) (b : text) : store :=
  match st with [] => [mkBl b [] 0 0] | x :: st' => if teqb (bname x) b then st else x :: FindOrAddBlock st' b end.
Fixpoint GetPtrToBlock (st : store) (b : text) : option block :=
  match st with [] => None | x :: st => if teqb (bname x) b then Some x else GetPtrToBlock st b end.
Fixpoint GetPtrToLine (ls : list line) (n : text) : option line :=
  match ls with [] => None | l :: ls => if teqb (lname l) n then Some l else GetPtrToLine ls n end.
(** AddParameter, 307-344. *)
Fixpoint replace (ls : list line) (n v c : text) : list line :=
  match ls with [] => [mkL n v c] | l :: ls' => if teqb (lname l) n then mkL (lname l) v c :: ls' else l :: replace ls' n v c end.
Definition AddToBlock (b : block) (n v c : text) : block :=
  match GetPtrToLine (blines b) n with
  | Some _ => mkBl (bname b) (replace (blines b) n v c) (maxn b) (if Nat.ltb (maxv b) (length v) then length v else maxv b)
  | None =>
      match blines b with
      | [] => mkBl (bname b) [mkL n v c] (length n) (length v)
      | _ => mkBl (bname b) (replace (blines b) n v c) (if Nat.ltb (maxn b) (length n) then length n else maxn b) (if Nat.ltb (maxv b) (length v) then length v else maxv b)
      end
  end.
Fixpoint on_block (st : store) (b : text) (f : block -> block) : store :=
  match st with [] => [] | x :: st' => if teqb (bname x) b then f x :: st' else x :: on_block st' b f end.
Definition AddParameter (st : store) (b n v c : text) : store := on_block st b (fun x => AddToBlock x n v c).

(** ParseLine, 269-297: name, value and comment of a line whose first non-blank character is at [first]. *)
Definition ParseLine (l : text) : text * text * text :=
  let first := match find (isnt " ") l with Some i => i | None => 0 end in
  let equal := find (is "=") l in
  let hash := find (is "#") l in
  let name := rtrim (substr l first (match equal with Some e => minus e first | None => None end)) in
  let vstart := match equal with Some e => S e | None => 0 end in
  let vlen := match equal, hash with Some e, Some h => minus h (S e) | None, Some h => Some h | _, None => None end in
  let value := rtrim (ltrim (substr l vstart vlen)) in
  (name, value, match hash with Some h => skipn h l | None => [] end).

(** std::getline: the lines of a stream (an empty one at the end if the stream ends in a newline, 132: it is skipped). *)
Fixpoint getlines (s : text) : list text :=
  match s with
  | [] => [[]]
  | x :: s => if Ascii.eqb x NL then [] :: getlines s else match getlines s with l :: ls => (x :: l) :: ls | [] => [[x]] end
  end.
(** LoadFromStream, 120-180.  [cur] is the block of the last header (blocks_found > 0).  [None]: fatal error. *)
Fixpoint LoadLines (st : store) (cur : option text) (ls : list text) : option store :=
  match ls with
  | [] => Some st
  | l :: ls =>
      let l := filter (isnt TAB) l in
      match find (isnt " ") l with
      | None => LoadLines st cur ls
      | Some first =>
          if starts (str "#") (skipn first l) then LoadLines st cur ls
          else if starts (str "<par_end>") (skipn first l) then Some st
          else if starts (str "<") (skipn first l) then
            match find (is ">") (skipn (S first) l) with
            | None => None
            | Some k => let last := S first + k in
                let b := substr l (S first) (Some (last - 1)) in
                LoadLines (FindOrAddBlock st b) (Some b) ls
            end
          else match cur with
               | None => None
               | Some b => let '(n, v, c) := ParseLine l in LoadLines (AddParameter st b n v c) cur ls
               end
      end
  end.
Definition LoadFromStream (st : store) (s : text) : option store := LoadLines st None (getlines s).

(** LoadFromFile, 188-226: reads 4096 bytes at a time until <par_end> is found; [Some (header, store)] with the position after the
    header, where the file is left. *)
Definition kBufSize := 4096.
Fixpoint find_sub (t s : text) : option nat :=
  if starts t s then Some 0 else match s with [] => None | _ :: s => option_map S (find_sub t s) end.
Fixpoint read_header (fuel : nat) (par rest : text) (buf lim : nat) : option (nat * text) :=
  match fuel with
  | O => None
  | S fuel =>
      let got := firstn buf rest in
      let par := par ++ got in
      match find_sub (str "<par_end>") par with
      | Some loc => Some (loc + 10, par)
      | None => if Nat.ltb lim (length par) then None
                else if Nat.eqb (length got) buf then read_header fuel par (skipn buf rest) buf lim else Some (length par, par)
      end
  end.
Definition LoadFromFile (st : store) (file : text) : option (nat * store) :=
  match read_header (S (length file)) [] file kBufSize (kBufSize * 10) with
  | Some (h, par) => match LoadFromStream st par with Some st => Some (h, st) | None => None end
  | None => None
  end.

(** ModifyFromCmdline, 352-391. *)
Fixpoint assign_value (ls : list line) (n v : text) : list line :=
  match ls with [] => [] | l :: ls => if teqb (lname l) n then mkL (lname l) v (lcomment l) :: ls else l :: assign_value ls n v end.
Definition modify1 (st : store) (arg : text) : option store :=
  match find (is "/") arg, find (is "=") arg with
  | Some s, Some e =>
      let b := firstn s arg in
      let n := substr arg (S s) (minus e (S s)) in
      let v := skipn (S e) arg in
      match GetPtrToBlock st b with
      | None => None
      | Some x => match GetPtrToLine (blines x) n with
          | None => None
          | Some _ => Some (on_block st b (fun x => mkBl (bname x) (assign_value (blines x) n v) (maxn x) (if Nat.ltb (maxv x) (length v) then length v else maxv x)))
          end
      end
  | _, _ => Some st
  end.
Fixpoint ModifyFromCmdline (st : store) (args : list text) : option store :=
  match args with [] => Some st | a :: args => match modify1 st a with Some st => ModifyFromCmdline st args | None => None end end.

(** Get* (420-565): the string found, before conversion; [None] is the fatal error.  DoesParameterExist, 410-417. *)
Definition GetString (st : store) (b n : text) : option text :=
  match GetPtrToBlock st b with Some x => match GetPtrToLine (blines x) n with Some l => Some (lvalue l) | None => None end | None => None end.
Definition DoesParameterExist (st : store) (b n : text) : bool :=
  match GetPtrToBlock st b with Some x => match GetPtrToLine (blines x) n with Some _ => true | None => false end | None => false end.
(** Set* (695-760) with the value already printed, GetOrAdd* (572-690). *)
Definition SetString (st : store) (b n v : text) : store := AddParameter (FindOrAddBlock st b) b n v (str "# Updated during run time").
Definition GetOrAddString (st : store) (b n d : text) : store * text :=
  if DoesParameterExist st b n then (st, match GetString st b n with Some v => v | None => [] end)
  else (AddParameter (FindOrAddBlock st b) b n d (str "# Default value added at run time"), d).

(** Conversions: stringstream << int, and atoi (blanks, sign, digits; no overflow). *)
Definition digit (d : Z) : ascii := ascii_of_nat (48 + Z.to_nat d).
Fixpoint digits (fuel : nat) (n : Z) : text :=
  match fuel with O => [] | S fuel => if Z.ltb n 10 then [digit n] else digits fuel (Z.div n 10) ++ [digit (Z.modulo n 10)] end.
Definition print_int (z : Z) : text := if Z.ltb z 0 then "-"%char :: digits (S (Z.to_nat (Z.log2 (- z)))) (- z) else digits (S (Z.to_nat (Z.log2 z))) z.
Definition isdigit (c : ascii) : bool := Nat.leb 48 (nat_of_ascii c) && Nat.leb (nat_of_ascii c) 57.
Fixpoint atou (acc : Z) (s : text) : Z :=
  match s with [] => acc | c :: s => if isdigit c then atou (acc * 10 + Z.of_nat (nat_of_ascii c - 48)) s else acc end.
Definition isspace (c : ascii) : bool := Nat.eqb (nat_of_ascii c) 32 || (Nat.leb 9 (nat_of_ascii c) && Nat.leb (nat_of_ascii c) 13).
Fixpoint skipspace (s : text) : text := match s with [] => [] | c :: s' => if isspace c then skipspace s' else s end.
Definition atoi (s : text) : Z :=
  match skipspace s with c :: s' => if Ascii.eqb c "-" then (- atou 0 s')%Z else if Ascii.eqb c "+" then atou 0 s' else atou 0 (c :: s') | [] => 0%Z end.
Definition SetInteger (st : store) (b n : text) (v : Z) : store := SetString st b n (print_int v).
Definition GetInteger (st : store) (b n : text) : option Z := option_map atoi (GetString st b n).
(** stringstream << bool prints 0 or 1.  GetBoolean, 493-538: 0.. and 1.. are converted as numbers; [std::boolalpha] accepts exactly
    the words true and false (a prefix of the text; otherwise the result is false since C++11). *)
Definition print_bool (b : bool) : text := if b then str "1" else str "0".
Definition tolower (c : ascii) : ascii := let n := nat_of_ascii c in if Nat.leb 65 n && Nat.leb n 90 then ascii_of_nat (n + 32) else c.
Definition atob (s : text) : bool :=
  if starts (str "0") s || starts (str "1") s then negb (Z.eqb (atoi s) 0) else starts (str "true") (skipspace (map tolower s)).
Definition SetBoolean (st : store) (b n : text) (v : bool) : store := SetString st b n (print_bool v).
Definition GetBoolean (st : store) (b n : text) : option bool := option_map atob (GetString st b n).

(** ParameterDump, 835-860.  [m - length s] does not wrap around if [m] is the longest length (see [lengths] in Par_Spec). *)
Definition pad_to (m : nat) (s : text) : text := s ++ repeat " "%char (m - length s + 1).
Definition dump_line (b : block) (l : line) : text := pad_to (maxn b) (lname l) ++ str "= " ++ pad_to (maxv b) (lvalue l) ++ lcomment l ++ [NL].
Definition dump_block (b : block) : text := str "<" ++ bname b ++ str ">" ++ [NL] ++ flat_map (dump_line b) (blines b).
Definition rule : text := str "#------------------------- PAR_DUMP -------------------------" ++ [NL].
Definition ParameterDump (st : store) : text := rule ++ flat_map dump_block st ++ rule ++ str "<par_end>" ++ [NL].
