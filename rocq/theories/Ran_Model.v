(** The random number generator, src/utils/ran2.cpp.  64-bit integers are [Z] with an overflow check ([None]: undefined behaviour). *)
From Coq Require Import ZArith List QArith Bool.
Import ListNotations.
Local Open Scope Z_scope.

(** ran2.cpp 27-38. *)
Definition IMR1 := 2147483563. Definition IMR2 := 2147483399. Definition IMM1 := IMR1 - 1.
Definition IA1 := 40014. Definition IA2 := 40692. Definition IQ1 := 53668. Definition IQ2 := 52774. Definition IR1 := 12211. Definition IR2 := 3791.
Definition NTAB := 32%nat.
Definition NDIV := 1 + Z.quot IMM1 (Z.of_nat NTAB).
(** std::int64_t arithmetic. *)
Definition i64 (x : Z) : option Z := if Z.leb (- 2 ^ 63) x && Z.ltb x (2 ^ 63) then Some x else None.
Definition mul (a b : Z) : option Z := i64 (a * b).
Definition sub (a b : Z) : option Z := i64 (a - b).
Definition add (a b : Z) : option Z := i64 (a + b).
Definition bind {A B} (x : option A) (f : A -> option B) : option B := match x with Some a => f a | None => None end.
Notation "'do' a <- x ; e" := (bind x (fun a => e)) (at level 200, a name, x at level 100, e at level 200).
(** 58-60, 67-69 and 70-72: k=x/IQ; x=IA*(x-k*IQ)-k*IR; if (x < 0) x += IM. *)
Definition schrage (ia iq ir im x : Z) : option Z :=
  let k := Z.quot x iq in
  do p <- mul k iq; do d <- sub x p; do a <- mul ia d; do b <- mul k ir; do y <- sub a b; if Z.ltb y 0 then add y im else Some y.
(** The static variables, 44-46; iv as a list of 32. *)
Record static := mkSt { idum2 : Z; iy : Z; iv : list Z }.
Definition initial : static := mkSt 123456789 0 (repeat 0 NTAB).
(** iv[j]: [None] outside the table. *)
Definition get (l : list Z) (j : nat) : option Z := nth_error l j.
Fixpoint set (l : list Z) (j : nat) (x : Z) : option (list Z) :=
  match l, j with [], _ => None | _ :: l, O => Some (x :: l) | a :: l, S j => match set l j x with Some l => Some (a :: l) | None => None end end.
(** 57-62, for j = n-1 down to 0. *)
Fixpoint warm (n : nat) (idum : Z) (iv : list Z) : option (Z * list Z) :=
  match n with
  | O => Some (idum, iv)
  | S j => do x <- schrage IA1 IQ1 IR1 IMR1 idum; do iv <- (if Nat.ltb j NTAB then set iv j x else Some iv); warm j x iv
  end.
(** 51-65: initialisation if *idum <= 0. *)
Definition init (idum : Z) (s : static) : option (Z * static) :=
  if Z.leb idum 0 then
    do neg <- i64 (- idum);
    let idum := if Z.ltb neg 1 then 1 else neg in
    do r <- warm (NTAB + 8) idum (iv s);
    do y <- get (snd r) 0; Some (fst r, mkSt idum y (snd r))
  else Some (idum, s).
(** 0 <= j as an array index. *)
Definition index (j : Z) : option nat := if Z.ltb j 0 then None else Some (Z.to_nat j).
(** 66-83: *idum, the static variables and the value returned (exact quotient instead of AM*iy; RNMX = 1 - 2^-52). *)
Definition RNMX : Q := 1 - (1 # 4503599627370496).
Definition ran2 (idum : Z) (s : static) : option (Z * static * Q) :=
  do r <- init idum s; let s := snd r in
  do idum <- schrage IA1 IQ1 IR1 IMR1 (fst r);
  do x2 <- schrage IA2 IQ2 IR2 IMR2 (idum2 s);
  do j <- index (Z.quot (iy s) NDIV);
  do v <- get (iv s) j;
  do y <- sub v x2;
  do iv' <- set (iv s) j idum;
  do y <- (if Z.ltb y 1 then add y IMM1 else Some y);
  let temp := (inject_Z y / inject_Z IMR1)%Q in
  Some (idum, mkSt x2 y iv', if Qle_bool temp RNMX then temp else RNMX).
(** Successive calls with the same variable. *)
Fixpoint draws (n : nat) (idum : Z) (s : static) : option (Z * static * list Q) :=
  match n with
  | O => Some (idum, s, [])
  | S n => do r <- ran2 idum s; let '(i, s, q) := r in do r2 <- draws n i s; let '(i, s, l) := r2 in Some (i, s, q :: l)
  end.
