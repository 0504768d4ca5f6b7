(** Small specification for C53. *)
From Coq Require Import Reals ZArith.
Local Open Scope R_scope.
(** Position of node [i] of [n] equidistant nodes from [a] to [b]. *)
Definition node (a b : R) (n i : Z) : R := a + IZR i * (b - a) / IZR (n - 1).
