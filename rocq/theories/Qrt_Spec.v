(** What the temperature equation of the radiation module asks for. *)
From Coq Require Import Reals.
Local Open Scope R_scope.
(** x is a solution of coef4 x^4 + x + tconst = 0 that can be a temperature. *)
Definition solution (coef4 tconst x : R) : Prop := 0 <= x /\ coef4 * x ^ 4 + x + tconst = 0.
