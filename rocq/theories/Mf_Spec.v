(** Sharing radiation with a linear spectrum between frequency groups. *)
From Coq Require Import Reals.
Local Open Scope R_scope.
(** Spectrum between the frequencies a and b with values fa and fb there. *)
Definition spectrum (a b fa fb x : R) : R := fa + (fb - fa) * (x - a) / (b - a).
(** Radiation between the frequencies x and y. *)
Definition content (a b fa fb x y : R) : R := (spectrum a b fa fb x + spectrum a b fa fb y) / 2 * (y - x).
(** The part of it at frequencies between x and y, where x and y may lie outside of the interval from a to b. *)
Definition inside (a b x : R) : R := Rmax a (Rmin b x).
Definition share (a b fa fb x y : R) : R := content a b fa fb (inside a b x) (inside a b y) / content a b fa fb a b.
