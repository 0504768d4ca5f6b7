(** Small specification for C80. *)
From Coq Require Import Reals ZArith.
From Verif Require Import Fv_Model Fv_Spec.
Local Open Scope R_scope.
(** Two values and the flux through the face from the first to the second: it points from the larger to the smaller one and vanishes if they are equal. *)
Definition downhill (below above flux : R) : Prop := flux * (above - below) <= 0 /\ (below = above -> flux = 0).
Definition bounded_by (lo hi : R) (a : arr) : Prop := forall k j i, lo <= a k j i <= hi.
(** The new values of the cells of the block lie between bounds of the old ones. *)
Definition stays_between (d : dims) (lo hi : R) (a : arr) : Prop := forall k j i, is_active d k j i -> lo <= a k j i <= hi.
(** All cell widths. *)
Definition uniform (w : R) : arr := fun _ _ _ => w.
