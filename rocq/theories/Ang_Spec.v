(** What a set of directions with weights has to satisfy. *)
From Coq Require Import Reals List.
Import ListNotations.
Local Open Scope R_scope.
(** Sum of f over a list. *)
Definition add_up {A} (l : list A) (f : A -> R) : R := fold_right (fun x s => f x + s) 0 l.
Definition unit_vector (d : R * R * R) : Prop := let '(x, y, z) := d in x * x + y * y + z * z = 1.
(** Directions are unit vectors, the weights sum to one, an isotropic intensity has no flux and the pressure tensor 1/3 times the unit matrix. *)
Definition isotropic (l : list ((R * R * R) * R)) : Prop :=
  (forall d w, In (d, w) l -> unit_vector d) /\
  add_up l (fun '(_, w) => w) = 1 /\
  add_up l (fun '((x, y, z), w) => w * x) = 0 /\ add_up l (fun '((x, y, z), w) => w * y) = 0 /\ add_up l (fun '((x, y, z), w) => w * z) = 0 /\
  add_up l (fun '((x, y, z), w) => w * (x * x)) = 1 / 3 /\ add_up l (fun '((x, y, z), w) => w * (y * y)) = 1 / 3 /\ add_up l (fun '((x, y, z), w) => w * (z * z)) = 1 / 3 /\
  add_up l (fun '((x, y, z), w) => w * (x * y)) = 0 /\ add_up l (fun '((x, y, z), w) => w * (x * z)) = 0 /\ add_up l (fun '((x, y, z), w) => w * (y * z)) = 0.
(** The same in a plane. *)
Definition isotropic2 (l : list ((R * R) * R)) : Prop :=
  add_up l (fun '(_, w) => w) = 1 /\ add_up l (fun '((x, y), w) => w * x) = 0 /\ add_up l (fun '((x, y), w) => w * y) = 0 /\
  add_up l (fun '((x, y), w) => w * (x * x)) = 1 / 3 /\ add_up l (fun '((x, y), w) => w * (y * y)) = 1 / 3 /\ add_up l (fun '((x, y), w) => w * (x * y)) = 0.
