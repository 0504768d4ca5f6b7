(** Admissible states: positive density and positive internal energy; the Courant condition. *)
From Coq Require Import Reals ZArith Bool.
From Verif Require Import Fv_Model Eos_Model Rie_Model Pos_Model.
Local Open Scope R_scope.

Definition admissible (e : eos) (u : cons) : Prop :=
  0 < u_d u /\ match e with Adi _ => 0 < u_e u - (u_m1 u ^ 2 + u_m2 u ^ 2 + u_m3 u ^ 2) / (2 * u_d u) | Iso _ => True end.
Definition ndim (d : dims) : R := 1 + (if Z.ltb 1 (nx2 d) then 1 else 0) + (if Z.ltb 1 (nx3 d) then 1 else 0).
(** In a time dt no sound wave of any cell crosses more than the fraction c of a cell, in any active direction. *)
Definition courant (e : eos) (d : dims) (dx dy dz dt c : R) (W : cells) : Prop :=
  forall k j i, dt * speed 0 e (W k j i) <= c * dx /\ ((1 < nx2 d)%Z -> dt * speed 1 e (W k j i) <= c * dy) /\ ((1 < nx3 d)%Z -> dt * speed 2 e (W k j i) <= c * dz).
