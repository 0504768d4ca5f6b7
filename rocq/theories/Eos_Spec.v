(** What the conserved and the primitive description of a gas have to do with each other; independent of the code. *)
From Coq Require Import Reals ZArith.
From Verif Require Import Eos_Model.
Local Open Scope R_scope.

(** Density, momentum = density * velocity, energy = internal + kinetic + magnetic. *)
Definition describes (gamma pb : R) (w : prim) (u : cons) : Prop :=
  u_d u = w_d w /\ u_m1 u = w_d w * w_vx w /\ u_m2 u = w_d w * w_vy w /\ u_m3 u = w_d w * w_vz w
  /\ u_e u = w_p w / (gamma - 1) + w_d w * (w_vx w ^ 2 + w_vy w ^ 2 + w_vz w ^ 2) / 2 + pb.
Definition describes_iso (w : iprim) (u : icons) : Prop :=
  iu_d u = iw_d w /\ iu_m1 u = iw_d w * iw_vx w /\ iu_m2 u = iw_d w * iw_vy w /\ iu_m3 u = iw_d w * iw_vz w.
(** A state the floors have nothing to do with. *)
Definition above (dfloor pfloor : R) (w : prim) : Prop := dfloor <= w_d w /\ pfloor <= w_p w.
Definition field_energy (b : mag) : R := (b1 b ^ 2 + b2 b ^ 2 + b3 b ^ 2) / 2.
Definition same_momentum (u u' : cons) : Prop := u_m1 u' = u_m1 u /\ u_m2 u' = u_m2 u /\ u_m3 u' = u_m3 u.
(** The pressure of a state with the density raised to the floor. *)
Definition pressure_at_floor (gamma dfloor pb : R) (u : cons) : R :=
  (gamma - 1) * (u_e u - (u_m1 u ^ 2 + u_m2 u ^ 2 + u_m3 u ^ 2) / (2 * Rmax (u_d u) dfloor) - pb).
