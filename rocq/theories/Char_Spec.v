(** What the projection should do, stated without the code.  States and small changes of states are vectors indexed density, three velocity components, pressure (only when the gas has an energy equation), two transverse field components. *)
From Coq Require Import Reals PeanoNat.
Local Open Scope R_scope.

(** Position of the pressure and of the transverse field in the vector, number of components. *)
Definition pos_p : nat := 4.
Definition pos_b (adi : bool) : nat := if adi then 5 else 4.
Definition size (mhd adi : bool) : nat := (pos_b adi + (if mhd then 2 else 0))%nat.
(** The three directions: the component along the direction and the two across, in cyclic order. *)
Inductive axes : nat -> nat -> nat -> Prop := Ax1 : axes 1 2 3 | Ax2 : axes 2 3 1 | Ax3 : axes 3 1 2.
(** A state with positive density and pressure; [g] is the adiabatic index or the isothermal sound speed. *)
Definition physical (adi : bool) (g : R) (w : nat -> R) : Prop := 0 < w 0%nat /\ 0 < g /\ (adi = true -> 0 < w pos_p).
(** Square of the sound speed: g p / d, or that of the isothermal gas. *)
Definition sound2 (adi : bool) (g : R) (w : nat -> R) : R := if adi then g * w pos_p / w 0%nat else g * g.

(** The one-dimensional equations of (magneto)hydrodynamics, dw/dt = - A(w) dw/dx, in the variables of the vector: [rate x y z g b w v] is A(w) v.  [b] is the field along the direction.
    density:    u dd + d du
    velocity:   u du + (dp + By dBy + Bz dBz) / d,   u dv - (b / d) dBy,   u dw - (b / d) dBz
    pressure:   u dp + g p du   (isothermal: dp = g^2 dd)
    field:      u dBy + By du - b dv,   u dBz + Bz du - b dw *)
Inductive rate (mhd adi : bool) (x y z : nat) (g b : R) (w v : nat -> R) : nat -> R -> Prop :=
| rate_d : rate mhd adi x y z g b w v 0 (w x * v 0%nat + w 0%nat * v x)
| rate_x : rate mhd adi x y z g b w v x
    (w x * v x + ((if adi then v pos_p else g * g * v 0%nat) + (if mhd then w (pos_b adi) * v (pos_b adi) + w (S (pos_b adi)) * v (S (pos_b adi)) else 0)) / w 0%nat)
| rate_y : rate mhd adi x y z g b w v y (w x * v y - (if mhd then b / w 0%nat * v (pos_b adi) else 0))
| rate_z : rate mhd adi x y z g b w v z (w x * v z - (if mhd then b / w 0%nat * v (S (pos_b adi)) else 0))
| rate_p : adi = true -> rate mhd adi x y z g b w v pos_p (w x * v pos_p + g * w pos_p * v x)
| rate_by : mhd = true -> rate mhd adi x y z g b w v (pos_b adi) (w x * v (pos_b adi) + w (pos_b adi) * v x - b * v y)
| rate_bz : mhd = true -> rate mhd adi x y z g b w v (S (pos_b adi)) (w x * v (S (pos_b adi)) + w (S (pos_b adi)) * v x - b * v z).
Definition rates (mhd adi : bool) (x y z : nat) (g b : R) (w v r : nat -> R) : Prop := forall n e, rate mhd adi x y z g b w v n e -> r n = e.

(** Slow, Alfven and fast speed: the roots of the dispersion relation c^4 - c^2 (a^2 + B^2 / d) + a^2 b^2 / d = 0, and |b| / sqrt d. *)
Definition wave_speeds (adi : bool) (g b : R) (w : nat -> R) (cs ca cf : R) : Prop :=
  0 <= cs <= cf /\ cs * cs <= sound2 adi g w <= cf * cf /\
  cf * cf + cs * cs = sound2 adi g w + (b * b + w (pos_b adi) * w (pos_b adi) + w (S (pos_b adi)) * w (S (pos_b adi))) / w 0%nat /\
  (cf * cf) * (cs * cs) = sound2 adi g w * (b * b / w 0%nat) /\
  0 <= ca /\ ca * ca = b * b / w 0%nat.
(** The speed of each characteristic field, in the order of the components. *)
Definition speed (mhd adi : bool) (u a cs ca cf : R) (n : nat) : R :=
  match mhd, adi with
  | true, true => match n with O => u - cf | 1%nat => u - ca | 2%nat => u - cs | 3%nat => u | 4%nat => u + cs | 5%nat => u + ca | _ => u + cf end
  | true, false => match n with O => u - cf | 1%nat => u - ca | 2%nat => u - cs | 3%nat => u + cs | 4%nat => u + ca | _ => u + cf end
  | false, true => match n with O => u - a | 4%nat => u + a | _ => u end
  | false, false => match n with O => u - a | 3%nat => u + a | _ => u end
  end.
(** With a magnetic field, its transverse part does not vanish. *)
Definition bent (mhd adi : bool) (w : nat -> R) : Prop := mhd = true -> w (pos_b adi) <> 0 \/ w (S (pos_b adi)) <> 0.
