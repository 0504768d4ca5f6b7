(** What a user expects of the coupling of gas and radiation. *)
From Coq Require Import Reals List.
Import ListNotations.
Local Open Scope R_scope.
Definition norm2 (d : R * R * R) : R := let '(x, y, z) := d in x * x + y * y + z * z.
Definition dot (a b : R * R * R) : R := let '(x, y, z) := a in let '(x', y', z') := b in x * x' + y * y' + z * z'.
Definition neg (d : R * R * R) : R * R * R := let '(x, y, z) := d in (- x, - y, - z).
(** Sum of f over a list. *)
Definition total {A} (l : list A) (f : A -> R) : R := fold_right (fun x s => f x + s) 0 l.
(** One implicit (backward Euler) step of the grey transfer equation in the frame of the gas.
    Per direction: weight w, Doppler factor t, factor m of the new intensity, old intensity i and new intensity i'.
    tr, ts, tp, te: optical depths light travels in the step, of absorption (Rosseland), scattering, emission and absorption (Planck means); rf: c_reduced / c. *)
Record dirn := { w : R; t : R; m : R; i : R; i' : R }.
Definition mean (l : list dirn) : R := total l (fun d => w d * i' d).
(** m i' - i = rf t (emission + isotropic source - extinction): what is scattered or absorbed by the mean opacity in excess of te is reemitted isotropically. *)
Definition transfer (rf tr ts tp te T' : R) (l : list dirn) : Prop :=
  Forall (fun d => m d * i' d - i d = rf * t d * (tp * T' ^ 4 + (ts + tr - te) * mean l - (tr + ts) * i' d)) l.
(** Energy the gas gains minus the energy it absorbs and emits: 0 for an exact solution. *)
Definition imbalance (rho gm1 prat tp te T T' : R) (l : list dirn) : R := rho / gm1 * (T' - T) + prat * (tp * T' ^ 4 - te * mean l).
(** Allowed directions: weights that are not negative and sum to one, positive Doppler factors, positive intensities. *)
Definition proper (l : list dirn) : Prop := total l w = 1 /\ Forall (fun d => 0 <= w d /\ 0 < t d /\ 1 <= m d /\ 0 < i d) l.
