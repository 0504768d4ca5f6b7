(** Small specification for C88: what the cosmic-ray update must solve and conserve. *)
From Coq Require Import Reals ZArith Bool.
From Verif Require Import Fv_Model Met_Model Cr_Model.
Local Open Scope R_scope.

Definition dot (a b : triple) : R := let '(a1, a2, a3) := a in let '(b1, b2, b3) := b in a1 * b1 + a2 * b2 + a3 * b3.
Definition scale (k : R) (a : triple) : triple := let '(a1, a2, a3) := a in (k * a1, k * a2, k * a3).
Definition nth3 (n : nat) (t : triple) : R := let '(a, b, c) := t in match n with 1%nat => a | 2%nat => b | _ => c end.

(** The axes along which opacities are given: the grid axes, or, with a magnetic field, the direction (sin t cos p, sin t sin p, cos t) and two directions perpendicular to it. *)
Definition axis (mag : bool) (a : R * R * R * R) (n : nat) : triple :=
  let '(st, ct, sp, cp) := a in
  match n with
  | 1%nat => if mag then (st * cp, st * sp, ct) else (1, 0, 0)
  | 2%nat => if mag then (- sp, cp, 0) else (0, 1, 0)
  | _ => if mag then (- ct * cp, - ct * sp, st) else (0, 0, 1)
  end.
Definition unit_angles (a : R * R * R * R) : Prop := let '(st, ct, sp, cp) := a in st * st + ct * ct = 1 /\ sp * sp + cp * cp = 1.

(** Gas velocity, and the velocity that does work on the gas. *)
Definition velocity (c : config) (g : gas) : triple := scale (/ Rmax (dn g) (rho_floor c)) (mom g).
Definition working (c : config) (l : cell) (g : gas) : triple := if negb (Z.eqb (stream_flag c) 0) then zip Rplus (velocity c g) (v_adv l) else velocity c g.

(** Force on the flux along axis n: opacity times the flux in the frame of the gas, F - (4/3) v E / vmax. *)
Definition slip (c : config) (v : triple) (s e1 : R) (f1 ax : triple) : R := s * (dot f1 ax - 4 / 3 * dot v ax * e1 / vmax c).
(** Backward Euler for dF/dt = -vmax sigma (F - (4/3) v E/vmax), dE/dt = -vtot . sigma (F - (4/3) v E/vmax): the opacities, the axes and the velocities fixed, everything else at the new time.  With a field
    only the parallel axis works here; the perpendicular work [q] is explicit. *)
Definition backward_euler (c : config) (dt : R) (l : cell) (s : triple) (v vt : triple) (e0 : R) (f0 : triple) (e1 : R) (f1 : triple) : Prop :=
  let ax := axis (magnetic c) (b_angle l) in
  let e1' := if magnetic c then e1 - dt * ec_source l else e1 in
  (forall n, (1 <= n <= 3)%nat -> dot f1 (ax n) - dot f0 (ax n) = - dt * vmax c * slip c v (nth3 n s) e1' f1 (ax n)) /\
  e1' - e0 = - dt * (dot vt (ax 1%nat) * slip c v (nth3 1 s) e1' f1 (ax 1%nat) +
    (if magnetic c then 0 else dot vt (ax 2%nat) * slip c v (nth3 2 s) e1' f1 (ax 2%nat) + dot vt (ax 3%nat) * slip c v (nth3 3 s) e1' f1 (ax 3%nat))).

(** Velocities well below the limiting speed. *)
Definition slow (c : config) (l : cell) (v vt : triple) : Prop :=
  let ax := axis (magnetic c) (b_angle l) in let w n := Rabs (dot vt (ax n) * dot v (ax n)) in
  (if magnetic c then w 1%nat else w 1%nat + w 2%nat + w 3%nat) < 3 / 4 * (vmax c * vmax c).
Definition nonneg (s : triple) : Prop := let '(a, b, c) := s in 0 <= a /\ 0 <= b /\ 0 <= c.
Definition admissible (c : config) (dt : R) (l : cell) (g : gas) : Prop :=
  0 <= dt /\ 0 < vmax c /\ 0 < rho_floor c /\ nonneg (sigma_diff l) /\ nonneg (sigma_adv l) /\ (magnetic c = true -> unit_angles (b_angle l)) /\ slow c l (velocity c g) (working c l g).
(** Opacity when scattering by waves and by other means act together: mean free paths add. *)
Definition combined (a b s : R) : Prop := (a = 0 \/ b = 0 -> s = 0) /\ (a <> 0 -> b <> 0 -> s * (a + b) = a * b).
Definition opacity (c : config) (l : cell) (s : triple) : Prop :=
  if negb (Z.eqb (stream_flag c) 0) then forall n, combined (nth3 n (sigma_diff l)) (nth3 n (sigma_adv l)) (nth3 n s) else s = sigma_diff l.

(** Fluxes: E moves with vmax F, F_i with vmax E/3 along its own direction (isotropic pressure E/3). *)
Definition physical (fdir : nat) (vm : R) (e : R) (f : triple) : R * triple :=
  (vm * nth3 fdir f, match fdir with 1%nat => (vm * e / 3, 0, 0) | 2%nat => (0, vm * e / 3, 0) | _ => (0, 0, vm * e / 3) end).
Definition comp (n : nat) (u : R * triple) : R := match n with 0%nat => fst u | _ => nth3 n (snd u) end.
(** The two-speed flux of Harten, Lax and van Leer with speeds bm <= 0 <= bp. *)
Definition hll (bp bm fl fr ul ur : R) : R := (bp * fl - bm * fr + bp * bm * (ur - ul)) / (bp - bm).
Definition mirror (fdir : nat) (s : side) : side :=
  let '(a, b, c) := sF s in mkSide (sE s) (match fdir with 1%nat => (- a, b, c) | 2%nat => (a, - b, c) | _ => (a, b, - c) end) (- sv s) (sd s).

(** A uniform, isotropic population at rest: energy e everywhere, no flux, pressure e/3. *)
Definition uniform_fluxes (vm e : R) (f : fluxes) : Prop := forall n k j i,
  fx1 f n k j i = comp n (physical 1 vm e (0, 0, 0)) /\ fx2 f n k j i = comp n (physical 2 vm e (0, 0, 0)) /\ fx3 f n k j i = comp n (physical 3 vm e (0, 0, 0)).
(** Signal speeds to the right and to the left of a face: advection plus or minus the diffusion speed (mean of the two sides, or the side itself), never more than vmax/sqrt 3, never of the wrong sign. *)
Definition fastest_right (vm : R) (l r : side) : R := Rmax 0 (Rmin (vm * sqrt (1 / 3)) (Rmax ((sv l + sv r) / 2 + (sd l + sd r) / 2) (sv r + sd r))).
Definition fastest_left (vm : R) (l r : side) : R := Rmin 0 (Rmax (- (vm * sqrt (1 / 3))) (Rmin ((sv l + sv r) / 2 - (sd l + sd r) / 2) (sv l - sd l))).
