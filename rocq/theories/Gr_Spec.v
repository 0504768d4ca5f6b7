(** Tensors in four dimensions.  Nothing here depends on the code except the records that hold its numbers. *)
From Coq Require Import Reals ZArith.
From Verif Require Import Gr_Model.
Local Open Scope R_scope.
Definition sum4 (f : nat -> R) : R := f 0%nat + f 1%nat + f 2%nat + f 3%nat.
Definition delta_ (i j : nat) : R := if Nat.eqb i j then 1 else 0.
Definition eta (a b : nat) : R := if Nat.eqb a b then (if Nat.eqb a 0 then -1 else 1) else 0.
(** Two metrics are inverse to each other. *)
Definition inverse_metrics (g gi : met) : Prop := forall m n, (m < 4)%nat -> (n < 4)%nat -> sum4 (fun l => g m l * gi l n) = delta_ m n.
(** The Schwarzschild and the Kerr metric in Kerr-Schild coordinates as functions of the position (Schwarzschild 1916; Kerr 1963). *)
Definition Schwarzschild (m r th : R) : met := fun i j =>
  match i, j with 0%nat, 0%nat => - (1 - 2 * m / r) | 1%nat, 1%nat => / (1 - 2 * m / r) | 2%nat, 2%nat => r ^ 2 | 3%nat, 3%nat => r ^ 2 * sin th ^ 2 | _, _ => 0 end.
(** Kerr-Schild form: a flat metric plus 2 m r / Sigma times the square of the form l = dt + dr - a sin^2 th dphi. *)
Definition ks_flat (a r th : R) : met := fun i j =>
  match i, j with 0%nat, 0%nat => -1 | 1%nat, 1%nat => 1 | 1%nat, 3%nat | 3%nat, 1%nat => - a * sin th ^ 2 | 2%nat, 2%nat => r ^ 2 + a ^ 2 * cos th ^ 2 | 3%nat, 3%nat => (r ^ 2 + a ^ 2) * sin th ^ 2 | _, _ => 0 end.
Definition ks_form (a th : R) (i : nat) : R := match i with 0%nat => 1 | 1%nat => 1 | 3%nat => - a * sin th ^ 2 | _ => 0 end.
Definition Kerr (m a r th : R) : met := fun i j => ks_flat a r th i j + 2 * m * r / (r ^ 2 + a ^ 2 * cos th ^ 2) * ks_form a th i * ks_form a th j.
Definition same_metric (g h : met) : Prop := forall i j, (i < 4)%nat -> (j < 4)%nat -> g i j = h i j.

(** A frame: row a holds the components of the one-form of axis a (t, x, y, z) in the coordinate basis.  It is orthonormal if its metric is that of special relativity,
    is at rest with respect to the coordinate time slices if the one-form of t is a positive multiple of dt, and is adapted to a face across direction d if the one-form of x has no part along the other two directions. *)
Definition frame := nat -> nat -> R.
Definition orthonormal (M : frame) (g : met) : Prop := forall m n, (m < 4)%nat -> (n < 4)%nat -> sum4 (fun a => sum4 (fun b => eta a b * M a m * M b n)) = g m n.
Definition at_rest (M : frame) : Prop := 0 < M 0%nat 0%nat /\ M 0%nat 1%nat = 0 /\ M 0%nat 2%nat = 0 /\ M 0%nat 3%nat = 0.
Definition adapted (d : nat) (M : frame) : Prop := 0 < M 1%nat d /\ (forall j, (1 <= j < 4)%nat -> j <> d -> M 1%nat j = 0).
Definition local1 (M : frame) (v : nat -> R) (a : nat) : R := sum4 (fun m => M a m * v m).
Definition local2 (M : frame) (T : nat -> nat -> R) (a b : nat) : R := sum4 (fun m => sum4 (fun n => M a m * M b n * T m n)).

(** The four-velocity with projected components w (orthogonal to the time slices): gamma n + w, n the unit normal. *)
Definition lorentz (g : met) (w : nat -> R) : R := sqrt (1 + sum4 (fun m => sum4 (fun n => g m n * w m * w n))).
Definition normal (gi : met) (m : nat) : R := - gi 0%nat m / sqrt (- gi 0%nat 0%nat).
Definition velocity (g gi : met) (w : nat -> R) (m : nat) : R := lorentz g w * normal gi m + w m.
Definition projected (u1 u2 u3 : R) (m : nat) : R := match m with 1%nat => u1 | 2%nat => u2 | 3%nat => u3 | _ => 0 end.
(** The dual field tensor: antisymmetric, and B^i = F^{i0}. *)
Definition antisymmetric (F : nat -> nat -> R) : Prop := forall m n, F m n = - F n m.
Definition is_field (B : nat -> R) (F : nat -> nat -> R) : Prop := antisymmetric F /\ (forall i, (1 <= i < 4)%nat -> F i 0%nat = B i).

(** Slots: the axes x, y, z of the frame at a face across direction d are stored in the order of the directions d, d+1, d+2 (cyclic); B^y and B^z are stored after each other. *)
Definition slot_u (d : nat) (p : prim) : nat -> R := match d with 1%nat => projected (ivx p) (ivy p) (ivz p) | 2%nat => projected (ivy p) (ivz p) (ivx p) | _ => projected (ivz p) (ivx p) (ivy p) end.
Definition slot_b (p : prim) (bbx : R) : nat -> R := projected bbx (iby p) (ibz p).
(** Global primitives: velocities in the order of the directions; the normal field from the faces. *)
Definition global_u (p : prim) : nat -> R := projected (ivx p) (ivy p) (ivz p).
Definition global_b (d : nat) (p : prim) (bn : R) : nat -> R := match d with 1%nat => projected bn (iby p) (ibz p) | 2%nat => projected (ibz p) bn (iby p) | _ => projected (iby p) (ibz p) bn end.

(** A step to the local frame does what it should: there is a frame (the one used by the step back, too) such that the slots hold the components in the frame. *)
Definition to_local_right (d : nat) (g gi : met) (M : frame) (toLocal : R -> prim -> prim * R) : Prop :=
  forall bn p, let '(p', bx) := toLocal bn p in let u := velocity g gi (global_u p) in
    (forall a, (1 <= a < 4)%nat -> slot_u d p' a = local1 M u a) /\ local1 M u 0%nat = sqrt (1 + slot_u d p' 1%nat ^ 2 + slot_u d p' 2%nat ^ 2 + slot_u d p' 3%nat ^ 2)
    /\ (forall F, is_field (global_b d p bn) F -> forall a, (1 <= a < 4)%nat -> slot_b p' bx a = local2 M F a 0%nat).
Definition symmetric (T : nat -> nat -> R) : Prop := forall m n, T m n = T n m.
(** The slots of the conserved quantities and the fluxes of a current D, a stress-energy tensor T and a dual field tensor F given in the frame: row t, and row x. *)
Definition place3 (d : nat) (x y z : R) : R * R * R := match d with 1%nat => (x, y, z) | 2%nat => (z, x, y) | _ => (y, z, x) end.
Definition local_cons (d : nat) (D : nat -> R) (T F : nat -> nat -> R) : slots :=
  let '(a, b, c) := place3 d (T 0%nat 1%nat) (T 0%nat 2%nat) (T 0%nat 3%nat) in mkS (D 0%nat) (T 0%nat 0%nat) a b c (F 2%nat 0%nat) (F 3%nat 0%nat).
Definition local_flux (d : nat) (D : nat -> R) (T F : nat -> nat -> R) : slots :=
  let '(a, b, c) := place3 d (T 1%nat 1%nat) (T 1%nat 2%nat) (T 1%nat 3%nat) in mkS (D 1%nat) (T 1%nat 0%nat) a b c (- F 2%nat 1%nat) (F 3%nat 1%nat).
(** The fluxes across direction d in the coordinate basis: D^d, T^d_0, T^d_1, T^d_2, T^d_3 and the two fluxes of the other components of the field. *)
Definition next (d : nat) : nat := match d with 1%nat => 2%nat | 2%nat => 3%nat | _ => 1%nat end.
Definition global_flux (d : nat) (g : met) (D : nat -> R) (T F : nat -> nat -> R) : slots :=
  let low n := sum4 (fun l => g n l * T d l) in mkS (D d) (low 0%nat) (low 1%nat) (low 2%nat) (low 3%nat) (- F (next d) d) (F (next (next d)) d).
Definition to_global_right (d : nat) (g : met) (M : frame) (toGlobal : R -> slots -> slots -> slots) : Prop :=
  forall D T F, symmetric T -> antisymmetric F ->
    toGlobal (local2 M F 1%nat 0%nat) (local_cons d (local1 M D) (local2 M T) (local2 M F)) (local_flux d (local1 M D) (local2 M T) (local2 M F)) = global_flux d g D T F.
(** A face is treated right. *)
Definition face_right (d : nat) (g gi : met) (toLocal : R -> prim -> prim * R) (toGlobal : R -> slots -> slots -> slots) : Prop :=
  exists M, orthonormal M g /\ at_rest M /\ adapted d M /\ to_local_right d g gi M toLocal /\ to_global_right d g M toGlobal.

(** w holds the components of v with the index moved by g. *)
Definition comp (v : four) (n : nat) : R := let '(v0, v1, v2, v3) := v in match n with 0%nat => v0 | 1%nat => v1 | 2%nat => v2 | _ => v3 end.
Definition lowered (g : met) (v w : four) : Prop := forall n, (n < 4)%nat -> comp w n = sum4 (fun l => g n l * comp v l).
(** The magnetic four-vector of a fluid with velocity u in the field B: orthogonal to u, with b^i u^0 - b^0 u^i = B^i. *)
Definition is_fluid_field (g : met) (u B b : nat -> R) : Prop := sum4 (fun m => sum4 (fun n => g m n * b m * u n)) = 0 /\ (forall i, (1 <= i < 4)%nat -> b i * u 0%nat - b 0%nat * u i = B i).

(** The stress-energy tensor of an ideal gas with a field. *)
Definition stress (gamma_adi : R) (gi g : met) (rho p : R) (u b : nat -> R) (m n : nat) : R :=
  let b2 := sum4 (fun i => sum4 (fun j => g i j * b i * b j)) in
  (rho + gamma_adi / (gamma_adi - 1) * p + b2) * u m * u n + (p + b2 / 2) * gi m n - b m * b n.
(** Source of the momentum along direction d: half the derivative of the metric along d, contracted with the stress-energy tensor. *)
Definition geometric (dg : met) (T : nat -> nat -> R) : R := / 2 * sum4 (fun m => sum4 (fun n => dg m n * T m n)).
Definition derivative_r (g : R -> R -> met) (r th : R) (dg : met) : Prop := forall m n, (m < 4)%nat -> (n < 4)%nat -> derivable_pt_lim (fun x => g x th m n) r (dg m n).
Definition derivative_th (g : R -> R -> met) (r th : R) (dg : met) : Prop := forall m n, (m < 4)%nat -> (n < 4)%nat -> derivable_pt_lim (fun x => g r x m n) th (dg m n).
(** Determinant, by the first row. *)
Definition det3 (a b c d e f g h i : R) : R := a * (e * i - f * h) - b * (d * i - f * g) + c * (d * h - e * g).
Definition det4 (g : met) : R :=
  g 0%nat 0%nat * det3 (g 1%nat 1%nat) (g 1%nat 2%nat) (g 1%nat 3%nat) (g 2%nat 1%nat) (g 2%nat 2%nat) (g 2%nat 3%nat) (g 3%nat 1%nat) (g 3%nat 2%nat) (g 3%nat 3%nat)
  - g 0%nat 1%nat * det3 (g 1%nat 0%nat) (g 1%nat 2%nat) (g 1%nat 3%nat) (g 2%nat 0%nat) (g 2%nat 2%nat) (g 2%nat 3%nat) (g 3%nat 0%nat) (g 3%nat 2%nat) (g 3%nat 3%nat)
  + g 0%nat 2%nat * det3 (g 1%nat 0%nat) (g 1%nat 1%nat) (g 1%nat 3%nat) (g 2%nat 0%nat) (g 2%nat 1%nat) (g 2%nat 3%nat) (g 3%nat 0%nat) (g 3%nat 1%nat) (g 3%nat 3%nat)
  - g 0%nat 3%nat * det3 (g 1%nat 0%nat) (g 1%nat 1%nat) (g 1%nat 2%nat) (g 2%nat 0%nat) (g 2%nat 1%nat) (g 2%nat 2%nat) (g 3%nat 0%nat) (g 3%nat 1%nat) (g 3%nat 2%nat).
(** The step to the frame at a polar face with the normal components of velocity and field multiplied by k. *)
Definition rescaled (k : R) (toLocal : R -> prim -> prim * R) (bn : R) (p : prim) : prim * R := let '(p', bx) := toLocal bn p in (mkP (ivx p') (k * ivy p') (ivz p') (iby p') (ibz p'), k * bx).
