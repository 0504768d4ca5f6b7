(** What it means to be an explicit Runge-Kutta method of a given order; independent of the code. *)
From Coq Require Import List QArith Qreals Qabs Reals.
From Verif Require Import RK_Model.
Import ListNotations.

(** dot product of rational coefficients with real values (missing entries count as 0). *)
Fixpoint dotR (c : list Q) (b : list R) : R :=
  match c, b with x :: c, y :: b => (Q2R x * y + dotR c b)%R | _, _ => 0%R end.

(** [u'] is obtained from [u0] by an explicit s-stage Runge-Kutta method with matrix [A] and weights
    [b]: k_i = F (u0 + dt sum_{j<i} A_ij k_j), u' = u0 + dt sum_j b_j k_j.  Row i of A has i entries. *)
Definition explicit_rk {I : Type} (F : (I -> R) -> I -> R) (dt : R) (A : list (list Q)) (b : list Q)
    (u0 u' : I -> R) : Prop :=
  exists ks : list (I -> R),
    length ks = length A /\
    (forall i, (i < length A)%nat -> length (nth i A []) = i /\
       forall x, nth i ks u0 x = F (fun y => u0 y + dt * dotR (nth i A []) (map (fun k => k y) ks))%R x) /\
    length b = length A /\
    (forall x, u' x = u0 x + dt * dotR b (map (fun k => k x) ks))%R.

(** Same with small relative perturbations: the coefficient of u0 in stage i is [a0_i], and [b0] in
    the result (they should be 1; decimal truncation makes them differ slightly from 1). *)
Definition explicit_rk0 {I : Type} (F : (I -> R) -> I -> R) (dt : R) (a0 : list Q) (A : list (list Q))
    (b0 : Q) (b : list Q) (u0 u' : I -> R) : Prop :=
  exists ks : list (I -> R),
    length ks = length A /\ length a0 = length A /\
    (forall i, (i < length A)%nat -> length (nth i A []) = i /\
       forall x, nth i ks u0 x =
         F (fun y => Q2R (nth i a0 0%Q) * u0 y + dt * dotR (nth i A []) (map (fun k => k y) ks))%R x) /\
    length b = length A /\
    (forall x, u' x = Q2R b0 * u0 x + dt * dotR b (map (fun k => k x) ks))%R.

(** Butcher's order conditions, up to a tolerance. *)
Fixpoint dotQ (a b : list Q) : Q :=
  match a, b with x :: a, y :: b => (x * y + dotQ a b)%Q | _, _ => 0%Q end.
Definition sumQ (a : list Q) : Q := fold_right Qplus 0%Q a.
Definition mulQ (a b : list Q) : list Q := map (fun p => fst p * snd p)%Q (combine a b).
Definition matvec (A : list (list Q)) (v : list Q) : list Q := map (fun r => dotQ r v) A.
Definition near (eps x y : Q) : Prop := (Qabs (x - y) <= eps)%Q.

Definition order_conditions (p : nat) (eps : Q) (A : list (list Q)) (b : list Q) : Prop :=
  let c := map sumQ A in
  let c2 := mulQ c c in
  let Ac := matvec A c in
  near eps (sumQ b) 1 /\
  ((2 <= p)%nat -> near eps (dotQ b c) (1#2)) /\
  ((3 <= p)%nat -> near eps (dotQ b c2) (1#3) /\ near eps (dotQ b Ac) (1#6)) /\
  ((4 <= p)%nat -> near eps (dotQ b (mulQ c2 c)) (1#4) /\ near eps (dotQ b (mulQ c Ac)) (1#8) /\
                   near eps (dotQ b (matvec A c2)) (1#12) /\ near eps (dotQ b (matvec A Ac)) (1#24)).

(** Linear right-hand sides. *)
Definition linear {I : Type} (A : (I -> R) -> I -> R) : Prop :=
  forall a b f g x, A (fun y => a * f y + b * g y)%R x = (a * A f x + b * A g x)%R.
Fixpoint iterate {I : Type} (A : (I -> R) -> I -> R) (n : nat) (f : I -> R) : I -> R :=
  match n with O => f | S n => A (iterate A n f) end.
(** sum_{k<=p} dt^k/k! A^k f *)
Fixpoint taylor {I : Type} (A : (I -> R) -> I -> R) (dt : R) (p : nat) (f : I -> R) (x : I) : R :=
  match p with
  | O => f x
  | S q => (taylor A dt q f x + dt ^ p / INR (fact p) * iterate A p f x)%R
  end.
Fixpoint power_size {I : Type} (A : (I -> R) -> I -> R) (dt : R) (p : nat) (f : I -> R) (x : I) : R :=
  match p with
  | O => Rabs (f x)
  | S q => (power_size A dt q f x + Rabs (dt ^ p * iterate A p f x))%R
  end.

(** ** Vocabulary tied to the integrators *)
(** The order documented in the comments of time_integrator.cpp (vl2 second order, rkN order N, ssprk5_4
    fourth order). *)
Definition doc_order (i : integrator) : nat :=
  match i with vl2 => 2 | rk1 => 1 | rk2 => 2 | rk3 => 3 | rk4 => 4 | ssprk5_4 => 4 end.
(** 0 where the coefficients are exact, a few units of the 15th digit otherwise. *)
Definition tol (i : integrator) : Q :=
  match i with rk4 => 1 # 100000000000000 | ssprk5_4 => 1 # 100000000000000 | _ => 0 end.
Definition tol0 (i : integrator) : Q := match i with rk4 => 1 # 100000000000000 | _ => 0 end.

Definition top_coeff (i : integrator) : Q := match i with ssprk5_4 => 1#200 | _ => 0 end.
(** The degree-5 term of ssprk5_4 is not part of its order; it is bounded by [top_coeff]. *)
(** Sources vanish, and orbital advection is inactive. *)
Definition no_source {I} (S : R -> (I -> R) -> I -> R) : Prop := forall t f x, S t f x = 0%R.
Definition no_orbital {I} (ws : list wght) (O : R -> (I -> R) -> I -> R) : Prop :=
  forall w, In w ws -> orbital_stage w = true -> forall tau f, O tau f = f.

(** The clock: du/dt = 1 started from u = t. *)
Definition clock (i : integrator) (ws : list wght) (t dt : R) : R :=
  step i ws t dt (fun _ _ => 1%R) (fun _ _ _ => 0%R) (fun _ f => f) (fun _ : unit => t) (fun _ => 0%R) (fun _ => 0%R) tt.

