(** What a super-time-step is: independent of the code. *)
From Coq Require Import Reals ZArith List Bool.
From Verif Require Import RK_Spec Sts_Model.
Import ListNotations.
Local Open Scope R_scope.

(** A two-term recurrence y_0, y_1, y_(n+2) = f (n+2) y_(n+1) y_n: the pair (y_n, y_(n+1)). *)
Fixpoint seq2 {A} (a0 a1 : A) (f : nat -> A -> A -> A) (n : nat) : A * A :=
  match n with O => (a0, a1) | S n => let p := seq2 a0 a1 f n in (snd p, f (S (S n)) (snd p) (fst p)) end.
Definition nth2 {A} (a0 a1 : A) f n : A := fst (seq2 a0 a1 f n).

(** Legendre polynomials: P_0 = 1, P_1 = x, n P_n = (2n-1) x P_(n-1) - (n-1) P_(n-2). *)
Definition legendre (x : R) (n : nat) : R :=
  nth2 1 x (fun n p q => ((2 * INR n - 1) * x * p - (INR n - 1) * q) / INR n) n.

(** Meyer, Balsara and Aslam (2014): the stages Y_0 .. Y_s of RKL1 and RKL2 for y' = F y over a step tau. *)
Definition w1_of (sc : scheme) (s : nat) : R := match sc with rkl1 => 2 / (INR s * INR s + INR s) | rkl2 => 4 / (INR s * INR s + INR s - 2) end.
Definition b_of (j : nat) : R := if Nat.leb j 2 then 1 / 3 else (INR j * INR j + INR j - 2) / (2 * INR j * (INR j + 1)).
Definition RKL1 {I} (F : (I -> R) -> I -> R) (tau : R) (s : nat) (v : I -> R) (j : nat) : I -> R :=
  let w := w1_of rkl1 s in
  nth2 v (fun x => v x + w * tau * F v x)
    (fun j p q x => (2 * INR j - 1) / INR j * p x + (1 - INR j) / INR j * q x + (2 * INR j - 1) / INR j * w * tau * F p x) j.
Definition RKL2 {I} (F : (I -> R) -> I -> R) (tau : R) (s : nat) (v : I -> R) (j : nat) : I -> R :=
  let w := w1_of rkl2 s in
  nth2 v (fun x => v x + b_of 1 * w * tau * F v x)
    (fun j p q x =>
       let mu := (2 * INR j - 1) / INR j * b_of j / b_of (j - 1) in
       let nu := - ((INR j - 1) / INR j) * b_of j / b_of (j - 2) in
       mu * p x + nu * q x + (1 - mu - nu) * v x + mu * w * tau * F p x - (1 - b_of (j - 1)) * (mu * w) * tau * F v x) j.
Definition RKL (sc : scheme) {I} (F : (I -> R) -> I -> R) (tau : R) (s : nat) (v : I -> R) : I -> R :=
  match sc with rkl1 => RKL1 F tau s v s | rkl2 => RKL2 F tau s v s end.

(** The step one sweep takes: the whole step for RKL1, half of it for RKL2 (which sweeps twice). *)
Definition step_of (sc : scheme) (dt : R) : R := match sc with rkl1 => dt | rkl2 => dt / 2 end.
Definition least_stages (sc : scheme) : nat := match sc with rkl1 => 1 | rkl2 => 2 end.
(** Only the entries of [sub] are diffused. *)
Definition only {I} (sub : I -> bool) (F : (I -> R) -> I -> R) : (I -> R) -> I -> R := fun y x => if sub x then F y x else 0.
(** The register of entries that are not diffused keeps the zeros of its allocation. *)
Definition allocated {I} (sub : I -> bool) (r : regs I) : Prop := forall x, sub x = false -> fl_div r x = 0.
(** The order of accuracy documented: RKL1 first, RKL2 second. *)
Definition sts_order (sc : scheme) : nat := match sc with rkl1 => 1 | rkl2 => 2 end.
Definition extensional {I} (F : (I -> R) -> I -> R) : Prop := forall f g, (forall x, f x = g x) -> forall x, F f x = F g x.
(** Super-step stability limit in units of the explicit parabolic step. *)
Definition stable_ratio (sc : scheme) (s : Z) : R := match sc with rkl1 => (IZR s * IZR s + IZR s) / 2 | rkl2 => (IZR s * IZR s + IZR s - 2) / 4 end.
(** Weighted total over a list of entries. *)
Definition total {I} (vol : I -> R) (cells : list I) (v : I -> R) : R := fold_right (fun x a => vol x * v x + a) 0 cells.
