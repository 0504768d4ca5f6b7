(** The LLF and HLLE Riemann solvers of special-relativistic hydrodynamics, src/hydro/rsolvers/hydro/llf_rel.cpp and hlle_rel.cpp without general relativity: exact arithmetic, one face.
    The components of the states are those normal to the face (u1) and along it (u2, u3). *)
From Coq Require Import Reals Bool.
From Verif Require Import Time_Model Sr_Model.
Local Open Scope R_scope.

(** hlle_rel.cpp 151-152, 170; llf_rel.cpp 152, 158. *)
Definition wgas (g : R) (w : prim) : R := rho w + g / (g - 1) * pgas w.
(** hlle_rel.cpp 168-178; llf_rel.cpp 150-160: lambda_p, lambda_m. *)
Definition lambdas (g : R) (w : prim) : R * R := SoundSpeedsSR g (wgas g w) (pgas w) (u1 w / lorentz w) (lorentz w * lorentz w).
(** hlle_rel.cpp 181-182; llf_rel.cpp 163-164. *)
Definition lambda_l (g : R) (wl wr : prim) : R := Rmin (snd (lambdas g wl)) (snd (lambdas g wr)).
Definition lambda_r (g : R) (wl wr : prim) : R := Rmax (fst (lambdas g wl)) (fst (lambdas g wr)).
(** hlle_rel.cpp 185-190, 201-206; llf_rel.cpp 168-173, 184-189. *)
Definition cons_of (g : R) (w : prim) : cons :=
  let u0 := lorentz w in
  {| DD := rho w * u0; EE := wgas g w * u0 * u0 - pgas w; MM1 := wgas g w * u1 w * u0; MM2 := wgas g w * u2 w * u0; MM3 := wgas g w * u3 w * u0 |}.
(** hlle_rel.cpp 193-198, 209-214; llf_rel.cpp 176-181, 192-197. *)
Definition flux_of (g : R) (w : prim) : cons :=
  let u0 := lorentz w in
  {| DD := rho w * u1 w; EE := wgas g w * u0 * u1 w; MM1 := wgas g w * u1 w * u1 w + pgas w; MM2 := wgas g w * u2 w * u1 w; MM3 := wgas g w * u3 w * u1 w |}.
Definition each (f : R -> R -> R -> R -> R) (a b c d : cons) : cons :=
  {| DD := f (DD a) (DD b) (DD c) (DD d); EE := f (EE a) (EE b) (EE c) (EE d); MM1 := f (MM1 a) (MM1 b) (MM1 c) (MM1 d); MM2 := f (MM2 a) (MM2 b) (MM2 c) (MM2 d); MM3 := f (MM3 a) (MM3 b) (MM3 c) (MM3 d) |}.
(** llf_rel.cpp 165, 206-209. *)
Definition LLF_SR (g : R) (wl wr : prim) : cons :=
  let lambda := Rmax (lambda_r g wl wr) (- lambda_l g wl wr) in
  each (fun fl fr ul ur => 1/2 * (fl + fr - lambda * (ur - ul))) (flux_of g wl) (flux_of g wr) (cons_of g wl) (cons_of g wr).
(** hlle_rel.cpp 224, 234-239, 248-270: the face does not move. *)
Definition HLLE_SR (g : R) (wl wr : prim) : cons :=
  let ll := lambda_l g wl wr in let lr := lambda_r g wl wr in
  let lambda_diff_inv := 1 / (lr - ll) in
  let flux_hll := each (fun fl fr ul ur => (lr * fl - ll * fr + ll * lr * (ur - ul)) * lambda_diff_inv) (flux_of g wl) (flux_of g wr) (cons_of g wl) (cons_of g wr) in
  if leR 0 ll then flux_of g wl else if leR lr 0 then flux_of g wr else flux_hll.
