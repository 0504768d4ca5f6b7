(** The HLLC Riemann solver of special-relativistic hydrodynamics, src/hydro/rsolvers/hydro/hllc_rel.cpp without general relativity: exact arithmetic, one face.  Speeds, densities and fluxes of the two sides (133-224) are those of hlle_rel.cpp; T is TINY_NUMBER. *)
From Coq Require Import Reals Bool.
From Verif Require Import Time_Model Sr_Model Srr_Model.
Local Open Scope R_scope.

(** hllc_rel.cpp 226-239. *)
Definition cons_hll (g : R) (wl wr : prim) : cons :=
  let ll := lambda_l g wl wr in let lr := lambda_r g wl wr in
  each (fun fl fr ul ur => (lr * ur - ll * ul + fl - fr) * (1 / (lr - ll))) (flux_of g wl) (flux_of g wr) (cons_of g wl) (cons_of g wr).
Definition flux_hll (g : R) (wl wr : prim) : cons :=
  let ll := lambda_l g wl wr in let lr := lambda_r g wl wr in
  each (fun fl fr ul ur => (lr * fl - ll * fr + ll * lr * (ur - ul)) * (1 / (lr - ll))) (flux_of g wl) (flux_of g wr) (cons_of g wl) (cons_of g wr).
(** hllc_rel.cpp 242-251. *)
Definition lambda_star (T g : R) (wl wr : prim) : R :=
  let u := cons_hll g wl wr in let f := flux_hll g wl wr in
  let b := - (EE u + MM1 f) in
  if ltR T (Rabs (EE f)) then - 2 * MM1 u / (b - sqrt (b * b - 4 * EE f * MM1 u)) else - MM1 u / b.
(** hllc_rel.cpp 255. *)
Definition pgas_star (T g : R) (wl wr : prim) : R := - EE (flux_hll g wl wr) * lambda_star T g wl wr + MM1 (flux_hll g wl wr).
(** hllc_rel.cpp 258-269, 278-289: densities behind the wave of speed s, next to the state w. *)
Definition cons_star (g s ls ps : R) (w : prim) : cons :=
  let v := u1 w / lorentz w in let c := cons_of g w in let inv := 1 / (s - ls) in
  {| DD := DD c * (s - v) * inv; EE := (EE c * (s - v) + (ps * ls - pgas w * v)) * inv; MM1 := (MM1 c * (s - v) + (ps - pgas w)) * inv; MM2 := MM2 c * (s - v) * inv; MM3 := MM3 c * (s - v) * inv |}.
(** hllc_rel.cpp 272-275, 292-295. *)
Definition flux_star (g s ls ps : R) (w : prim) : cons :=
  each (fun f us u _ => f + s * (us - u)) (flux_of g w) (cons_star g s ls ps w) (cons_of g w) (cons_of g w).
(** hllc_rel.cpp 304-326: the face does not move. *)
Definition HLLC_SR (T g : R) (wl wr : prim) : cons :=
  let ll := lambda_l g wl wr in let lr := lambda_r g wl wr in let ls := lambda_star T g wl wr in let ps := pgas_star T g wl wr in
  if leR 0 ll then flux_of g wl else if leR lr 0 then flux_of g wr else if leR 0 ls then flux_star g ll ls ps wl else flux_star g lr ls ps wr.
