(** Fluxes of a relativistic ideal gas. *)
From Coq Require Import Reals.
From Verif Require Import Sr_Model Sr_Spec.
Local Open Scope R_scope.
(** A gas with positive density and pressure. *)
Definition gas_ok (w : prim) : Prop := 0 < rho w /\ 0 < pgas w.
(** The flux of the densities c of a gas with pressure p that moves with velocity v normal to the face. *)
Definition carried (c : cons) (v p : R) : cons :=
  {| DD := DD c * v; EE := MM1 c; MM1 := MM1 c * v + p; MM2 := MM2 c * v; MM3 := MM3 c * v |}.
(** The conserved densities of the gas w. *)
Definition densities (g : R) (c : cons) (w : prim) : Prop := describes g (DD c) (EE c) (MM1 c) (MM2 c) (MM3 c) (rho w) (pgas w) (u1 w) (u2 w) (u3 w).
Definition velocity (w : prim) : R := u1 w / lfac (u1 w) (u2 w) (u3 w).
(** Densities that some gas slower than light can have: more energy than the rest mass with its momentum has. *)
Definition admissible (c : cons) : Prop := 0 < DD c /\ sqrt (DD c ^ 2 + (MM1 c ^ 2 + MM2 c ^ 2 + MM3 c ^ 2)) < EE c.
Definition mirror (w : prim) : prim := {| rho := rho w; pgas := pgas w; u1 := - u1 w; u2 := u2 w; u3 := u3 w |}.
Definition mirror_flux (f : cons) : cons := {| DD := - DD f; EE := - EE f; MM1 := MM1 f; MM2 := - MM2 f; MM3 := - MM3 f |}.
(** f is the flux between waves of speeds a and b that separate l (densities ul, flux fl) from c and c from r. *)
Definition across (s : R) (f u f' u' : R) : Prop := f - f' = s * (u - u').
Definition jump (s : R) (f u f' u' : cons) : Prop :=
  across s (DD f) (DD u) (DD f') (DD u') /\ across s (EE f) (EE u) (EE f') (EE u') /\ across s (MM1 f) (MM1 u) (MM1 f') (MM1 u') /\ across s (MM2 f) (MM2 u) (MM2 f') (MM2 u') /\ across s (MM3 f) (MM3 u) (MM3 f') (MM3 u').
