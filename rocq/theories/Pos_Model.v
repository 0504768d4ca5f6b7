(** One explicit stage of the first-order scheme (xorder = 1, LLF fluxes) on a uniform Cartesian block: donor cell states, fluxes in each active direction, flux divergence; and passive scalars carried with the mass flux.
    Sources: src/hydro/calculate_fluxes.cpp 40-260 (which faces), src/reconstruct/dc.cpp, src/hydro/rsolvers/hydro/llf.cpp, src/hydro/add_flux_divergence.cpp, src/scalars/calculate_scalar_fluxes.cpp 399-417, src/task_list/time_integrator.cpp 323 (rk1: one stage of weight one). *)
From Coq Require Import Reals ZArith Bool.
From Verif Require Import Time_Model Fv_Model Eos_Model Rie_Model.
Local Open Scope R_scope.

(** coordinates.cpp 448-560: areas and volumes of a uniform grid (edge lengths play no part here). *)
Definition cart (dx dy dz : R) : geom :=
  mkG (fun _ _ _ => dy * dz) (fun _ _ _ => dx * dz) (fun _ _ _ => dx * dy) (fun _ _ _ => dx) (fun _ _ _ => dy) (fun _ _ _ => dz) (fun _ _ _ => dx * dy * dz).
(** The conserved variables of a cell (PrimitiveToConserved; Eos_Model.p2c, p2c_iso). *)
Definition conserved (e : eos) (w : prim) : cons :=
  mkU (w_d w) (w_vx w * w_d w) (w_vy w * w_d w) (w_vz w * w_d w) (if_energy e (en e w)).
(** dc.cpp 24-110: at face i the left state is cell i-1, the right state is cell i; calculate_fluxes.cpp 60-260 calls the solver with IVX, IVY, IVZ. *)
Definition cells := Z -> Z -> Z -> prim.
Definition flux1 (e : eos) (W : cells) (k j i : Z) : cons := store 0 (LLF e (load 0 (W k j (i - 1)%Z)) (load 0 (W k j i))).
Definition flux2 (e : eos) (W : cells) (k j i : Z) : cons := store 1 (LLF e (load 1 (W k (j - 1)%Z i)) (load 1 (W k j i))).
Definition flux3 (e : eos) (W : cells) (k j i : Z) : cons := store 2 (LLF e (load 2 (W (k - 1)%Z j i)) (load 2 (W k j i))).
(** One conserved variable [q] after the stage. *)
Definition stage_of (e : eos) (d : dims) (dx dy dz dt : R) (W : cells) (q : cons -> R) : arr :=
  AddFluxDivergence d (cart dx dy dz) (mkV (fun k j i => q (flux1 e W k j i)) (fun k j i => q (flux2 e W k j i)) (fun k j i => q (flux3 e W k j i))) dt
    (fun k j i => q (conserved e (W k j i))).
Definition stage (e : eos) (d : dims) (dx dy dz dt : R) (W : cells) (k j i : Z) : cons :=
  mkU (stage_of e d dx dy dz dt W u_d k j i) (stage_of e d dx dy dz dt W u_m1 k j i) (stage_of e d dx dy dz dt W u_m2 k j i)
      (stage_of e d dx dy dz dt W u_m3 k j i) (stage_of e d dx dy dz dt W u_e k j i).

(** calculate_scalar_fluxes.cpp 399-417: ComputeUpwindFlux, and its use with donor cell states. *)
Definition ComputeUpwindFlux (mass rl rr : R) : R := if leR 0 mass then mass * rl else mass * rr.
Definition sflux1 (e : eos) (W : cells) (r : arr) (k j i : Z) : R := ComputeUpwindFlux (u_d (flux1 e W k j i)) (r k j (i - 1)%Z) (r k j i).
Definition sflux2 (e : eos) (W : cells) (r : arr) (k j i : Z) : R := ComputeUpwindFlux (u_d (flux2 e W k j i)) (r k (j - 1)%Z i) (r k j i).
Definition sflux3 (e : eos) (W : cells) (r : arr) (k j i : Z) : R := ComputeUpwindFlux (u_d (flux3 e W k j i)) (r (k - 1)%Z j i) (r k j i).
(** scalars/add_flux_divergence (same loops): the scalar density s = r d. *)
Definition scalar_stage (e : eos) (d : dims) (dx dy dz dt : R) (W : cells) (r : arr) : arr :=
  AddFluxDivergence d (cart dx dy dz) (mkV (sflux1 e W r) (sflux2 e W r) (sflux3 e W r)) dt (fun k j i => r k j i * w_d (W k j i)).

(** new_blockdt.cpp 76-119: the signal speeds that divide the cell widths. *)
Definition speed (dir : nat) (e : eos) (w : prim) : R := Rabs (w_vx (load dir w)) + cs e w.

(** The same stage in one dimension with the HLLE solver (hlle.cpp). *)
Definition flux1_hlle (e : eos) (W : Z -> prim) (i : Z) : cons := HLLE e (W (i - 1)%Z) (W i).
Definition stage_hlle_of (e : eos) (is_ ie : Z) (dx dt : R) (W : Z -> prim) (q : cons -> R) (i : Z) : R :=
  AddFluxDivergence (mkD is_ ie 0 0 0 0 false false) (cart dx 1 1) (mkV (fun _ _ i => q (flux1_hlle e W i)) (fun _ _ _ => 0) (fun _ _ _ => 0)) dt (fun _ _ i => q (conserved e (W i))) 0%Z 0%Z i.
Definition stage_hlle (e : eos) (is_ ie : Z) (dx dt : R) (W : Z -> prim) (i : Z) : cons :=
  mkU (stage_hlle_of e is_ ie dx dt W u_d i) (stage_hlle_of e is_ ie dx dt W u_m1 i) (stage_hlle_of e is_ ie dx dt W u_m2 i) (stage_hlle_of e is_ ie dx dt W u_m3 i) (stage_hlle_of e is_ ie dx dt W u_e i).
