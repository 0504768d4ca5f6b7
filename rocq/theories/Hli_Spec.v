(** Small specification for C94; physical_mhd, jump, good, mmirror: Rie_Spec. *)
From Coq Require Import Reals.
From Verif Require Import Eos_Model Rie_Model Rie_Spec.
Local Open Scope R_scope.

(** The conserved variables of isothermal gas (no energy). *)
Definition conserved (m : mprim) : mcons :=
  let w := gas m in mkMU (mkU (w_d w) (w_d w * w_vx w) (w_d w * w_vy w) (w_d w * w_vz w) 0) (m_by m) (m_bz m).
(** The flux inside the fan: transverse momentum and field move with the velocity v in gas of density d; fm is the flux of normal momentum. *)
Definition fan_flux (bx d v fm : R) (u : mcons) : mcons :=
  mkMU (mkU (d * v) fm (u_m2 (gasf u) * v - bx * f_by u) (u_m3 (gasf u) * v - bx * f_bz u) 0)
       (f_by u * v - bx * (u_m2 (gasf u) / d)) (f_bz u * v - bx * (u_m3 (gasf u) / d)).
(** An Alfven wave (rotational discontinuity) of speed s between two states: the transverse field turns, density, normal velocity and field strength stay; dir is 1 for a wave that moves to the right through the gas, -1 to the left. *)
Definition alfven_wave (bx dir s : R) (ml mr : mprim) : Prop :=
  (dir = 1 \/ dir = -1) /\ bx <> 0 /\ w_d (gas mr) = w_d (gas ml) /\ w_vx (gas mr) = w_vx (gas ml) /\ m_by mr ^ 2 + m_bz mr ^ 2 = m_by ml ^ 2 + m_bz ml ^ 2 /\
  s = w_vx (gas ml) + dir * (Rabs bx / sqrt (w_d (gas ml))) /\
  Rabs bx * sqrt (w_d (gas ml)) * (w_vy (gas mr) - w_vy (gas ml)) = - dir * bx * (m_by mr - m_by ml) /\
  Rabs bx * sqrt (w_d (gas ml)) * (w_vz (gas mr) - w_vz (gas ml)) = - dir * bx * (m_bz mr - m_bz ml).
