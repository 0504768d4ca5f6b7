(** The physical fluxes of a gas, mirror images, and what a flux function has to do with them. *)
From Coq Require Import Reals.
From Verif Require Import Eos_Model Rie_Model.
Local Open Scope R_scope.

Definition good_eos (e : eos) : Prop := match e with Adi g => 1 < g | Iso c => 0 < c end.
Definition good (e : eos) (w : prim) : Prop := 0 < w_d w /\ match e with Adi _ => 0 < w_p w | Iso _ => True end.
(** Pressure and total energy density. *)
Definition P (e : eos) (w : prim) : R := match e with Adi _ => w_p w | Iso c => c ^ 2 * w_d w end.
Definition E (e : eos) (w : prim) : R := match e with Adi g => w_p w / (g - 1) + w_d w * (w_vx w ^ 2 + w_vy w ^ 2 + w_vz w ^ 2) / 2 | Iso _ => 0 end.
Definition physical (e : eos) (w : prim) : cons :=
  mkU (w_d w * w_vx w) (w_d w * w_vx w ^ 2 + P e w) (w_d w * w_vx w * w_vy w) (w_d w * w_vx w * w_vz w)
      (match e with Adi _ => (E e w + P e w) * w_vx w | Iso _ => 0 end).
(** With magnetic field (bx, by, bz) in units with B^2/2 the energy. *)
Definition mP (e : eos) (bx : R) (m : mprim) : R := P e (gas m) + (bx ^ 2 + m_by m ^ 2 + m_bz m ^ 2) / 2.
Definition vdotb (bx : R) (m : mprim) : R := w_vx (gas m) * bx + w_vy (gas m) * m_by m + w_vz (gas m) * m_bz m.
Definition physical_mhd (e : eos) (bx : R) (m : mprim) : mcons :=
  let w := gas m in
  mkMU (mkU (w_d w * w_vx w) (w_d w * w_vx w ^ 2 + mP e bx m - bx ^ 2) (w_d w * w_vx w * w_vy w - bx * m_by m) (w_d w * w_vx w * w_vz w - bx * m_bz m)
            (match e with Adi _ => (E e w + (bx ^ 2 + m_by m ^ 2 + m_bz m ^ 2) / 2 + mP e bx m) * w_vx w - bx * vdotb bx m | Iso _ => 0 end))
       (m_by m * w_vx w - bx * w_vy w) (m_bz m * w_vx w - bx * w_vz w).
(** The image in a mirror parallel to the face. *)
Definition mirror (w : prim) : prim := mkW (w_d w) (- w_vx w) (w_vy w) (w_vz w) (w_p w).
Definition mirror_flux (f : cons) : cons := mkU (- u_d f) (u_m1 f) (- u_m2 f) (- u_m3 f) (- u_e f).
Definition mmirror (m : mprim) : mprim := mkMW (mirror (gas m)) (m_by m) (m_bz m).
Definition mmirror_flux (f : mcons) : mcons := mkMU (mirror_flux (gasf f)) (- f_by f) (- f_bz f).
(** The flux through faces normal to direction [dir] (0, 1, 2). *)
Definition vel (dir : nat) (w : prim) : R := match dir with O => w_vx w | S O => w_vy w | _ => w_vz w end.
Definition physical_dir (dir : nat) (e : eos) (w : prim) : cons :=
  let mom k := w_d w * vel k w * vel dir w + (if Nat.eqb k dir then P e w else 0) in
  mkU (w_d w * vel dir w) (mom 0%nat) (mom 1%nat) (mom 2%nat) (match e with Adi _ => (E e w + P e w) * vel dir w | Iso _ => 0 end).
(** All signals of a flow move to the right: every state's slow sound wave. *)
Definition supersonic (e : eos) (w : prim) : Prop := match e with Adi g => w_d w * w_vx w ^ 2 > g * w_p w /\ w_vx w > 0 | Iso c => w_vx w > c end.
(** The pressure behind a wave of speed [s] that brings the gas [w] to velocity [v]: mass and momentum jump conditions. *)
Definition behind (s v : R) (w : prim) : R := w_p w + w_d w * (w_vx w - s) * (w_vx w - v).
(** The waves of the linearised gas equations about a mean state (velocity w_vx, w_vy, w_vz, specific enthalpy in w_p, sound speed c): speeds and jumps of the conserved variables. *)
Definition wave_speed (c : R) (w : prim) (n : nat) : R := match n with O => w_vx w - c | 4%nat => w_vx w + c | _ => w_vx w end.
Definition wave_jump (e : eos) (c : R) (w : prim) (n : nat) : cons :=
  let en x := match e with Adi _ => x | Iso _ => 0 end in
  match n with
  | O => mkU 1 (w_vx w - c) (w_vy w) (w_vz w) (en (w_p w - w_vx w * c))
  | 1%nat => mkU 0 0 1 0 (en (w_vy w))
  | 2%nat => mkU 0 0 0 1 (en (w_vz w))
  | 3%nat => mkU 1 (w_vx w) (w_vy w) (w_vz w) (en ((w_vx w ^ 2 + w_vy w ^ 2 + w_vz w ^ 2) / 2))
  | _ => mkU 1 (w_vx w + c) (w_vy w) (w_vz w) (en (w_p w + w_vx w * c))
  end.
(** [x] = sum over the five waves of f n times the jump of wave n, in every conserved variable. *)
Definition is_sum (e : eos) (c : R) (w : prim) (f : nat -> R) (x : cons) : Prop :=
  forall q, q = u_d \/ q = u_m1 \/ q = u_m2 \/ q = u_m3 \/ q = u_e ->
  q x = f 0%nat * q (wave_jump e c w 0) + f 1%nat * q (wave_jump e c w 1) + f 2%nat * q (wave_jump e c w 2) + f 3%nat * q (wave_jump e c w 3) + f 4%nat * q (wave_jump e c w 4).
(** The flux of a conserved state of total pressure [pt] with normal field [bx] (density, momenta, energy, transverse fields). *)
Definition flux_of (bx pt : R) (u : mcons) : mcons :=
  let d := u_d (gasf u) in let vx := u_m1 (gasf u) / d in let vy := u_m2 (gasf u) / d in let vz := u_m3 (gasf u) / d in
  mkMU (mkU (d * vx) (d * vx ^ 2 + pt - bx ^ 2) (d * vx * vy - bx * f_by u) (d * vx * vz - bx * f_bz u)
            ((u_e (gasf u) + pt) * vx - bx * (vx * bx + vy * f_by u + vz * f_bz u)))
       (f_by u * vx - bx * vy) (f_bz u * vx - bx * vz).
(** The jump conditions across a discontinuity of speed [s]: f2 - f1 = s (u2 - u1). *)
Definition jump (s : R) (f1 u1 f2 u2 : mcons) : Prop :=
  forall q, q = (fun x => u_d (gasf x)) \/ q = (fun x => u_m1 (gasf x)) \/ q = (fun x => u_m2 (gasf x)) \/ q = (fun x => u_m3 (gasf x)) \/ q = (fun x => u_e (gasf x)) \/ q = f_by \/ q = f_bz ->
  q f2 - q f1 = s * (q u2 - q u1).
