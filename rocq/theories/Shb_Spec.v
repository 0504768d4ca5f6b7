(** Small specification for C92; displaced, reconstructed and periodic: Orb_Spec. *)
From Coq Require Import Reals ZArith List.
From Verif Require Import Fv_Model Fv_Spec Orb_Spec Shb_Model.
Local Open Scope R_scope.

(** A mesh accepted at start: bvals.cpp 213 and enough ghost zones for the reconstruction. *)
Definition accepted (m : box) : Prop := (Orb_Model.xgh (ppm m) <= NGHOST m)%Z /\ (NGHOST m + Orb_Model.xgh (ppm m) <= nx2 m)%Z /\ (0 < nblx2 m)%Z /\ 0 < x2size m.
(** The values of all blocks along the boundary as one periodic line; cell x counts from the lower end of the domain. *)
Definition along (m : box) (u : Z -> Z -> R) (x : Z) : R := u ((x / nx2 m) mod nblx2 m)%Z (js m + x mod nx2 m)%Z.
(** The cell of that line with index j in block b. *)
Definition cell (m : box) (b j : Z) : Z := (b * nx2 m + (j - js m))%Z.
(** The sum over all cells of all blocks along the boundary. *)
Definition boundary_total (m : box) (u : Z -> Z -> R) : R := sum (map (fun b => sum (map (u b) (upto (js m) (js m + nx2 m - 1)))) (upto 0 (nblx2 m - 1))).
