(** Cosmic-ray module, exact arithmetic, one cell or one face at a time: src/cr/cr.cpp, src/cr/integrators/cr_source.cpp, cr_flux.cpp, cr_transport.cpp, and the cosmic-ray terms of
    src/coordinates/cylindrical.cpp and spherical_polar.cpp.  Reconstruction, the user-defined source, opacity and streaming functions and the relativistic coordinates are not modelled. *)
From Coq Require Import Reals ZArith Bool.
From Verif Require Import Fv_Model Met_Model Lud_Model.
Local Open Scope R_scope.

(** athena.hpp: TINY_NUMBER = 1.0e-20. *)
Definition TINY : R := / 10 ^ 20.
Notation triple := (R * R * R)%type.
Definition lt (a b : R) : bool := if Rlt_dec a b then true else false.
Definition zip (f : R -> R -> R) (a b : triple) : triple := let '(a1, a2, a3) := a in let '(b1, b2, b3) := b in (f a1 b1, f a2 b2, f a3 b3).

(** Compile-time and input-file settings: MAGNETIC_FIELDS_ENABLED, NON_BAROTROPIC_EOS, cr/vs_flag, cr/src_flag, cr/vmax, density floor. *)
Record config := mkConfig { magnetic : bool; non_barotropic : bool; stream_flag : Z; src_flag : Z; vmax : R; rho_floor : R }.
Record gas := mkGas { dn : R; mom : triple; en : R }.
Record rays := mkRays { ec : R; fc : triple }.
(** What the other parts of the module left for this cell: sigma_diff, sigma_adv, v_adv, b_angle (sint, cost, sinp, cosp), ec_source_. *)
Record cell := mkCell { sigma_diff : triple; sigma_adv : triple; v_adv : triple; b_angle : R * R * R * R; ec_source : R }.
Definition rotate (a : R * R * R * R) (v : triple) : triple := let '(sint, cost, sinp, cosp) := a in RotateVec sint cost sinp cosp v.
Definition unrotate (a : R * R * R * R) (v : triple) : triple := let '(sint, cost, sinp, cosp) := a in InvRotateVec sint cost sinp cosp v.

(** 1/(1/sigma_diff + 1/sigma_adv), cr_source.cpp 125-134 and cr_transport.cpp 86-88; with IEEE division a zero opacity gives 1/inf = 0 (the reals of Coq would give something else, so the case is written out). *)
Definition series (a b : R) : R := if Req_EM_T a 0 then 0 else if Req_EM_T b 0 then 0 else 1 / (1 / a + 1 / b).
Definition streaming (c : config) : bool := negb (Z.eqb (stream_flag c) 0).
Definition totsigma (c : config) (l : cell) : triple := if streaming c then zip series (sigma_diff l) (sigma_adv l) else sigma_diff l.

(** The linear system and its solution, cr_source.cpp 141-177. *)
Definition eliminate (dt vlim : R) (v vtot s : triple) (e : R) (fr : triple) : R * triple :=
  let '(v1, v2, v3) := v in let '(vtot1, vtot2, vtot3) := vtot in let '(sigma_x, sigma_y, sigma_z) := s in let '(fr1, fr2, fr3) := fr in
  let invlim := 1 / vlim in
  let rhs1 := e in let rhs2 := fr1 in let rhs3 := fr2 in let rhs4 := fr3 in
  let coef_11 := 1 - dt * sigma_x * vtot1 * v1 * invlim * 4 / 3 - dt * sigma_y * vtot2 * v2 * invlim * 4 / 3 - dt * sigma_z * vtot3 * v3 * invlim * 4 / 3 in
  let coef_12 := dt * sigma_x * vtot1 in
  let coef_13 := dt * sigma_y * vtot2 in
  let coef_14 := dt * sigma_z * vtot3 in
  let coef_21 := - dt * v1 * sigma_x * 4 / 3 in
  let coef_22 := 1 + dt * vlim * sigma_x in
  let coef_31 := - dt * v2 * sigma_y * 4 / 3 in
  let coef_33 := 1 + dt * vlim * sigma_y in
  let coef_41 := - dt * v3 * sigma_z * 4 / 3 in
  let coef_44 := 1 + dt * vlim * sigma_z in
  let e_coef := coef_11 - coef_12 * coef_21 / coef_22 - coef_13 * coef_31 / coef_33 - coef_14 * coef_41 / coef_44 in
  let new_ec := (rhs1 - coef_12 * rhs2 / coef_22 - coef_13 * rhs3 / coef_33 - coef_14 * rhs4 / coef_44) / e_coef in
  (new_ec, ((rhs2 - coef_21 * new_ec) / coef_22, (rhs3 - coef_31 * new_ec) / coef_33, (rhs4 - coef_41 * new_ec) / coef_44)).

(** CRIntegrator::AddSourceTerms for one cell, cr_source.cpp 85-205, up to the new energy and flux before the guards (85-186)... *)
Definition implicit_update (c : config) (dt : R) (l : cell) (g : gas) (u : rays) : R * triple :=
  let rho := Rmax (dn g) (rho_floor c) in
  let v := let '(m1, m2, m3) := mom g in (m1 / rho, m2 / rho, m3 / rho) in
  let vtot := if streaming c then zip Rplus v (v_adv l) else v in
  let s := totsigma c l in
  if magnetic c then
    let v := rotate (b_angle l) v in let fr := rotate (b_angle l) (fc u) in
    let vtot := let '(vtot1, _, _) := rotate (b_angle l) vtot in (vtot1, 0, 0) in
    let '(new_ec, newfr) := eliminate dt (vmax c) v vtot s (ec u) fr in
    (new_ec + dt * ec_source l, unrotate (b_angle l) newfr)
  else eliminate dt (vmax c) v vtot s (ec u) (fc u).
(** ... and the guards and the exchange with the gas (188-205). *)
Definition AddSourceTerms (c : config) (dt : R) (l : cell) (g : gas) (u : rays) : gas * rays :=
  let invlim := 1 / vmax c in
  let '(new_ec, newfr) := implicit_update c dt l g u in
  let en' := if non_barotropic c && Z.ltb 0 (src_flag c) then let new_eg := en g - (new_ec - ec u) in if lt new_eg 0 then en g else new_eg else en g in
  let new_ec := if lt new_ec 0 then ec u else new_ec in
  let mom' := if Z.ltb 0 (src_flag c) then zip Rplus (mom g) (zip (fun n f => - (n - f) * invlim) newfr (fc u)) else mom g in
  (mkGas (dn g) mom' en', mkRays new_ec newfr).

(** The four angles set by DefaultOpacity, cr.cpp 115-135; [old]: what the array held (NewAthenaArray fills it with zeros, cr.cpp 257). *)
Definition angles (b : triple) : R * R * R * R :=
  let '(b1, b2, b3) := b in
  let bxby := sqrt (b1 * b1 + b2 * b2) in
  let btot := sqrt (b1 * b1 + b2 * b2 + b3 * b3) in
  let '(sint, cost) := if lt TINY btot then (bxby / btot, b3 / btot) else (1, 0) in
  let '(sinp, cosp) := if lt TINY bxby then (b2 / bxby, b1 / bxby) else (0, 1) in
  (sint, cost, sinp, cosp).
Definition DefaultOpacity_angle (c : config) (old : R * R * R * R) (b : triple) : R * R * R * R :=
  if magnetic c && Z.ltb 0 (stream_flag c) then angles b else old.

(** DefaultStreaming for one cell, cr.cpp 176-214: v_adv and sigma_adv; [old]: sigma_adv before. *)
Definition DefaultStreaming (c : config) (max_opacity rho : R) (b grad : triple) (e : R) (old : triple) : triple * triple :=
  let invlim := 1 / vmax c in
  let '(b1, b2, b3) := b in let '(g1, g2, g3) := grad in
  let inv_sqrt_rho := 1 / sqrt rho in
  let bsq := b1 * b1 + b2 * b2 + b3 * b3 in
  let b_grad_pc := b1 * g1 + b2 * g2 + b3 * g3 in
  let va1 := b1 * inv_sqrt_rho in let va2 := b2 * inv_sqrt_rho in let va3 := b3 * inv_sqrt_rho in
  let va := sqrt bsq * inv_sqrt_rho in
  let dpc_sign := if lt TINY b_grad_pc then 1 else if lt TINY (- b_grad_pc) then -1 else 0 in
  if Z.ltb 0 (stream_flag c) then
    ((- va1 * dpc_sign, - va2 * dpc_sign, - va3 * dpc_sign),
     if lt TINY va then (Rabs b_grad_pc / (sqrt bsq * va * (4 / 3) * invlim * e), max_opacity, max_opacity) else old)
  else ((0, 0, 0), (max_opacity, max_opacity, max_opacity)).

(** The diffusion speed in one direction, cr_transport.cpp 84-98 (105-121, 132-148 for the others); then, with a magnetic field, rotated back and made positive (155-169).  The optional addition of a sound
    speed (vel_flx_flag, 172-187) is left out. *)
Definition diffusion_speed (vmax taufact sigma width : R) : R :=
  let taux := taufact * sigma * width in
  let taux := taux * taux / (2 * (1 / 3)) in
  let diffv := if lt taux (1 / 1000) then sqrt (1 - 1 / 2 * taux) else sqrt ((1 - exp (- taux)) / taux) in
  vmax * sqrt (1 / 3) * diffv.
Definition v_diff (c : config) (taufact : R) (l : cell) (width : triple) : triple :=
  let v := zip (diffusion_speed (vmax c) taufact) (totsigma c l) width in
  if magnetic c then let '(a1, a2, a3) := unrotate (b_angle l) v in (Rabs a1, Rabs a2, Rabs a3) else v.

(** CRIntegrator::CRFlux at one face, cr_flux.cpp 28-95.  A state is (E, F); v: the gas velocity normal to the face; d: the diffusion speed.  [fdir]: 1, 2, 3 for CRF1, CRF2, CRF3. *)
Record side := mkSide { sE : R; sF : triple; sv : R; sd : R }.
Definition pick (n : nat) (t : triple) : R := let '(a, b, c) := t in match n with 1%nat => a | 2%nat => b | _ => c end.
Definition speeds (vmax : R) (l r : side) : R * R :=
  let vl := sv l in let vr := sv r in
  let meanadv := 1 / 2 * (vl + vr) in let meandiffv := 1 / 2 * (sd l + sd r) in
  let al := Rmin (meanadv - meandiffv) (vl - sd l) in
  let ar := Rmax (meanadv + meandiffv) (vr + sd r) in
  let ar := Rmin ar (vmax * sqrt (1 / 3)) in
  let al := Rmax al (- vmax * sqrt (1 / 3)) in
  (if lt 0 ar then ar else 0, if lt al 0 then al else 0).
Definition CRFlux (fdir : nat) (vmax : R) (l r : side) : R * triple :=
  let eddl := 1 / 3 in let eddr := 1 / 3 in let edd12 := 0 in let edd13 := 0 in let edd23 := 0 in
  let '(bp, bm) := speeds vmax l r in
  let fl_e := vmax * pick fdir (sF l) - bm * sE l in
  let fr_e := vmax * pick fdir (sF r) - bp * sE r in
  let '(l1, l2, l3) := sF l in let '(r1, r2, r3) := sF r in
  let '(fl_f1, fr_f1, fl_f2, fr_f2, fl_f3, fr_f3) :=
    match fdir with
    | 1%nat => (vmax * eddl * sE l - bm * l1, vmax * eddr * sE r - bp * r1, vmax * edd12 * sE l - bm * l2, vmax * edd12 * sE r - bp * r2, vmax * edd13 * sE l - bm * l3, vmax * edd13 * sE r - bp * r3)
    | 2%nat => (vmax * edd12 * sE l - bm * l1, vmax * edd12 * sE r - bp * r1, vmax * eddl * sE l - bm * l2, vmax * eddr * sE r - bp * r2, vmax * edd23 * sE l - bm * l3, vmax * edd23 * sE r - bp * r3)
    | _ => (vmax * edd13 * sE l - bm * l1, vmax * edd13 * sE r - bp * r1, vmax * edd23 * sE l - bm * l2, vmax * edd23 * sE r - bp * r2, vmax * eddl * sE l - bm * l3, vmax * eddr * sE r - bp * r3)
    end in
  let tmp := if lt TINY (Rabs (bm - bp)) then 1 / 2 * (bp + bm) / (bp - bm) else 0 in
  (1 / 2 * (fl_e + fr_e) + (fl_e - fr_e) * tmp, (1 / 2 * (fl_f1 + fr_f1) + (fl_f1 - fr_f1) * tmp, 1 / 2 * (fl_f2 + fr_f2) + (fl_f2 - fr_f2) * tmp, 1 / 2 * (fl_f3 + fr_f3) + (fl_f3 - fr_f3) * tmp)).

(** Fluxes on the faces of a block: component 0 is CRE, 1-3 are CRF1-CRF3. *)
Record fluxes := mkFluxes { fx1 : nat -> arr; fx2 : nat -> arr; fx3 : nat -> arr }.
(** Sum of area times flux over the faces of a cell: cr_transport.cpp 461-497. *)
Definition dflx (s : system) (g : grid) (d : dims) (f : fluxes) (n : nat) (k j i : Z) : R :=
  (GetFace1Area s g k j (i + 1)%Z * fx1 f n k j (i + 1)%Z - GetFace1Area s g k j i * fx1 f n k j i)
  + (if Z.ltb 1 (nx2 d) then GetFace2Area s g k (j + 1)%Z i * fx2 f n k (j + 1)%Z i - GetFace2Area s g k j i * fx2 f n k j i else 0)
  + (if Z.ltb 1 (nx3 d) then GetFace3Area s g (k + 1)%Z j i * fx3 f n (k + 1)%Z j i - GetFace3Area s g k j i * fx3 f n k j i else 0).
(** AddCRCoordTermsDivergence: coordinates.cpp 762 (empty), cylindrical.cpp 382-402, spherical_polar.cpp 677-700. *)
Definition coord_source (s : system) (g : grid) (vm : R) (e : arr) (n : nat) (k j i : Z) : R :=
  match s with
  | cartesian => 0
  | cylindrical => match n with 1%nat => let m_pp := e k j i / 3 in vm * coord_src1_i s g i * m_pp | _ => 0 end
  | spherical_polar =>
      match n with
      | 1%nat => let m_ii := 2 / 3 * e k j i in vm * coord_src1_i s g i * m_ii
      | 2%nat => let m_pp := 1 / 3 * e k j i in vm * coord_src1_i s g i * coord_src1_j g j * m_pp
      | _ => 0
      end
  end.
(** CRIntegrator::FluxDivergence on an active cell, cr_transport.cpp 461-523; [e]: the energies the fluxes were computed from. *)
Definition FluxDivergence (s : system) (g : grid) (d : dims) (vm wght : R) (f : fluxes) (e : arr) (out : nat -> arr) (n : nat) (k j i : Z) : R :=
  let v := out n k j i - wght * dflx s g d f n k j i / GetCellVolume s g k j i in
  let v := v + wght * coord_source s g vm e n k j i in
  match n with 0%nat => if lt v TINY then TINY else v | _ => v end.
(** CRGradPcCoordTermsDivergence, all active cells: coordinates.cpp 767 (empty), cylindrical.cpp 408-424, spherical_polar.cpp 704-719. *)
Definition CRGradPcCoordTermsDivergence (s : system) (g : grid) (d : dims) (e : arr) (grad : nat -> arr) : nat -> arr := fun n k j i =>
  if active d k j i then
    match s, n with
    | cylindrical, 0%nat => let m_ii := e k j i / 3 in grad 0%nat k j i - coord_src1_i s g i * m_ii
    | spherical_polar, 0%nat => let m_ii := 2 / 3 * e k j i in grad 0%nat k j i - coord_src1_i s g i * m_ii
    | _, _ => grad n k j i
    end
  else grad n k j i.
(** grad_pc_ as UpdateStreaming and the perpendicular work see it on the row (k,j): cr_transport.cpp 363-413.  [stale]: the array before this row, on which every earlier row subtracted the coordinate term
    over the whole block; the row itself is overwritten (369, 381, 394, 403) before the coordinate term is subtracted once more over the whole block (409). *)
Definition grad_row (s : system) (g : grid) (d : dims) (vm : R) (f : fluxes) (e : arr) (stale : nat -> arr) (k j : Z) : nat -> arr :=
  let invlim := 1 / vm in
  let set : nat -> arr := fun n k' j' i => if Z.eqb k' k && Z.eqb j' j && active d k' j' i then
      ((GetFace1Area s g k j (i + 1)%Z * fx1 f (S n) k j (i + 1)%Z - GetFace1Area s g k j i * fx1 f (S n) k j i) / GetCellVolume s g k j i
       + (if Z.ltb 1 (nx2 d) then (GetFace2Area s g k (j + 1)%Z i * fx2 f (S n) k (j + 1)%Z i - GetFace2Area s g k j i * fx2 f (S n) k j i) / GetCellVolume s g k j i else 0)
       + (if Z.ltb 1 (nx3 d) then (GetFace3Area s g (k + 1)%Z j i * fx3 f (S n) (k + 1)%Z j i - GetFace3Area s g k j i * fx3 f (S n) k j i) / GetCellVolume s g k j i else 0)) * invlim
    else stale n k' j' i in
  CRGradPcCoordTermsDivergence s g d e set.
(** All rows in the order of the loops (361-362). *)
Fixpoint grad_rows (s : system) (g : grid) (d : dims) (vm : R) (f : fluxes) (e : arr) (stale : nat -> arr) (rows : list (Z * Z)) : nat -> arr :=
  match rows with nil => stale | cons (k, j) rest => grad_rows s g d vm f e (grad_row s g d vm f e stale k j) rest end.
(** The perpendicular work, cr_transport.cpp 416-435. *)
Definition perpendicular_work (a : R * R * R * R) (v grad : triple) : R :=
  let '(_, dpcdy, dpcdz) := rotate a grad in let '(_, v2, v3) := rotate a v in v2 * dpcdy + v3 * dpcdz.
