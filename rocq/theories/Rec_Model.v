(** Reconstruction of face states, src/reconstruct, exact arithmetic.  One line of cells along the direction of reconstruction; the X1, X2 and X3 functions differ only in the index that runs.
    [xf i] is the lower face of cell i, [xv i] its centre.  Without projection on characteristic variables, without the floors applied afterwards. *)
From Coq Require Import Reals ZArith List Bool.
From Verif Require Import Time_Model.
Import ListNotations.
Local Open Scope R_scope.

Definition line := Z -> R.
(** dx1f, dx1v (coordinates.cpp 60-110, cartesian.cpp 40-52). *)
Definition dxf (xf : line) (i : Z) : R := xf (i + 1)%Z - xf i.
Definition dxv (xv : line) (i : Z) : R := xv (i + 1)%Z - xv i.

(** DonorCellX1, dc.cpp 26-46; the states at the upper and the lower face of cell i. *)
Definition DonorCell (q : line) (i : Z) : R * R := (q i, q i).

(** The limited slope of PiecewiseLinearX1, plm_simple.cpp 56-128 (plm.cpp 74-141).  [mm] is minmod_, [uc] is uniform_ && !curvilinear_. *)
Definition minmod (a b dq2 : R) : R := if leR dq2 0 then 0 else if leR 0 a then Rmin a b else Rmax a b.
Definition plm_slope (mm uc : bool) (xf xv q : line) (i : Z) : R :=
  let dql := q i - q (i - 1)%Z in
  let dqr := q (i + 1)%Z - q i in
  if mm then
    if uc then minmod dql dqr (dql * dqr)
    else let dqrw := dqr * dxf xf i / dxv xv i in
         let dqlw := dql * dxf xf i / dxv xv (i - 1)%Z in
         minmod dqlw dqrw (dql * dqr)
  else
    if uc then let dq2 := dql * dqr in if leR dq2 0 then 0 else 2 * dq2 / (dql + dqr)
    else let dqF := dqr * dxf xf i / dxv xv i in
         let dqB := dql * dxf xf i / dxv xv (i - 1)%Z in
         let dq2 := dqF * dqB in
         let cf := dxv xv i / (xf (i + 1)%Z - xv i) in
         let cb := dxv xv (i - 1)%Z / (xv i - xf i) in
         if leR dq2 0 then 0 else dq2 * (cf * dqB + cb * dqF) / (dqB * dqB + dqF * dqF + dq2 * (cf + cb - 2)).
(** ql(i+1), qr(i): plm_simple.cpp 131-139, plm.cpp 149-156. *)
Definition plm_states (xf xv q : line) (i : Z) (dqm : R) : R * R :=
  (q i + ((xf (i + 1)%Z - xv i) / dxf xf i) * dqm, q i - ((xv i - xf i) / dxf xf i) * dqm).
(** PiecewiseLinearX1, plm.cpp 28-167: one of the NWAVE hydro variables. *)
Definition PiecewiseLinear (mm uc : bool) (xf xv q : line) (i : Z) : R * R := plm_states xf xv q i (plm_slope mm uc xf xv q i).
(** PiecewiseLinearX1, plm_simple.cpp 34-142: variable n of an array with any number of variables.  The minmod loops stop at NWAVE; [old] is what the work array of slopes held before. *)
Definition PiecewiseLinearSimple (nwave : nat) (mm uc : bool) (xf xv : line) (q old : nat -> line) (n : nat) (i : Z) : R * R :=
  plm_states xf xv (q n) i (if mm && negb (Nat.ltb n nwave) then old n i else plm_slope mm uc xf xv (q n) i).

(** Coefficients of the parabolic method (reconstruction.cpp 322-535) and the limiter ratios. *)
Record ppmc := mkC { c1 : line; c2 : line; c3 : line; c4 : line; c5 : line; c6 : line; hplus : line; hminus : line }.
Definition const (r : R) : line := fun _ => r.
(** Uniform Cartesian-like direction, 484-505. *)
Definition uniform_c : ppmc := mkC (const (1 / 2)) (const (1 / 2)) (const (1 / 2)) (const (1 / 2)) (const (1 / 6)) (const (- 1 / 6)) (const 2) (const 2).
(** Stretched Cartesian-like direction, 506-528. *)
Definition stretched_c (dx : line) : ppmc :=
  let qe i := dx i / (dx (i - 1)%Z + dx i + dx (i + 1)%Z) in
  let qa i := dx (i - 2)%Z + dx (i - 1)%Z + dx i + dx (i + 1)%Z in
  let qb0 i := dx (i - 1)%Z / (dx (i - 1)%Z + dx i) in
  let qc i := (dx (i - 2)%Z + dx (i - 1)%Z) / (2 * dx (i - 1)%Z + dx i) in
  let qd i := (dx (i + 1)%Z + dx i) / (2 * dx i + dx (i - 1)%Z) in
  let qb i := qb0 i + 2 * dx i * qb0 i / qa i * (qc i - qd i) in
  mkC (fun i => qe i * (2 * dx (i - 1)%Z + dx i) / (dx (i + 1)%Z + dx i))
      (fun i => qe i * (2 * dx (i + 1)%Z + dx i) / (dx (i - 1)%Z + dx i))
      (fun i => 1 - qb i) qb (fun i => dx i / qa i * qd i) (fun i => - dx (i - 1)%Z / qa i * qc i) (const 2) (const 2).
(** Limiter ratios for the radial direction, 463-482. *)
Definition h_cyl (x dx : R) : R * R := (3 + dx / (2 * x), 3 - dx / (2 * x)).
Definition h_sph (x dx : R) : R * R :=
  (3 + 2 * dx * (10 * x + dx) / (20 * (x * x) + dx * dx), 3 + 2 * dx * (- 10 * x + dx) / (20 * (x * x) + dx * dx)).
Definition ratios (h : R * R) : R * R := ((fst h + 1) / (snd h - 1), (snd h + 1) / (fst h - 1)).
Definition radial_h (sph : bool) (xf : line) (i : Z) : R * R :=
  let x := Rabs (1 / 2 * (xf (i + 1)%Z + xf i)) in ratios (if sph then h_sph x (dxf xf i) else h_cyl x (dxf xf i)).
(** Weights for evenly spaced radial cells, 413-457: io counts faces from the first active face of the block. *)
Definition cyl_w (io : R) : R * R * R * R :=
  let d := 120 * (io * io * (io * io)) - 360 * (io * io) + 96 in
  (- (2 * io - 3) * (5 * (io * io) * io + 8 * (io * io) - 3 * io - 4) / d,
   (2 * io - 1) * (35 * (io * io) * io + 24 * (io * io) - 93 * io - 60) / d,
   (2 * io + 1) * (35 * (io * io) * io - 24 * (io * io) - 93 * io + 60) / d,
   - (2 * io + 3) * (5 * (io * io) * io - 8 * (io * io) - 3 * io + 4) / d).
Definition sph_w (io : R) : R * R * R * R :=
  let s2 := io * io in let s4 := s2 * s2 in let s8 := s4 * s4 in
  let d := 36 * (15 * s8 - 85 * s4 * s2 + 150 * s4 - 60 * s2 + 16) in
  (- (3 * s2 - 9 * io + 7) * (15 * s4 * s2 + 48 * s4 * io + 23 * s4 - 48 * s2 * io - 30 * s2 + 16 * io + 12) / d,
   (3 * s2 - 3 * io + 1) * (105 * s4 * s2 + 144 * s4 * io - 487 * s4 - 720 * s2 * io + 510 * s2 + 1008 * io + 372) / d,
   (3 * s2 + 3 * io + 1) * (105 * s4 * s2 - 144 * s4 * io - 487 * s4 + 720 * s2 * io + 510 * s2 - 1008 * io + 372) / d,
   - (3 * s2 + 9 * io + 7) * (15 * s4 * s2 - 48 * s4 * io + 23 * s4 + 48 * s2 * io - 30 * s2 - 16 * io + 12) / d).
Definition radial_c (sph : bool) (is_ : Z) (xf : line) : ppmc :=
  let w i := (if sph then sph_w else cyl_w) (IZR (Z.abs (i - is_))) in
  mkC (fun i => fst (fst (fst (w i)))) (fun i => snd (fst (fst (w i)))) (fun i => snd (fst (w i))) (fun i => snd (w i)) (const 0) (const 0)
      (fun i => fst (radial_h sph xf i)) (fun i => snd (radial_h sph xf i)).

(** Step 1, ppm.cpp 113-139: the value interpolated at the lower face of cell i. *)
Definition slope_dd (c : ppmc) (q : line) (i : Z) : R := c1 c i * (q (i + 1)%Z - q i) + c2 c i * (q i - q (i - 1)%Z).
Definition ppm_face (curv : bool) (c : ppmc) (q : line) (i : Z) : R :=
  if curv then c1 c i * q (i - 2)%Z + c2 c i * q (i - 1)%Z + c3 c i * q i + c4 c i * q (i + 1)%Z
  else (c3 c i * q (i - 1)%Z + c4 c i * q i) + (c5 c i * slope_dd c q (i - 1) + c6 c i * slope_dd c q i).
(** SIGN, defs.hpp.in 151. *)
Definition SIGN (x : R) : R := if ltR x 0 then - 1 else 1.
(** Step 2a, 141-190: limit the value d interpolated at the face between cells i-1 and i. *)
Definition C2 : R := 5 / 4.
Definition second (q : line) (i : Z) : R := q (i - 1)%Z + q (i + 1)%Z - 2 * q i.
Definition limit_face (q : line) (i : Z) (d : R) : R :=
  let qa_tmp := d - q (i - 1)%Z in
  let qb_tmp := q i - d in
  let qa := 3 * (q (i - 1)%Z + q i - 2 * d) in
  let qb := second q (i - 1) in
  let qc := second q i in
  let qd := if eqR (SIGN qa) (SIGN qb) && eqR (SIGN qa) (SIGN qc) then SIGN qa * Rmin (C2 * Rabs qb) (Rmin (C2 * Rabs qc) (Rabs qa)) else 0 in
  if ltR (qa_tmp * qb_tmp) 0 then 1 / 2 * (q (i - 1)%Z + q i) - qd / 6 else d.
(** Step 2b, 199-208. *)
Definition clamp_face (q : line) (i : Z) (d : R) : R := Rmax (Rmin d (Rmax (q i) (q (i - 1)%Z))) (Rmin (q i) (q (i - 1)%Z)).
(** Step 4a, 226-280: the limited states at the upper and the lower face. *)
Definition eps12 : R := 1 / 1000000000000.
Definition limit_cs (q : line) (i : Z) (qm qp : R) : R * R :=
  let dqf_minus := q i - qm in
  let dqf_plus := qp - q i in
  let d2qf := 6 * (qm + qp - 2 * q i) in
  let qa_tmp := dqf_minus * dqf_plus in
  let qb_tmp := (q (i + 1)%Z - q i) * (q i - q (i - 1)%Z) in
  let qa := second q (i - 1) in let qb := second q i in let qc := second q (i + 1) in let qd := d2qf in
  let qe := if eqR (SIGN qa) (SIGN qb) && eqR (SIGN qa) (SIGN qc) && eqR (SIGN qa) (SIGN qd)
            then SIGN qd * Rmin (Rmin (C2 * Rabs qa) (C2 * Rabs qb)) (Rmin (C2 * Rabs qc) (Rabs qd)) else 0 in
  let ma := Rmax (Rabs (q (i - 1)%Z)) (Rabs (q (i - 2)%Z)) in
  let mb := Rmax (Rmax (Rabs (q i)) (Rabs (q (i + 1)%Z))) (Rabs (q (i + 2)%Z)) in
  let rho := if ltR (eps12 * Rmax ma mb) (Rabs qd) then qe / qd else 0 in
  if leR qa_tmp 0 || leR qb_tmp 0 then
    if leR rho (1 - eps12) then (q i + rho * dqf_plus, q i - rho * dqf_minus) else (qp, qm)
  else (if leR (2 * Rabs dqf_minus) (Rabs dqf_plus) then q i + 2 * dqf_minus else qp,
        if leR (2 * Rabs dqf_plus) (Rabs dqf_minus) then q i - 2 * dqf_plus else qm).
(** Step 4b, 285-301. *)
Definition limit_mignone (c : ppmc) (q : line) (i : Z) (qm qp : R) : R * R :=
  let dqf_minus := q i - qm in
  let dqf_plus := qp - q i in
  if leR (dqf_minus * dqf_plus) 0 then (q i, q i)
  else (if leR (hminus c i * Rabs dqf_minus) (Rabs dqf_plus) then q i + hminus c i * dqf_minus else qp,
        if leR (hplus c i * Rabs dqf_plus) (Rabs dqf_minus) then q i - hplus c i * dqf_plus else qm).
(** PiecewiseParabolicX1, ppm.cpp 44-335, ppm_simple.cpp 46-290; with [ext] false also ppm_fast.cpp and ppm_simple_fast.cpp 30-190.
    The result is (wl(i+1), wr(i)). *)
Definition PiecewiseParabolic (ext unif curv : bool) (c : ppmc) (q : line) (i : Z) : R * R :=
  let uc := unif && negb curv in
  let d0 := ppm_face curv c q i in
  let d1 := ppm_face curv c q (i + 1) in
  let qm := if uc then limit_face q i d0 else clamp_face q i d0 in
  let qp := if uc then limit_face q (i + 1) d1 else clamp_face q (i + 1) d1 in
  if ext && uc then limit_cs q i qm qp else limit_mignone c q i qm qp.

(** WENOZ, weno.cpp 27-80.  [eps] is epsL. *)
Definition sq (x : R) : R := x * x.
Definition WENOZ (eps : R) (q : line) (i : Z) : R * R :=
  let m2 := q (i - 2)%Z in let m1 := q (i - 1)%Z in let q0 := q i in let p1 := q (i + 1)%Z in let p2 := q (i + 2)%Z in
  let b0 := 13 / 12 * sq (m2 + q0 - 2 * m1) + 1 / 4 * sq (m2 + 3 * q0 - 4 * m1) in
  let b1 := 13 / 12 * sq (m1 + p1 - 2 * q0) + 1 / 4 * sq (m1 - p1) in
  let b2 := 13 / 12 * sq (p2 + q0 - 2 * p1) + 1 / 4 * sq (p2 + 3 * q0 - 4 * p1) in
  let tau := Rabs (b0 - b2) in
  let i0 := tau / (b0 + eps) in let i1 := tau / (b1 + eps) in let i2 := tau / (b2 + eps) in
  let a0 := 1 / 10 * (1 + sq i0) in let a1 := 6 / 10 * (1 + sq i1) in let a2 := 3 / 10 * (1 + sq i2) in
  let r0 := 1 / 10 * (1 + sq i2) in let r1 := 6 / 10 * (1 + sq i1) in let r2 := 3 / 10 * (1 + sq i0) in
  (((2 * m2 - 7 * m1 + 11 * q0) * a0 + (- 1 * m1 + 5 * q0 + 2 * p1) * a1 + (2 * q0 + 5 * p1 - p2) * a2) / (6 * (a0 + a1 + a2)),
   ((2 * p2 - 7 * p1 + 11 * q0) * r0 + (- 1 * p1 + 5 * q0 + 2 * m1) * r1 + (2 * q0 + 5 * m1 - m2) * r2) / (6 * (r0 + r1 + r2))).
(** WENOMZ, weno.cpp 88-135. *)
Definition WENOMZ (eps : R) (q : line) (i : Z) : R * R :=
  let m2 := q (i - 2)%Z in let m1 := q (i - 1)%Z in let q0 := q i in let p1 := q (i + 1)%Z in let p2 := q (i + 2)%Z in
  let b4 := 1 / 12 * sq (m1 + p1 - 2 * q0) in
  let b0 := 13 / 12 * sq (m2 + q0 - 2 * m1) + 1 / 4 * sq (m2 + 3 * q0 - 4 * m1) in
  let b1 := 13 * b4 + 1 / 4 * sq (m1 - p1) in
  let b2 := 13 / 12 * sq (p2 + q0 - 2 * p1) + 1 / 4 * sq (p2 + 3 * q0 - 4 * p1) in
  let tau := Rabs (b0 - b2) in
  let r := (Rabs (b2 - b1) + eps) / (Rabs (b1 - b0) + eps) in
  let t0 := 1 + r in let t2 := 1 + 1 / r in
  let eta := sq (sq (tau / (Rmax b0 b2 + eps))) in
  let tA := eta * tau in let tB := (1 - eta) * tau in
  let a1 := 6 / 10 * (1 + tA / (b1 + eps) + tB / (2 * b4 + eps)) in
  let a0 := 1 + tA / (b0 + eps) + tB / (t0 * b4 + eps) in
  let a2 := 1 + tA / (b2 + eps) + tB / (t2 * b4 + eps) in
  let al0 := 1 / 10 * a0 in let al2 := 3 / 10 * a2 in let ar0 := 1 / 10 * a2 in let ar2 := 3 / 10 * a0 in
  (((2 * m2 - 7 * m1 + 11 * q0) * al0 + (- 1 * m1 + 5 * q0 + 2 * p1) * a1 + (2 * q0 + 5 * p1 - p2) * al2) / (6 * (al0 + a1 + al2)),
   ((2 * p2 - 7 * p1 + 11 * q0) * ar0 + (- 1 * p1 + 5 * q0 + 2 * m1) * a1 + (2 * q0 + 5 * m1 - m2) * ar2) / (6 * (ar0 + a1 + ar2))).
