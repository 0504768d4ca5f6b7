(** Spacetimes of src/coordinates: minkowski.cpp, schwarzschild.cpp and kerr-schild.cpp (metrics, locally flat frames, source terms, volumes), exact arithmetic. *)
From Coq Require Import Reals ZArith List Bool.
Local Open Scope R_scope.
Definition SQR (x : R) : R := x * x.

(** ** Metrics *)
(** The ten entries I00, I01, I02, I03, I11, I12, I13, I22, I23, I33 of a metric array; entries that no function writes are zero (NewAthenaArray). *)
Definition met := nat -> nat -> R.
Definition ten (g00 g01 g02 g03 g11 g12 g13 g22 g23 g33 : R) : met := fun i j =>
  match i, j with
  | 0%nat, 0%nat => g00 | 0%nat, 1%nat | 1%nat, 0%nat => g01 | 0%nat, 2%nat | 2%nat, 0%nat => g02 | 0%nat, 3%nat | 3%nat, 0%nat => g03
  | 1%nat, 1%nat => g11 | 1%nat, 2%nat | 2%nat, 1%nat => g12 | 1%nat, 3%nat | 3%nat, 1%nat => g13
  | 2%nat, 2%nat => g22 | 2%nat, 3%nat | 3%nat, 2%nat => g23 | 3%nat, 3%nat => g33 | _, _ => 0 end.
(** The coordinates of a block; jll..juu is the range over which Initialize fills the arrays in theta (kerr-schild.cpp 205-210). *)
Record ggrid := mkGG { x1f : Z -> R; x1v : Z -> R; x2f : Z -> R; x2v : Z -> R; jll : Z; juu : Z }.

(** minkowski.cpp 106-177: all four metric functions. *)
Definition mk_metric : met := ten (-1) 0 0 0 1 0 0 1 0 1.
Definition mk_inverse : met := ten (-1) 0 0 0 1 0 0 1 0 1.
(** schwarzschild.cpp 584-762, the body common to the four metric functions; alpha_sq and sin_sq_theta from the arrays. *)
Definition sw_metric (alpha_sq r sin_sq : R) : met := ten (- alpha_sq) 0 0 0 (1 / alpha_sq) 0 0 (SQR r) 0 (SQR r * sin_sq).
Definition sw_inverse (alpha_sq r sin_sq : R) : met := ten (- 1 / alpha_sq) 0 0 0 alpha_sq 0 0 (1 / SQR r) 0 (1 / (SQR r * sin_sq)).
(** alpha_c etc., 119, 185-187. *)
Definition sw_alpha (m r : R) : R := sqrt (1 - 2 * m / r).
(** The arrays metric_*_i1_ and metric_*_j1_ hold SQR(alpha) and SQR(sin) at cell centres or faces (119-133, 218-224, 266-271). *)
Definition sw_Cell (m : R) (G : ggrid) (j i : Z) := (sw_metric (SQR (sw_alpha m (x1v G i))) (x1v G i) (SQR (sin (x2v G j))), sw_inverse (SQR (sw_alpha m (x1v G i))) (x1v G i) (SQR (sin (x2v G j)))).
Definition sw_Face1 (m : R) (G : ggrid) (j i : Z) := (sw_metric (SQR (sw_alpha m (x1f G i))) (x1f G i) (SQR (sin (x2v G j))), sw_inverse (SQR (sw_alpha m (x1f G i))) (x1f G i) (SQR (sin (x2v G j)))).
Definition sw_Face2 (m : R) (G : ggrid) (j i : Z) := (sw_metric (SQR (sw_alpha m (x1v G i))) (x1v G i) (SQR (sin (x2f G j))), sw_inverse (SQR (sw_alpha m (x1v G i))) (x1v G i) (SQR (sin (x2f G j)))).
Definition sw_Face3 := sw_Cell.
(** kerr-schild.cpp 877-1063, the body common to the four metric functions. *)
Definition ks_metric (m a r sin2 cos2 : R) : met :=
  let a2 := SQR a in let r2 := SQR r in let sigma := r2 + a2 * cos2 in
  ten (- (1 - 2 * m * r / sigma)) (2 * m * r / sigma) 0 (- 2 * m * a * r / sigma * sin2) (1 + 2 * m * r / sigma) 0 (- (1 + 2 * m * r / sigma) * a * sin2) sigma 0
      ((r2 + a2 + 2 * m * a2 * r / sigma * sin2) * sin2).
Definition ks_inverse (m a r sin2 cos2 : R) : met :=
  let a2 := SQR a in let r2 := SQR r in let delta := r2 - 2 * m * r + a2 in let sigma := r2 + a2 * cos2 in
  ten (- (1 + 2 * m * r / sigma)) (2 * m * r / sigma) 0 0 (delta / sigma) 0 (a / sigma) (1 / sigma) 0 (1 / (sigma * sin2)).
(** metric_face2_j1_ and metric_face2_j2_, 244-249: at j == juu the values of the next face are put at j, and not at j+1, which stays zero. *)
Definition metric_face2_j1 (G : ggrid) (j : Z) : R := if Z.eqb j (juu G) then SQR (sin (x2f G (j + 1))) else if Z.leb (jll G) j && Z.ltb j (juu G) then SQR (sin (x2f G j)) else 0.
Definition metric_face2_j2 (G : ggrid) (j : Z) : R := if Z.eqb j (juu G) then SQR (cos (x2f G (j + 1))) else if Z.leb (jll G) j && Z.ltb j (juu G) then SQR (cos (x2f G j)) else 0.
Definition ks_Cell (m a : R) (G : ggrid) (j i : Z) := (ks_metric m a (x1v G i) (SQR (sin (x2v G j))) (SQR (cos (x2v G j))), ks_inverse m a (x1v G i) (SQR (sin (x2v G j))) (SQR (cos (x2v G j)))).
Definition ks_Face1 (m a : R) (G : ggrid) (j i : Z) := (ks_metric m a (x1f G i) (SQR (sin (x2v G j))) (SQR (cos (x2v G j))), ks_inverse m a (x1f G i) (SQR (sin (x2v G j))) (SQR (cos (x2v G j)))).
Definition ks_Face2 (m a : R) (G : ggrid) (j i : Z) := (ks_metric m a (x1v G i) (metric_face2_j1 G j) (metric_face2_j2 G j), ks_inverse m a (x1v G i) (metric_face2_j1 G j) (metric_face2_j2 G j)).
Definition ks_Face3 := ks_Cell.

(** ** RaiseVectorCell and LowerVectorCell *)
Definition four := (R * R * R * R)%type.
(** minkowski.cpp 291-315. *)
Definition mk_Raise (v : four) : four := let '(v0, v1, v2, v3) := v in (- v0, v1, v2, v3).
Definition mk_Lower (v : four) : four := let '(v0, v1, v2, v3) := v in (- v0, v1, v2, v3).
(** schwarzschild.cpp 1411-1461. *)
Definition sw_Raise (m : R) (G : ggrid) (j i : Z) (v : four) : four :=
  let '(a0, a1, a2, a3) := v in let sin_sq := SQR (sin (x2v G j)) in let alpha_sq := SQR (sw_alpha m (x1v G i)) in let r_sq := SQR (x1v G i) in
  (- 1 / alpha_sq * a0, alpha_sq * a1, 1 / r_sq * a2, 1 / (r_sq * sin_sq) * a3).
Definition sw_Lower (m : R) (G : ggrid) (j i : Z) (v : four) : four :=
  let '(a0, a1, a2, a3) := v in let sin_sq := SQR (sin (x2v G j)) in let alpha_sq := SQR (sw_alpha m (x1v G i)) in let r_sq := SQR (x1v G i) in
  (- alpha_sq * a0, 1 / alpha_sq * a1, r_sq * a2, r_sq * sin_sq * a3).
(** kerr-schild.cpp 1793-1876. *)
Definition ks_Raise (m a : R) (G : ggrid) (j i : Z) (v : four) : four :=
  let '(a_0, a_1, a_2, a_3) := v in let asq := SQR a in let r := x1v G i in let rsq := SQR r in let sin2 := SQR (sin (x2v G j)) in let cos2 := SQR (cos (x2v G j)) in
  let delta := rsq - 2 * m * r + asq in let sigma := rsq + asq * cos2 in
  let g00 := - (1 + 2 * m * r / sigma) in let g01 := 2 * m * r / sigma in let g02 := 0 in let g03 := 0 in let g11 := delta / sigma in let g12 := 0 in let g13 := a / sigma in
  let g22 := 1 / sigma in let g23 := 0 in let g33 := 1 / (sigma * sin2) in
  (g00 * a_0 + g01 * a_1 + g02 * a_2 + g03 * a_3, g01 * a_0 + g11 * a_1 + g12 * a_2 + g13 * a_3, g02 * a_0 + g12 * a_1 + g22 * a_2 + g23 * a_3, g03 * a_0 + g13 * a_1 + g23 * a_2 + g33 * a_3).
Definition ks_Lower (m a : R) (G : ggrid) (j i : Z) (v : four) : four :=
  let '(a0, a1, a2, a3) := v in let asq := SQR a in let r := x1v G i in let rsq := SQR r in let sin2 := SQR (sin (x2v G j)) in let cos2 := SQR (cos (x2v G j)) in
  let sigma := rsq + asq * cos2 in
  let g_00 := - (1 - 2 * m * r / sigma) in let g_01 := 2 * m * r / sigma in let g_02 := 0 in let g_03 := - 2 * m * a * r / sigma * sin2 in let g_11 := 1 + 2 * m * r / sigma in let g_12 := 0 in
  let g_13 := - (1 + 2 * m * r / sigma) * a * sin2 in let g_22 := sigma in let g_23 := 0 in let g_33 := (rsq + asq + 2 * m * asq * r / sigma * sin2) * sin2 in
  (g_00 * a0 + g_01 * a1 + g_02 * a2 + g_03 * a3, g_01 * a0 + g_11 * a1 + g_12 * a2 + g_13 * a3, g_02 * a0 + g_12 * a1 + g_22 * a2 + g_23 * a3, g_03 * a0 + g_13 * a1 + g_23 * a2 + g_33 * a3).

(** ** Locally flat frames *)
(** trans_face1_ji1_ to ji7_ at (r, theta), kerr-schild.cpp 441-490; also trans_face2_ and trans_face3_, 492-518, the same functions of other points. *)
Definition t_sigma (a r th : R) : R := SQR r + SQR a * SQR (cos th).
Definition t_big (m a r th : R) : R := SQR r + SQR a + 2 * m * SQR a * r / t_sigma a r th * SQR (sin th).
Definition t_den (m a r th : R) : R := SQR (SQR r) + SQR a * SQR r + 2 * m * SQR a * r + (SQR r - 2 * m * r + SQR a) * SQR a * SQR (cos th).
Definition trans1_1 (m a r th : R) : R := 1 / sqrt (1 + 2 * m * r / t_sigma a r th).
Definition trans1_2 (m a r th : R) : R := sqrt ((t_sigma a r th + 2 * m * r) / t_big m a r th).
Definition trans1_3 (m a r th : R) : R := sqrt (t_sigma a r th).
Definition trans1_4 (m a r th : R) : R := Rabs (sin th) * sqrt (t_big m a r th).
Definition trans1_5 (m a r th : R) : R := 2 * m * r * sqrt (t_sigma a r th / ((t_sigma a r th + 2 * m * r) * t_den m a r th)).
Definition trans1_6 (m a r th : R) : R := - 2 * m * a * r * Rabs (sin th) * sqrt (t_big m a r th) / t_den m a r th.
Definition trans1_7 (m a r th : R) : R := - a * (t_sigma a r th + 2 * m * r) * Rabs (sin th) * sqrt (t_big m a r th) / t_den m a r th.
Definition trans2_1 (m a r th : R) : R := 1 / sqrt (1 + 2 * m * r / t_sigma a r th).
Definition trans2_2 (m a r th : R) : R := sqrt (1 + 2 * m * r / t_sigma a r th).
Definition trans2_3 (m a r th : R) : R := sqrt (t_sigma a r th).
Definition trans2_4 (m a r th : R) : R := sqrt (t_sigma a r th) * Rabs (sin th).
Definition trans2_5 (m a r th : R) : R := 2 * m * r / (t_sigma a r th * sqrt (1 + 2 * m * r / t_sigma a r th)).
Definition trans2_6 (m a r th : R) : R := - a * SQR (sin th) * sqrt (1 + 2 * m * r / t_sigma a r th).

(** The slots of one side of an interface: prim(IVX..IVZ), prim(IBY), prim(IBZ). *)
Record prim := mkP { ivx : R; ivy : R; ivz : R; iby : R; ibz : R }.
(** One side of PrimToLocalN: the new slots and bbx_l (or bbx_r); bbx(i) is half the sum of both.  mhd: MAGNETIC_FIELDS_ENABLED. *)
(** kerr-schild.cpp: "Calculate global 4-velocities" and "4-magnetic fields", the same text in all six places. *)
Definition ks_global (g gi : met) (uu1 uu2 uu3 bb1 bb2 bb3 : R) : R * four * four :=
  let alpha := sqrt (- 1 / gi 0%nat 0%nat) in
  let tmp := g 1%nat 1%nat * uu1 * uu1 + 2 * g 1%nat 3%nat * uu1 * uu3 + g 2%nat 2%nat * uu2 * uu2 + g 3%nat 3%nat * uu3 * uu3 in
  let gamma := sqrt (1 + tmp) in let u0 := gamma / alpha in let u1 := uu1 - alpha * gamma * gi 0%nat 1%nat in let u2 := uu2 in let u3 := uu3 in
  let b0 := g 0%nat 1%nat * bb1 * u0 + g 1%nat 1%nat * bb1 * u1 + g 1%nat 3%nat * bb1 * u3 + g 2%nat 2%nat * bb2 * u2 + g 0%nat 3%nat * bb3 * u0 + g 1%nat 3%nat * bb3 * u1 + g 3%nat 3%nat * bb3 * u3 in
  (gamma, (u0, u1, u2, u3), (b0, (bb1 + b0 * u1) / u0, (bb2 + b0 * u2) / u0, (bb3 + b0 * u3) / u0)).
(** 1077-1196. *)
Definition ks_PrimToLocal1 (mhd : bool) (m a : R) (G : ggrid) (j i : Z) (bb1 : R) (p : prim) : prim * R :=
  let r := x1f G i in let th := x2v G j in
  let mt_0 := trans1_1 m a r th in let mx_0 := trans1_5 m a r th in let mx_1 := trans1_2 m a r th in let my_2 := trans1_3 m a r th in let mz_0 := trans1_6 m a r th in let mz_1 := trans1_7 m a r th in let mz_3 := trans1_4 m a r th in
  let uu1 := ivx p in let uu2 := ivy p in let uu3 := ivz p in
  let ux := mx_1 * uu1 in let uy := my_2 * uu2 in let uz := mz_1 * uu1 + mz_3 * uu3 in
  if mhd then let '(gamma, _, (b0, b1, b2, b3)) := ks_global (fst (ks_Face1 m a G j i)) (snd (ks_Face1 m a G j i)) uu1 uu2 uu3 bb1 (iby p) (ibz p) in
    let bt := mt_0 * b0 in let bx := mx_0 * b0 + mx_1 * b1 in let by_ := my_2 * b2 in let bz := mz_0 * b0 + mz_1 * b1 + mz_3 * b3 in
    (mkP ux uy uz (gamma * by_ - uy * bt) (gamma * bz - uz * bt), gamma * bx - ux * bt)
  else (mkP ux uy uz (iby p) (ibz p), 0).
(** 1220-1338. *)
Definition ks_PrimToLocal2 (mhd : bool) (m a : R) (G : ggrid) (j i : Z) (bb2 : R) (p : prim) : prim * R :=
  let r := x1v G i in let th := x2f G j in
  let mt_0 := trans2_1 m a r th in let mx_2 := trans2_3 m a r th in let my_3 := trans2_4 m a r th in let mz_0 := trans2_5 m a r th in let mz_1 := trans2_2 m a r th in let mz_3 := trans2_6 m a r th in
  let uu1 := ivx p in let uu2 := ivy p in let uu3 := ivz p in
  let ux := mx_2 * uu2 in let uy := my_3 * uu3 in let uz := mz_1 * uu1 + mz_3 * uu3 in
  if mhd then let '(gamma, _, (b0, b1, b2, b3)) := ks_global (fst (ks_Face2 m a G j i)) (snd (ks_Face2 m a G j i)) uu1 uu2 uu3 (ibz p) bb2 (iby p) in
    let bt := mt_0 * b0 in let bx := mx_2 * b2 in let by_ := my_3 * b3 in let bz := mz_0 * b0 + mz_1 * b1 + mz_3 * b3 in
    (mkP uz ux uy (gamma * by_ - uy * bt) (gamma * bz - uz * bt), gamma * bx - ux * bt)
  else (mkP uz ux uy (iby p) (ibz p), 0).
(** 1362-1480. *)
Definition ks_PrimToLocal3 (mhd : bool) (m a : R) (G : ggrid) (j i : Z) (bb3 : R) (p : prim) : prim * R :=
  let r := x1v G i in let th := x2v G j in
  let mt_0 := trans2_1 m a r th in let mx_3 := trans2_4 m a r th in let my_0 := trans2_5 m a r th in let my_1 := trans2_2 m a r th in let my_3 := trans2_6 m a r th in let mz_2 := trans2_3 m a r th in
  let uu1 := ivx p in let uu2 := ivy p in let uu3 := ivz p in
  let ux := mx_3 * uu3 in let uy := my_1 * uu1 + my_3 * uu3 in let uz := mz_2 * uu2 in
  if mhd then let '(gamma, _, (b0, b1, b2, b3)) := ks_global (fst (ks_Face3 m a G j i)) (snd (ks_Face3 m a G j i)) uu1 uu2 uu3 (iby p) (ibz p) bb3 in
    let bt := mt_0 * b0 in let bx := mx_3 * b3 in let by_ := my_0 * b0 + my_1 * b1 + my_3 * b3 in let bz := mz_2 * b2 in
    (mkP uy uz ux (gamma * by_ - uy * bt) (gamma * bz - uz * bt), gamma * bx - ux * bt)
  else (mkP uy uz ux (iby p) (ibz p), 0).
(** schwarzschild.cpp 776-1159: diagonal metrics; alpha from trans_faceN_i1_. *)
Definition sw_global (alpha : R) (g : met) (uu1 uu2 uu3 bb1 bb2 bb3 : R) : R * four * four :=
  let tmp := g 1%nat 1%nat * uu1 * uu1 + g 2%nat 2%nat * uu2 * uu2 + g 3%nat 3%nat * uu3 * uu3 in
  let gamma := sqrt (1 + tmp) in let u0 := gamma / alpha in let u1 := uu1 in let u2 := uu2 in let u3 := uu3 in
  let b0 := g 1%nat 1%nat * bb1 * u1 + g 2%nat 2%nat * bb2 * u2 + g 3%nat 3%nat * bb3 * u3 in
  (gamma, (u0, u1, u2, u3), (b0, (bb1 + b0 * u1) / u0, (bb2 + b0 * u2) / u0, (bb3 + b0 * u3) / u0)).
Definition sw_PrimToLocal1 (mhd : bool) (m : R) (G : ggrid) (j i : Z) (bb1 : R) (p : prim) : prim * R :=
  let r := x1f G i in let s := Rabs (sin (x2v G j)) in let alpha := sw_alpha m r in
  let mt_0 := alpha in let mx_1 := 1 / alpha in let my_2 := r in let mz_3 := r * s in
  let uu1 := ivx p in let uu2 := ivy p in let uu3 := ivz p in let ux := mx_1 * uu1 in let uy := my_2 * uu2 in let uz := mz_3 * uu3 in
  if mhd then let '(gamma, _, (b0, b1, b2, b3)) := sw_global alpha (fst (sw_Face1 m G j i)) uu1 uu2 uu3 bb1 (iby p) (ibz p) in
    let bt := mt_0 * b0 in let bx := mx_1 * b1 in let by_ := my_2 * b2 in let bz := mz_3 * b3 in
    (mkP ux uy uz (gamma * by_ - uy * bt) (gamma * bz - uz * bt), gamma * bx - ux * bt)
  else (mkP ux uy uz (iby p) (ibz p), 0).
(** 910-1020: mx_2 is 1.0/r (925). *)
Definition sw_PrimToLocal2 (mhd : bool) (m : R) (G : ggrid) (j i : Z) (bb2 : R) (p : prim) : prim * R :=
  let r := x1v G i in let s := Rabs (sin (x2f G j)) in let alpha := sw_alpha m r in
  let mt_0 := alpha in let mx_2 := 1 / r in let my_3 := r * s in let mz_1 := 1 / alpha in
  let uu1 := ivx p in let uu2 := ivy p in let uu3 := ivz p in let ux := mx_2 * uu2 in let uy := my_3 * uu3 in let uz := mz_1 * uu1 in
  if mhd then let '(gamma, _, (b0, b1, b2, b3)) := sw_global alpha (fst (sw_Face2 m G j i)) uu1 uu2 uu3 (ibz p) bb2 (iby p) in
    let bt := mt_0 * b0 in let bx := mx_2 * b2 in let by_ := my_3 * b3 in let bz := mz_1 * b1 in
    (mkP uz ux uy (gamma * by_ - uy * bt) (gamma * bz - uz * bt), gamma * bx - ux * bt)
  else (mkP uz ux uy (iby p) (ibz p), 0).
Definition sw_PrimToLocal3 (mhd : bool) (m : R) (G : ggrid) (j i : Z) (bb3 : R) (p : prim) : prim * R :=
  let r := x1v G i in let s := Rabs (sin (x2v G j)) in let alpha := sw_alpha m r in
  let mt_0 := alpha in let mx_3 := r * s in let my_1 := 1 / alpha in let mz_2 := r in
  let uu1 := ivx p in let uu2 := ivy p in let uu3 := ivz p in let ux := mx_3 * uu3 in let uy := my_1 * uu1 in let uz := mz_2 * uu2 in
  if mhd then let '(gamma, _, (b0, b1, b2, b3)) := sw_global alpha (fst (sw_Face3 m G j i)) uu1 uu2 uu3 (iby p) (ibz p) bb3 in
    let bt := mt_0 * b0 in let bx := mx_3 * b3 in let by_ := my_1 * b1 in let bz := mz_2 * b2 in
    (mkP uy uz ux (gamma * by_ - uy * bt) (gamma * bz - uz * bt), gamma * bx - ux * bt)
  else (mkP uy uz ux (iby p) (ibz p), 0).

(** ** FluxToGlobal *)
(** cons(IDN, IEN, IM1, IM2, IM3) and cons(IBY), cons(IBZ); flux(IDN, IEN, IM1, IM2, IM3) and ey, ez; bbx. *)
Record slots := mkS { s_d : R; s_e : R; s_1 : R; s_2 : R; s_3 : R; s_y : R; s_z : R }.
(** kerr-schild.cpp 1501-1581. *)
Definition ks_FluxToGlobal1 (m a : R) (G : ggrid) (j i : Z) (bbx : R) (c f : slots) : slots :=
  let g := fst (ks_Face1 m a G j i) in let r := x1f G i in let th := x2v G j in
  let mt_0 := trans1_1 m a r th in let mx_0 := trans1_5 m a r th in let mx_1 := trans1_2 m a r th in let my_2 := trans1_3 m a r th in let mz_1 := trans1_7 m a r th in let mz_3 := trans1_4 m a r th in
  let m0_tm := 1 / mt_0 in let m1_tm := - mx_0 / (mt_0 * mx_1) in let m1_x := 1 / mx_1 in let m2_y := 1 / my_2 in let m3_x := - mz_1 / (mx_1 * mz_3) in let m3_z := 1 / mz_3 in
  let dt := s_d c in let ttt := s_e c in let ttx := s_1 c in let tty := s_2 c in let ttz := s_3 c in
  let dx := s_d f in let txt := s_e f in let txx := s_1 f in let txy := s_2 f in let txz := s_3 f in
  let t10 := m1_tm * m0_tm * ttt + m1_x * m0_tm * txt in
  let t11 := m1_tm * m1_tm * ttt + m1_tm * m1_x * ttx + m1_x * m1_tm * txt + m1_x * m1_x * txx in
  let t12 := m1_tm * m2_y * tty + m1_x * m2_y * txy in
  let t13 := m1_tm * m3_x * ttx + m1_tm * m3_z * ttz + m1_x * m3_x * txx + m1_x * m3_z * txz in
  let fxt := bbx in let fyt := s_y c in let fzt := s_z c in let fyx := - s_y f in let fzx := s_z f in
  let f21 := m2_y * m1_tm * fyt + m2_y * m1_x * fyx in
  let f31 := m3_x * m1_tm * fxt + m3_z * m1_tm * fzt + m3_z * m1_x * fzx in
  mkS (m1_tm * dt + m1_x * dx) (g 0%nat 0%nat * t10 + g 0%nat 1%nat * t11 + g 0%nat 3%nat * t13) (g 0%nat 1%nat * t10 + g 1%nat 1%nat * t11 + g 1%nat 3%nat * t13) (g 2%nat 2%nat * t12)
      (g 0%nat 3%nat * t10 + g 1%nat 3%nat * t11 + g 3%nat 3%nat * t13) (- f21) f31.
(** 1603-1682. *)
Definition ks_FluxToGlobal2 (m a : R) (G : ggrid) (j i : Z) (bbx : R) (c f : slots) : slots :=
  let g := fst (ks_Face2 m a G j i) in let r := x1v G i in let th := x2f G j in
  let mt_0 := trans2_1 m a r th in let mx_2 := trans2_3 m a r th in let my_3 := trans2_4 m a r th in let mz_0 := trans2_5 m a r th in let mz_1 := trans2_2 m a r th in let mz_3 := trans2_6 m a r th in
  let m0_tm := 1 / mt_0 in let m1_tm := - mz_0 / (mt_0 * mz_1) in let m1_y := - mz_3 / (mz_1 * my_3) in let m1_z := 1 / mz_1 in let m2_x := 1 / mx_2 in let m3_y := 1 / my_3 in
  let dx := s_d f in let txt := s_e f in let txx := s_2 f in let txy := s_3 f in let txz := s_1 f in
  let t20 := m2_x * m0_tm * txt in let t21 := m2_x * m1_tm * txt + m2_x * m1_y * txy + m2_x * m1_z * txz in let t22 := m2_x * m2_x * txx in let t23 := m2_x * m3_y * txy in
  let ftx := - bbx in let fyx := - s_y f in let fzx := s_z f in
  let f32 := m3_y * m2_x * fyx in let f12 := m1_tm * m2_x * ftx + m1_y * m2_x * fyx + m1_z * m2_x * fzx in
  mkS (m2_x * dx) (g 0%nat 0%nat * t20 + g 0%nat 1%nat * t21 + g 0%nat 3%nat * t23) (g 0%nat 1%nat * t20 + g 1%nat 1%nat * t21 + g 1%nat 3%nat * t23) (g 2%nat 2%nat * t22)
      (g 0%nat 3%nat * t20 + g 1%nat 3%nat * t21 + g 3%nat 3%nat * t23) (- f32) f12.
(** 1703-1782. *)
Definition ks_FluxToGlobal3 (m a : R) (G : ggrid) (j i : Z) (bbx : R) (c f : slots) : slots :=
  let g := fst (ks_Face3 m a G j i) in let r := x1v G i in let th := x2v G j in
  let mt_0 := trans2_1 m a r th in let mx_3 := trans2_4 m a r th in let my_0 := trans2_5 m a r th in let my_1 := trans2_2 m a r th in let my_3 := trans2_6 m a r th in let mz_2 := trans2_3 m a r th in
  let m0_tm := 1 / mt_0 in let m1_tm := - my_0 / (mt_0 * my_1) in let m1_x := - my_3 / (my_1 * mx_3) in let m1_y := 1 / my_1 in let m2_z := 1 / mz_2 in let m3_x := 1 / mx_3 in
  let dx := s_d f in let txt := s_e f in let txx := s_3 f in let txy := s_1 f in let txz := s_2 f in
  let t30 := m3_x * m0_tm * txt in let t31 := m3_x * m1_tm * txt + m3_x * m1_x * txx + m3_x * m1_y * txy in let t32 := m3_x * m2_z * txz in let t33 := m3_x * m3_x * txx in
  let ftx := - bbx in let fyx := - s_y f in let fzx := s_z f in
  let f13 := m1_tm * m3_x * ftx + m1_y * m3_x * fyx in let f23 := m2_z * m3_x * fzx in
  mkS (m3_x * dx) (g 0%nat 0%nat * t30 + g 0%nat 1%nat * t31 + g 0%nat 3%nat * t33) (g 0%nat 1%nat * t30 + g 1%nat 1%nat * t31 + g 1%nat 3%nat * t33) (g 2%nat 2%nat * t32)
      (g 0%nat 3%nat * t30 + g 1%nat 3%nat * t31 + g 3%nat 3%nat * t33) (- f13) f23.
(** schwarzschild.cpp 1175-1400. *)
Definition sw_FluxToGlobal1 (m : R) (G : ggrid) (j i : Z) (bbx : R) (c f : slots) : slots :=
  let r := x1f G i in let sin_sq := SQR (sin (x2v G j)) in let s := Rabs (sin (x2v G j)) in let alpha := sw_alpha m r in let alpha_sq := SQR alpha in
  let g00 := - alpha_sq in let g11 := 1 / alpha_sq in let g22 := SQR r in let g33 := SQR r * sin_sq in
  let m0_tm := 1 / alpha in let m1_x := alpha in let m2_y := 1 / r in let m3_z := 1 / (r * s) in
  let t10 := m1_x * m0_tm * s_e f in let t11 := m1_x * m1_x * s_1 f in let t12 := m1_x * m2_y * s_2 f in let t13 := m1_x * m3_z * s_3 f in
  let f21 := m2_y * m1_x * (- s_y f) in let f31 := m3_z * m1_x * s_z f in
  mkS (m1_x * s_d f) (g00 * t10) (g11 * t11) (g22 * t12) (g33 * t13) (- f21) f31.
Definition sw_FluxToGlobal2 (m : R) (G : ggrid) (j i : Z) (bbx : R) (c f : slots) : slots :=
  let r := x1v G i in let sin_sq := SQR (sin (x2f G j)) in let s := Rabs (sin (x2f G j)) in let alpha := sw_alpha m r in let alpha_sq := SQR alpha in
  let g00 := - alpha_sq in let g11 := 1 / alpha_sq in let g22 := SQR r in let g33 := SQR r * sin_sq in
  let m0_tm := 1 / alpha in let m1_z := alpha in let m2_x := 1 / r in let m3_y := 1 / (r * s) in
  let txx := s_2 f in let txy := s_3 f in let txz := s_1 f in
  let t20 := m2_x * m0_tm * s_e f in let t21 := m2_x * m1_z * txz in let t22 := m2_x * m2_x * txx in let t23 := m2_x * m3_y * txy in
  let f32 := m3_y * m2_x * (- s_y f) in let f12 := m1_z * m2_x * s_z f in
  mkS (m2_x * s_d f) (g00 * t20) (g11 * t21) (g22 * t22) (g33 * t23) (- f32) f12.
Definition sw_FluxToGlobal3 (m : R) (G : ggrid) (j i : Z) (bbx : R) (c f : slots) : slots :=
  let r := x1v G i in let sin_sq := SQR (sin (x2v G j)) in let s := Rabs (sin (x2v G j)) in let alpha := sw_alpha m r in let alpha_sq := SQR alpha in
  let g00 := - alpha_sq in let g11 := 1 / alpha_sq in let g22 := SQR r in let g33 := SQR r * sin_sq in
  let m0_tm := 1 / alpha in let m1_y := alpha in let m2_z := 1 / r in let m3_x := 1 / (r * s) in
  let txx := s_3 f in let txy := s_1 f in let txz := s_2 f in
  let t30 := m3_x * m0_tm * s_e f in let t31 := m3_x * m1_y * txy in let t32 := m3_x * m2_z * txz in let t33 := m3_x * m3_x * txx in
  let f13 := m1_y * m3_x * (- s_y f) in let f23 := m2_z * m3_x * s_z f in
  mkS (m3_x * s_d f) (g00 * t30) (g11 * t31) (g22 * t32) (g33 * t33) (- f13) f23.

(** ** AddCoordTermsDivergence at one cell *)
(** Primitives rho, pgas, uu1..uu3 and the cell-centered field (zero without magnetic fields, which gives the same numbers as skipping the block). *)
Record gas := mkGas { q_rho : R; q_p : R; q_1 : R; q_2 : R; q_3 : R; q_b1 : R; q_b2 : R; q_b3 : R }.
(** schwarzschild.cpp 471-573: s_1 and s_2. *)
Definition sw_source (gamma_adi m : R) (G : ggrid) (j i : Z) (q : gas) : R * R :=
  let sn := sin (x2v G j) in let cs := cos (x2v G j) in let sin2 := SQR sn in let sincos := sn * cs in
  let g := fst (sw_Cell m G j i) in let gi := snd (sw_Cell m G j i) in let alpha := sqrt (- 1 / gi 0%nat 0%nat) in
  let r := x1v G i in let r2 := SQR r in
  let d1_g_00 := - 2 * m / r2 in let d1_g_11 := - 2 * m / r2 * SQR (g 1%nat 1%nat) in let d1_g_22 := 2 * r in let d1_g_33 := 2 * r * sin2 in let d2_g_33 := 2 * r2 * sincos in
  let '(gamma, (u0, u1, u2, u3), _) := sw_global alpha g (q_1 q) (q_2 q) (q_3 q) 0 0 0 in
  let u_1 := g 1%nat 1%nat * u1 in let u_2 := g 2%nat 2%nat * u2 in let u_3 := g 3%nat 3%nat * u3 in
  let b0 := u_1 * q_b1 q + u_2 * q_b2 q + u_3 * q_b3 q in let b1 := (q_b1 q + b0 * u1) / u0 in let b2 := (q_b2 q + b0 * u2) / u0 in let b3 := (q_b3 q + b0 * u3) / u0 in
  let b_sq := g 0%nat 0%nat * b0 * b0 + g 1%nat 1%nat * b1 * b1 + g 2%nat 2%nat * b2 * b2 + g 3%nat 3%nat * b3 * b3 in
  let wtot := q_rho q + gamma_adi / (gamma_adi - 1) * q_p q + b_sq in let ptot := q_p q + / 2 * b_sq in
  let tt00 := wtot * u0 * u0 + ptot * gi 0%nat 0%nat - b0 * b0 in let tt11 := wtot * u1 * u1 + ptot * gi 1%nat 1%nat - b1 * b1 in
  let tt22 := wtot * u2 * u2 + ptot * gi 2%nat 2%nat - b2 * b2 in let tt33 := wtot * u3 * u3 + ptot * gi 3%nat 3%nat - b3 * b3 in
  (/ 2 * (d1_g_00 * tt00 + d1_g_11 * tt11 + d1_g_22 * tt22 + d1_g_33 * tt33), / 2 * d2_g_33 * tt33).
(** kerr-schild.cpp 738-866. *)
Definition ks_source (gamma_adi m a : R) (G : ggrid) (j i : Z) (q : gas) : R * R :=
  let sn := sin (x2v G j) in let cs := cos (x2v G j) in let sin2 := SQR sn in let cos2 := SQR cs in let sincos := sn * cs in let a2 := SQR a in
  let g := fst (ks_Cell m a G j i) in let gi := snd (ks_Cell m a G j i) in
  let r := x1v G i in let r2_a2 := SQR r + a2 in let delta := r2_a2 - 2 * m * r in let sigma_sq := SQR (SQR r + a2 * cos2) in let xi := SQR r - a2 * cos2 in
  let d1_g_00 := - 2 * m * xi / sigma_sq in let d1_g_01 := - 2 * m * xi / sigma_sq in let d1_g_03 := 2 * m * xi / sigma_sq * a * sin2 in let d1_g_11 := - 2 * m * xi / sigma_sq in
  let d1_g_13 := 2 * m * xi / sigma_sq * a * sin2 in let d1_g_22 := 2 * r in let d1_g_33 := 2 * (r - m * xi / sigma_sq * a2 * sin2) * sin2 in
  let d2_g_00 := 4 * m * a2 * r / sigma_sq * sincos in let d2_g_01 := 4 * m * a2 * r / sigma_sq * sincos in let d2_g_03 := - 4 * m * a * r * r2_a2 / sigma_sq * sincos in
  let d2_g_11 := 4 * m * a2 * r / sigma_sq * sincos in let d2_g_13 := - 2 * (1 + 2 * m * r * r2_a2 / sigma_sq) * a * sincos in let d2_g_22 := - 2 * a2 * sincos in
  let d2_g_33 := 2 * (delta + 2 * m * r * SQR r2_a2 / sigma_sq) * sincos in
  let '(gamma, (u0, u1, u2, u3), _) := ks_global g gi (q_1 q) (q_2 q) (q_3 q) 0 0 0 in
  let u_1 := g 0%nat 1%nat * u0 + g 1%nat 1%nat * u1 + g 1%nat 3%nat * u3 in let u_2 := g 2%nat 2%nat * u2 in let u_3 := g 0%nat 3%nat * u0 + g 1%nat 3%nat * u1 + g 3%nat 3%nat * u3 in
  let b0 := u_1 * q_b1 q + u_2 * q_b2 q + u_3 * q_b3 q in let b1 := (q_b1 q + b0 * u1) / u0 in let b2 := (q_b2 q + b0 * u2) / u0 in let b3 := (q_b3 q + b0 * u3) / u0 in
  let b_0 := g 0%nat 0%nat * b0 + g 0%nat 1%nat * b1 + g 0%nat 3%nat * b3 in let b_1 := g 0%nat 1%nat * b0 + g 1%nat 1%nat * b1 + g 1%nat 3%nat * b3 in let b_2 := g 2%nat 2%nat * b2 in
  let b_3 := g 0%nat 3%nat * b0 + g 1%nat 3%nat * b1 + g 3%nat 3%nat * b3 in let b_sq := b_0 * b0 + b_1 * b1 + b_2 * b2 + b_3 * b3 in
  let wtot := q_rho q + gamma_adi / (gamma_adi - 1) * q_p q + b_sq in let ptot := q_p q + / 2 * b_sq in
  let tt00 := wtot * u0 * u0 - b0 * b0 + ptot * gi 0%nat 0%nat in let tt01 := wtot * u0 * u1 - b0 * b1 + ptot * gi 0%nat 1%nat in let tt03 := wtot * u0 * u3 - b0 * b3 in
  let tt11 := wtot * u1 * u1 - b1 * b1 + ptot * gi 1%nat 1%nat in let tt13 := wtot * u1 * u3 - b1 * b3 + ptot * gi 1%nat 3%nat in
  let tt22 := wtot * u2 * u2 - b2 * b2 + ptot * gi 2%nat 2%nat in let tt33 := wtot * u3 * u3 - b3 * b3 + ptot * gi 3%nat 3%nat in
  (/ 2 * (d1_g_00 * tt00 + 2 * d1_g_01 * tt01 + 2 * d1_g_03 * tt03 + d1_g_11 * tt11 + 2 * d1_g_13 * tt13 + d1_g_22 * tt22 + d1_g_33 * tt33),
   / 2 * (d2_g_00 * tt00 + 2 * d2_g_01 * tt01 + 2 * d2_g_03 * tt03 + d2_g_11 * tt11 + 2 * d2_g_13 * tt13 + d2_g_22 * tt22 + d2_g_33 * tt33)).

(** ** Volumes and areas *)
(** kerr-schild.cpp 668-687 and 723-726, with the arrays of 186-196, 229-240, 387-388, 408-409: faces r0, r1 and t0, t1 of the cell, width dphi. *)
Definition ks_Face1Area (a r0 t0 t1 dphi : R) : R := Rabs (cos t0 - cos t1) * dphi * (SQR r0 + / 3 * (SQR a * (SQR (cos t0) + cos t0 * cos t1 + SQR (cos t1)))).
Definition ks_Face2Area (a r0 r1 t0 dphi : R) : R := (r1 - r0) * Rabs (sin t0) * dphi * (/ 3 * (SQR r0 + r0 * r1 + SQR r1) + SQR a * SQR (cos t0)).
Definition ks_Face3Area (a r0 r1 t0 t1 : R) : R := / 3 * (r1 - r0) * Rabs (cos t0 - cos t1) * (SQR r0 + r0 * r1 + SQR r1 + SQR a * (SQR (cos t0) + cos t0 * cos t1 + SQR (cos t1))).
Definition ks_CellVolume (a r0 r1 t0 t1 dphi : R) : R := / 3 * (r1 - r0) * Rabs (cos t0 - cos t1) * dphi * (SQR r0 + r0 * r1 + SQR r1 + SQR a * (SQR (cos t0) + cos t0 * cos t1 + SQR (cos t1))).
(** schwarzschild.cpp 414-427 and 457-459. *)
Definition sw_Face1Area (r0 t0 t1 dphi : R) : R := SQR r0 * Rabs (cos t0 - cos t1) * dphi.
Definition sw_Face2Area (r0 r1 t0 dphi : R) : R := / 3 * (r1 * r1 * r1 - r0 * r0 * r0) * Rabs (sin t0) * dphi.
Definition sw_Face3Area (r0 r1 t0 t1 : R) : R := / 3 * (r1 * r1 * r1 - r0 * r0 * r0) * Rabs (cos t0 - cos t1).
Definition sw_CellVolume (r0 r1 t0 t1 dphi : R) : R := / 3 * (r1 * r1 * r1 - r0 * r0 * r0) * Rabs (cos t0 - cos t1) * dphi.
