(** Projection on characteristic variables, src/reconstruct/characteristic.cpp, and the two reconstructions that use it (plm.cpp, ppm.cpp with characteristic_projection_), exact arithmetic.
    [mhd] is MAGNETIC_FIELDS_ENABLED, [adi] is NON_BAROTROPIC_EOS, [g] is gamma when [adi], the isothermal sound speed otherwise.  A vector holds the NWAVE components of one cell; the loops over i treat each cell alone. *)
From Coq Require Import Reals ZArith Bool PeanoNat.
From Verif Require Import Time_Model Rec_Model.
Local Open Scope R_scope.

Definition vec := nat -> R.
(** vect(k,i) = x. *)
Definition upd (v : vec) (k : nat) (x : R) : vec := fun n => if Nat.eqb n k then x else v n.
(** Indices, athena.hpp 107-138: IDN, IVX, IVY, IVZ, IPR; IBY = NHYDRO, IBZ = NHYDRO+1; NWAVE (defs.hpp, configure.py). *)
Definition IDN : nat := 0.
Definition IVX : nat := 1.
Definition IPR : nat := 4.
Definition NHYDRO (adi : bool) : nat := if adi then 5 else 4.
Definition IBY (adi : bool) : nat := NHYDRO adi.
Definition IBZ (adi : bool) : nat := S (NHYDRO adi).
Definition NWAVE (mhd adi : bool) : nat := if mhd then NHYDRO adi + 2 else NHYDRO adi.
(** 47-48, 298-299. *)
Definition ivy_of (ivx : nat) : nat := IVX + Nat.modulo ((ivx - IVX) + 1) 3.
Definition ivz_of (ivx : nat) : nat := IVX + Nat.modulo ((ivx - IVX) + 2) 3.

Definition SQR (x : R) : R := x * x.
(** 59-79 and 307-327 adiabatic, 145-162 and 395-412 isothermal; the two functions repeat the same text. *)
Definition gamp_of (adi : bool) (g : R) (w : vec) : R := if adi then g * w IPR else SQR g * w IDN.
Definition btsq_of (adi : bool) (w : vec) : R := SQR (w (IBY adi)) + SQR (w (IBZ adi)).
Definition asq_of (adi : bool) (g : R) (w : vec) : R := if adi then gamp_of adi g w * (1 / w IDN) else SQR g.
Definition a_of (adi : bool) (g : R) (w : vec) : R := if adi then sqrt (asq_of adi g w) else g.
Definition cfsq0 (adi : bool) (g b1 : R) (w : vec) : R :=
  let btsq := btsq_of adi w in
  let bxsq := b1 * b1 in
  let gamp := gamp_of adi g w in
  let tdif := bxsq + btsq - gamp in
  let cf2_cs2 := sqrt (tdif * tdif + 4 * gamp * btsq) in
  1 / 2 * (bxsq + btsq + gamp + cf2_cs2).
Definition cssq0 (adi : bool) (g b1 : R) (w : vec) : R := gamp_of adi g w * (b1 * b1) / cfsq0 adi g b1 w.
Definition cfsq_of (adi : bool) (g b1 : R) (w : vec) : R := cfsq0 adi g b1 w * (1 / w IDN).
Definition cssq_of (adi : bool) (g b1 : R) (w : vec) : R := cssq0 adi g b1 w * (1 / w IDN).
Definition cf_of (adi : bool) (g b1 : R) (w : vec) : R := sqrt (cfsq_of adi g b1 w).
Definition cs_of (adi : bool) (g b1 : R) (w : vec) : R := sqrt (cssq_of adi g b1 w).
(** 81-91 and 165-171 (LeftEigenmatrixDotVector: [d2] = 1.0), 329-336 and 414-421 (RightEigenmatrixDotVector: [d2] = 0.0). *)
Definition bet2_of (adi : bool) (d2 : R) (w : vec) : R := let bt := sqrt (btsq_of adi w) in if Req_EM_T bt 0 then d2 else w (IBY adi) / bt.
Definition bet3_of (adi : bool) (w : vec) : R := let bt := sqrt (btsq_of adi w) in if Req_EM_T bt 0 then 0 else w (IBZ adi) / bt.
Definition left_d2 : R := 1.
Definition right_d2 : R := 0.
(** 93-111, 173-187, 338-352, 423-437. *)
Definition alpha_f_of (adi : bool) (g b1 : R) (w : vec) : R :=
  let cfsq := cfsq_of adi g b1 w in let cssq := cssq_of adi g b1 w in let asq := asq_of adi g w in
  if leR (cfsq - cssq) 0 then 1 else if leR (asq - cssq) 0 then 0 else if leR (cfsq - asq) 0 then 1 else sqrt ((asq - cssq) / (cfsq - cssq)).
Definition alpha_s_of (adi : bool) (g b1 : R) (w : vec) : R :=
  let cfsq := cfsq_of adi g b1 w in let cssq := cssq_of adi g b1 w in let asq := asq_of adi g w in
  if leR (cfsq - cssq) 0 then 0 else if leR (asq - cssq) 0 then 1 else if leR (cfsq - asq) 0 then 0 else sqrt ((cfsq - asq) / (cfsq - cssq)).

(** The body of the loop of LeftEigenmatrixDotVector given the speeds, adiabatic MHD: 59-61, 113-139. *)
Definition left_ma (id sqrtd asq a cf cs alpha_f alpha_s bet2 bet3 s v0 vx vy vz vp vby vbz : R) : vec :=
  let isqrtd := 1 / sqrtd in
  let nf := 1 / 2 / asq in
  let qf := nf * cf * alpha_f * s in
  let qs := nf * cs * alpha_s * s in
  let af_prime := 1 / 2 * alpha_f / (a * sqrtd) in
  let as_prime := 1 / 2 * alpha_s / (a * sqrtd) in
  fun n => match n with
  | 0%nat => nf * alpha_f * (vp * id - cf * vx) + qs * (bet2 * vy + bet3 * vz) + as_prime * (bet2 * vby + bet3 * vbz)
  | 1%nat => 1 / 2 * (bet2 * (vbz * s * isqrtd + vz) - bet3 * (vby * s * isqrtd + vy))
  | 2%nat => nf * alpha_s * (vp * id - cs * vx) - qf * (bet2 * vy + bet3 * vz) - af_prime * (bet2 * vby + bet3 * vbz)
  | 3%nat => v0 - vp / asq
  | 4%nat => nf * alpha_s * (vp * id + cs * vx) + qf * (bet2 * vy + bet3 * vz) - af_prime * (bet2 * vby + bet3 * vbz)
  | 5%nat => 1 / 2 * (bet2 * (vbz * s * isqrtd - vz) - bet3 * (vby * s * isqrtd - vy))
  | _ => nf * alpha_f * (vp * id + cf * vx) - qs * (bet2 * vy + bet3 * vz) + as_prime * (bet2 * vby + bet3 * vbz)
  end.
(** Isothermal MHD: 145-147, 189-213. *)
Definition left_mi (id sqrtd iso_cs cf cs alpha_f alpha_s bet2 bet3 s v0 vx vy vz vby vbz : R) : vec :=
  let isqrtd := 1 / sqrtd in
  let iso_cs2 := SQR iso_cs in
  let qf := 1 / 2 * (cf * alpha_f * s) / iso_cs2 in
  let qs := 1 / 2 * (cs * alpha_s * s) / iso_cs2 in
  let af_prime := 1 / 2 * alpha_f / (iso_cs * sqrtd) in
  let as_prime := 1 / 2 * alpha_s / (iso_cs * sqrtd) in
  fun n => match n with
  | 0%nat => 1 / 2 * alpha_f * (v0 * id - cf * vx / iso_cs2) + qs * (bet2 * vy + bet3 * vz) + as_prime * (bet2 * vby + bet3 * vbz)
  | 1%nat => 1 / 2 * (bet2 * (vbz * s * isqrtd + vz) - bet3 * (vby * s * isqrtd + vy))
  | 2%nat => 1 / 2 * alpha_s * (v0 * id - cs * vx / iso_cs2) - qf * (bet2 * vy + bet3 * vz) - af_prime * (bet2 * vby + bet3 * vbz)
  | 3%nat => 1 / 2 * alpha_s * (v0 * id + cs * vx / iso_cs2) + qf * (bet2 * vy + bet3 * vz) - af_prime * (bet2 * vby + bet3 * vbz)
  | 4%nat => 1 / 2 * (bet2 * (vbz * s * isqrtd - vz) - bet3 * (vby * s * isqrtd - vy))
  | _ => 1 / 2 * alpha_f * (v0 * id + cf * vx / iso_cs2) - qs * (bet2 * vy + bet3 * vz) + as_prime * (bet2 * vby + bet3 * vbz)
  end.
(** Adiabatic hydrodynamics: 228-238. *)
Definition left_ha (g : R) (w : vec) (v0 vx vy vz vp : R) : vec :=
  let asq := g * w IPR / w IDN in
  let a := sqrt asq in
  fun n => match n with
  | 0%nat => 1 / 2 * (vp / asq - w IDN * vx / a)
  | 1%nat => v0 - vp / asq
  | 2%nat => vy
  | 3%nat => vz
  | _ => 1 / 2 * (vp / asq + w IDN * vx / a)
  end.
(** Isothermal hydrodynamics: 253-258. *)
Definition left_hi (iso_cs : R) (w : vec) (v0 vx vy vz : R) : vec :=
  fun n => match n with
  | 0%nat => 1 / 2 * (v0 - w IDN * vx / iso_cs)
  | 1%nat => vy
  | 2%nat => vz
  | _ => 1 / 2 * (v0 + w IDN * vx / iso_cs)
  end.
(** LeftEigenmatrixDotVector, 43-276; the components from NWAVE on are not written. *)
Definition LeftEigenmatrixDotVector (mhd adi : bool) (g : R) (ivx : nat) (b1 : R) (w vect : vec) : vec :=
  let ivy := ivy_of ivx in let ivz := ivz_of ivx in
  let out :=
    if mhd then
      let cf := cf_of adi g b1 w in let cs := cs_of adi g b1 w in
      let af := alpha_f_of adi g b1 w in let as_ := alpha_s_of adi g b1 w in
      let bet2 := bet2_of adi left_d2 w in let bet3 := bet3_of adi w in
      if adi then left_ma (1 / w IDN) (sqrt (w IDN)) (asq_of adi g w) (a_of adi g w) cf cs af as_ bet2 bet3 (SIGN b1)
                    (vect IDN) (vect ivx) (vect ivy) (vect ivz) (vect IPR) (vect (IBY adi)) (vect (IBZ adi))
      else left_mi (1 / w IDN) (sqrt (w IDN)) g cf cs af as_ bet2 bet3 (SIGN b1)
                    (vect IDN) (vect ivx) (vect ivy) (vect ivz) (vect (IBY adi)) (vect (IBZ adi))
    else if adi then left_ha g w (vect IDN) (vect ivx) (vect ivy) (vect ivz) (vect IPR)
    else left_hi g w (vect IDN) (vect ivx) (vect ivy) (vect ivz) in
  fun n => if Nat.ltb n (NWAVE mhd adi) then out n else vect n.

(** RightEigenmatrixDotVector, 294-535. *)
Definition RightEigenmatrixDotVector (mhd adi : bool) (g : R) (ivx : nat) (b1 : R) (w vect : vec) : vec :=
  let ivy := ivy_of ivx in let ivz := ivz_of ivx in
  if mhd then
    let cf := cf_of adi g b1 w in let cs := cs_of adi g b1 w in
    let alpha_f := alpha_f_of adi g b1 w in let alpha_s := alpha_s_of adi g b1 w in
    let bet2 := bet2_of adi right_d2 w in let bet3 := bet3_of adi w in
    let sqrtd := sqrt (w IDN) in
    let asq := asq_of adi g w in let a := a_of adi g w in
    let s := SIGN b1 in
    let qf := cf * alpha_f * s in
    let qs := cs * alpha_s * s in
    let af := a * alpha_f * sqrtd in
    let as_ := a * alpha_s * sqrtd in
    if adi then (* 354-388 *)
      let v_0 := w IDN * (alpha_f * (vect 0%nat + vect 6%nat) + alpha_s * (vect 2%nat + vect 4%nat)) + vect 3%nat in
      let v_1 := cf * alpha_f * (vect 6%nat - vect 0%nat) + cs * alpha_s * (vect 4%nat - vect 2%nat) in
      let v_2 := bet2 * (qs * (vect 0%nat - vect 6%nat) + qf * (vect 4%nat - vect 2%nat)) + bet3 * (vect 5%nat - vect 1%nat) in
      let v_3 := bet3 * (qs * (vect 0%nat - vect 6%nat) + qf * (vect 4%nat - vect 2%nat)) + bet2 * (vect 1%nat - vect 5%nat) in
      let v_4 := w IDN * asq * (alpha_f * (vect 0%nat + vect 6%nat) + alpha_s * (vect 2%nat + vect 4%nat)) in
      let v_5 := bet2 * (as_ * (vect 0%nat + vect 6%nat) - af * (vect 2%nat + vect 4%nat)) - bet3 * s * sqrtd * (vect 5%nat + vect 1%nat) in
      let v_6 := bet3 * (as_ * (vect 0%nat + vect 6%nat) - af * (vect 2%nat + vect 4%nat)) + bet2 * s * sqrtd * (vect 5%nat + vect 1%nat) in
      upd (upd (upd (upd (upd (upd (upd vect IDN v_0) ivx v_1) ivy v_2) ivz v_3) IPR v_4) (IBY adi) v_5) (IBZ adi) v_6
    else (* 439-470 *)
      let v_0 := w IDN * (alpha_f * (vect 0%nat + vect 5%nat) + alpha_s * (vect 2%nat + vect 3%nat)) in
      let v_1 := cf * alpha_f * (vect 5%nat - vect 0%nat) + cs * alpha_s * (vect 3%nat - vect 2%nat) in
      let v_2 := bet2 * (qs * (vect 0%nat - vect 5%nat) + qf * (vect 3%nat - vect 2%nat)) + bet3 * (vect 4%nat - vect 1%nat) in
      let v_3 := bet3 * (qs * (vect 0%nat - vect 5%nat) + qf * (vect 3%nat - vect 2%nat)) + bet2 * (vect 1%nat - vect 4%nat) in
      let v_4 := bet2 * (as_ * (vect 0%nat + vect 5%nat) - af * (vect 2%nat + vect 3%nat)) - bet3 * s * sqrtd * (vect 4%nat + vect 1%nat) in
      let v_5 := bet3 * (as_ * (vect 0%nat + vect 5%nat) - af * (vect 2%nat + vect 3%nat)) + bet2 * s * sqrtd * (vect 4%nat + vect 1%nat) in
      upd (upd (upd (upd (upd (upd vect IDN v_0) ivx v_1) ivy v_2) ivz v_3) (IBY adi) v_4) (IBZ adi) v_5
  else if adi then (* 480-500 *)
    let asq := g * w IPR / w IDN in
    let a := sqrt asq in
    let v_0 := vect 0%nat + vect 1%nat + vect 4%nat in
    let v_1 := a * (vect 4%nat - vect 0%nat) / w IDN in
    let v_2 := vect 2%nat in
    let v_3 := vect 3%nat in
    let v_4 := asq * (vect 0%nat + vect 4%nat) in
    upd (upd (upd (upd (upd vect IDN v_0) ivx v_1) ivy v_2) ivz v_3) IPR v_4
  else (* 508-524 *)
    let v_0 := vect 0%nat + vect 3%nat in
    let v_1 := g * (vect 3%nat - vect 0%nat) / w IDN in
    let v_2 := vect 1%nat in
    let v_3 := vect 2%nat in
    upd (upd (upd (upd vect IDN v_0) ivx v_1) ivy v_2) ivz v_3.

(** PiecewiseLinearX1/2/3 with characteristic_projection_, plm.cpp 28-167.  [q n] is variable n along the direction of reconstruction (for n >= NHYDRO the transverse cell-centred field), [bx i] the field along it.
    The limiters are those of [plm_slope], fed with the projected differences. *)
Definition cell (q : nat -> line) (i : Z) : vec := fun n => q n i.
Definition diff_line (i : Z) (dl dr : R) : line := fun m => if Z.ltb m i then - dl else if Z.eqb m i then 0 else dr.
Definition CharPLM (mhd adi : bool) (g : R) (ivx : nat) (mm uc : bool) (xf xv : line) (bx : line) (q : nat -> line) (i : Z) (n : nat) : R * R :=
  let wc := cell q i in
  let dwl := LeftEigenmatrixDotVector mhd adi g ivx (bx i) wc (fun n => q n i - q n (i - 1)%Z) in
  let dwr := LeftEigenmatrixDotVector mhd adi g ivx (bx i) wc (fun n => q n (i + 1)%Z - q n i) in
  let dwm := RightEigenmatrixDotVector mhd adi g ivx (bx i) wc (fun n => plm_slope mm uc xf xv (diff_line i (dwl n) (dwr n)) i) in
  plm_states xf xv (q n) i (dwm n).
(** PiecewiseParabolicX1/2/3 with characteristic_projection_, ppm.cpp 44-324, before the floors are applied. *)
Definition CharPPM (mhd adi : bool) (g : R) (ivx : nat) (ext unif curv : bool) (c : ppmc) (bx : line) (q : nat -> line) (i : Z) (n : nat) : R * R :=
  let wc := cell q i in
  let qc n m := LeftEigenmatrixDotVector mhd adi g ivx (bx i) wc (cell q m) n in
  let ql := RightEigenmatrixDotVector mhd adi g ivx (bx i) wc (fun n => fst (PiecewiseParabolic ext unif curv c (qc n) i)) in
  let qr := RightEigenmatrixDotVector mhd adi g ivx (bx i) wc (fun n => snd (PiecewiseParabolic ext unif curv c (qc n) i)) in
  (ql n, qr n).
