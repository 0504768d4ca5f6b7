(** Outputs: slices, sums and Cartesian vectors (src/outputs/outputs.cpp), history files (src/outputs/history.cpp) and the conversion between the systems of orbital advection
    (src/orbital_advection/orbital_system_conversion.cpp), exact arithmetic. *)
From Coq Require Import Reals ZArith List Bool.
Import ListNotations.
From Verif Require Import Fv_Model Met_Model Src_Model.
Local Open Scope R_scope.
Definition ltb (x y : R) : bool := if Rlt_dec x y then true else false.
Definition leb (x y : R) : bool := if Rle_dec x y then true else false.

(** ** Slices and sums *)
(** What SliceOutputData reads of a block: pmb->is..ke, pmb->block_size and the faces of its coordinates. *)
Record oblock := mkOB { o_dims : dims; f1 : Z -> R; f2 : Z -> R; f3 : Z -> R; x1min : R; x1max : R; x2min : R; x2max : R; x3min : R; x3max : R }.
(** output_params: output_slicexn with xn_slice, output_sumxn. *)
Record request := mkRq { slice1 : option R; slice2 : option R; slice3 : option R; sum1 : bool; sum2 : bool; sum3 : bool }.
(** out_is..out_ke and the linked list of OutputData.  Each component of a vector is an entry of its own here. *)
Record odata := mkOD { out_is : Z; out_ie : Z; out_js : Z; out_je : Z; out_ks : Z; out_ke : Z; nodes : list (Z -> Z -> Z -> R) }.
Definition inside (lo hi x : Z) : bool := Z.leb lo x && Z.leb x hi.

(** outputs.cpp 1566-1571: for (int i=is+1; i<=ie+1; ++i) if (x1f(i) > x1_slice) {islice = i-1; break;}, islice(0) before.  n: the values of i left. *)
Fixpoint first_above (xf : Z -> R) (s : R) (n : nat) (i : Z) : Z :=
  match n with O => 0%Z | S n => if ltb s (xf i) then (i - 1)%Z else first_above xf s n (i + 1)%Z end.
Definition slice_index (xf : Z -> R) (s : R) (lo hi : Z) : Z := first_above xf s (Z.to_nat (hi - lo + 1)) (lo + 1)%Z.

(** SliceOutputData, outputs.cpp 1559-1666, for dim = 1, 2, 3; None is false.  NewAthenaArray fills with zeros. *)
Definition Slice1 (b : oblock) (s : R) (o : odata) : option odata :=
  if leb (x1min b) s && ltb s (x1max b) then let c := slice_index (f1 b) s (is_ (o_dims b)) (ie (o_dims b)) in
    Some (mkOD 0 0 (out_js o) (out_je o) (out_ks o) (out_ke o)
      (map (fun a k j i => if inside (out_ks o) (out_ke o) k && inside (out_js o) (out_je o) j && Z.eqb i 0 then a k j c else 0) (nodes o))) else None.
Definition Slice2 (b : oblock) (s : R) (o : odata) : option odata :=
  if leb (x2min b) s && ltb s (x2max b) then let c := slice_index (f2 b) s (js (o_dims b)) (je (o_dims b)) in
    Some (mkOD (out_is o) (out_ie o) 0 0 (out_ks o) (out_ke o)
      (map (fun a k j i => if inside (out_ks o) (out_ke o) k && Z.eqb j 0 && inside (out_is o) (out_ie o) i then a k c i else 0) (nodes o))) else None.
Definition Slice3 (b : oblock) (s : R) (o : odata) : option odata :=
  if leb (x3min b) s && ltb s (x3max b) then let c := slice_index (f3 b) s (ks (o_dims b)) (ke (o_dims b)) in
    Some (mkOD (out_is o) (out_ie o) (out_js o) (out_je o) 0 0
      (map (fun a k j i => if Z.eqb k 0 && inside (out_js o) (out_je o) j && inside (out_is o) (out_ie o) i then a c j i else 0) (nodes o))) else None.

(** Additions to a zero entry in the order of a loop from lo, n times. *)
Fixpoint accumulate (f : Z -> R) (n : nat) (lo : Z) : R := match n with O => 0 | S n => accumulate f n lo + f (lo + Z.of_nat n)%Z end.
Definition loop_sum (lo hi : Z) (f : Z -> R) : R := accumulate f (Z.to_nat (hi - lo + 1)) lo.
(** SumOutputData, outputs.cpp 1672-1735. *)
Definition Sum1 (o : odata) : odata :=
  mkOD 0 0 (out_js o) (out_je o) (out_ks o) (out_ke o) (map (fun a k j i => if inside (out_ks o) (out_ke o) k && inside (out_js o) (out_je o) j && Z.eqb i 0 then loop_sum (out_is o) (out_ie o) (fun i => a k j i) else 0) (nodes o)).
Definition Sum2 (o : odata) : odata :=
  mkOD (out_is o) (out_ie o) 0 0 (out_ks o) (out_ke o) (map (fun a k j i => if inside (out_ks o) (out_ke o) k && Z.eqb j 0 && inside (out_is o) (out_ie o) i then loop_sum (out_js o) (out_je o) (fun j => a k j i) else 0) (nodes o)).
Definition Sum3 (o : odata) : odata :=
  mkOD (out_is o) (out_ie o) (out_js o) (out_je o) 0 0 (map (fun a k j i => if Z.eqb k 0 && inside (out_js o) (out_je o) j && inside (out_is o) (out_ie o) i then loop_sum (out_ks o) (out_ke o) (fun k => a k j i) else 0) (nodes o)).

(** TransformOutputData, outputs.cpp 1529-1553: the flag, and the data.  A slice that misses the block leaves the data as it is and the rest is still done. *)
Definition try_slice (f : odata -> option odata) (o : bool * odata) : bool * odata := match f (snd o) with Some o' => (fst o, o') | None => (false, snd o) end.
Definition TransformOutputData (b : oblock) (q : request) (o : odata) : bool * odata :=
  let r := (true, o) in
  let r := match slice3 q with Some s => try_slice (Slice3 b s) r | None => r end in
  let r := match slice2 q with Some s => try_slice (Slice2 b s) r | None => r end in
  let r := match slice1 q with Some s => try_slice (Slice1 b s) r | None => r end in
  let o := snd r in
  let o := if sum3 q then Sum3 o else o in
  let o := if sum2 q then Sum2 o else o in
  let o := if sum1 q then Sum1 o else o in
  (fst r, o).
(** Outputs constructor, outputs.cpp 234-293: slices within the mesh [x1min, x1max), no slice and sum along one direction.  false: a fatal error. *)
Definition request_ok (m1 M1 m2 M2 m3 M3 : R) (q : request) : bool :=
  let within lo hi s := match s with Some x => leb lo x && ltb x hi | None => true end in
  let both (s : option R) (t : bool) := match s with Some _ => t | None => false end in
  within m1 M1 (slice1 q) && within m2 M2 (slice2 q) && within m3 M3 (slice3 q) && negb (both (slice1 q) (sum1 q)) && negb (both (slice2 q) (sum2 q)) && negb (both (slice3 q) (sum3 q)).

(** ** CalculateCartesianVector, outputs.cpp 1741-1797, at one cell: src and dst hold three components.  flat: out_ks == out_ke.  No other coordinate system writes dst. *)
Definition vec3 := (R * R * R)%type.
Definition CalculateCartesianVector (s : system) (flat : bool) (x2v x3v : R) (v : vec3) : option vec3 :=
  let '(a, b, c) := v in
  match s with
  | spherical_polar =>
    if flat then let n1x := sin x2v in let n1z := cos x2v in let n2x := cos x2v in let n2z := - sin x2v in
      Some (a * n1x + b * n2x, c, a * n1z + b * n2z)
    else let n3x := - sin x3v in let n3y := cos x3v in let n3z := 0 in
      let n1x := sin x2v * cos x3v in let n1y := sin x2v * sin x3v in let n1z := cos x2v in
      let n2x := cos x2v * cos x3v in let n2y := cos x2v * sin x3v in let n2z := - sin x2v in
      Some (a * n1x + b * n2x + c * n3x, a * n1y + b * n2y + c * n3y, a * n1z + b * n2z + c * n3z)
  | cylindrical => let n1x := cos x2v in let n1y := sin x2v in let n2x := - sin x2v in let n2y := cos x2v in
      Some (a * n1x + b * n2x, a * n1y + b * n2y, c)
  | cartesian => None
  end.

(** ** ConvertOrbitalSystem, orbital_system_conversion.cpp 30-117 *)
(** One cell; dir2: orbital_direction == 2.  nb: NON_BAROTROPIC_EOS (without it IEN and IPR are not there: kept). *)
Record pcell := mkPC { p_d : R; p_1 : R; p_2 : R; p_3 : R; p_p : R }.
Definition convert_prim (dir2 : bool) (vK : R) (w : pcell) : pcell :=
  if dir2 then mkPC (p_d w) (p_1 w) (p_2 w) (p_3 w + vK) (p_p w) else mkPC (p_d w) (p_1 w) (p_2 w + vK) (p_3 w) (p_p w).
Definition convert_cons (nb dir2 : bool) (vK : R) (u : cell) : cell :=
  let den := c_d u in let mk := den * vK in
  if dir2 then let m3 := c_3 u in mkCell den (c_1 u) (c_2 u) (m3 + mk) (if nb then c_e u + mk * (m3 + 0.5 * mk) / den else c_e u)
  else let m2 := c_2 u in mkCell den (c_1 u) (m2 + mk) (c_3 u) (if nb then c_e u + mk * (m2 + 0.5 * mk) / den else c_e u).
(** orbital_system_conversion_done, w_orb, u_orb of a block.  The loops cover all cells of the block including ghost cells. *)
Record orb := mkOrb { done_ : Z; w_orb : Z -> Z -> Z -> pcell; u_orb : Z -> Z -> Z -> cell }.
(** [orbital_advection.cpp] 602-632 OrbitalAdvection::SetVKc: the table of orbital velocities at cell centers, indexed by (k,i) when the orbital direction is x2 and by (j,i) when it is x3 ([V] is the OrbitalVelocity function of the run). *)
Definition SetVKc (dir2 : bool) (V : R -> R -> R -> R) (x1v x2v x3v : Z -> R) : Z -> Z -> R := fun a i => if dir2 then V (x1v i) (x2v a) 0 else V (x1v i) 0 (x3v a).
(** vKc(k,i) for direction 1, vKc(j,i) for direction 2. *)
Definition vK_at (dir2 : bool) (vKc : Z -> Z -> R) (k j i : Z) : R := if dir2 then vKc j i else vKc k i.
(** flag: OrbitalTransform::prim = 1, cons = 2, all = 3. *)
Definition ConvertOrbitalSystem (nb dir2 : bool) (vKc : Z -> Z -> R) (w0 : Z -> Z -> Z -> pcell) (u0 : Z -> Z -> Z -> cell) (flag : Z) (o : orb) : orb :=
  if Z.ltb 0 (Z.land (done_ o) flag) then
    let o := if Z.eqb (Z.land (done_ o) flag mod 2) 1 then mkOrb (done_ o - 1) (fun k j i => convert_prim dir2 (vK_at dir2 vKc k j i) (w0 k j i)) (u_orb o) else o in
    if Z.leb 2 (Z.land (done_ o) flag) then mkOrb (done_ o - 2) (w_orb o) (fun k j i => convert_cons nb dir2 (vK_at dir2 vKc k j i) (u0 k j i)) else o
  else o.
(** ResetOrbitalSystemConversionFlag, 124-127. *)
Definition ResetOrbitalSystemConversionFlag (o : orb) : orb := mkOrb 3 (w_orb o) (u_orb o).

(** ** History files, history.cpp *)
(** The configuration: NON_BAROTROPIC_EOS, SELF_GRAVITY_ENABLED, MAGNETIC_FIELDS_ENABLED, NSCALARS, chemistry radiation with its nfreq, radiation transport with its nfreq, CR_ENABLED. *)
Record config := mkCf { nonb : bool; grav : bool; mag : bool; nscal : nat; chem : option nat; rad : option nat; cr : bool }.
Definition NHYDRO (c : config) : nat := if nonb c then 5 else 4.
Definition SG (c : config) : nat := if grav c then 1 else 0.
Definition NFIELD (c : config) : nat := if mag c then 3 else 0.
Definition NRAD (c : config) : nat := match rad c with Some _ => 14 | None => 0 end.
Definition NCR (c : config) : nat := if cr c then 4 else 0.
(** history.cpp 43-44 and 55-58. *)
Definition nhistory_vars (c : config) : nat := NHYDRO c + SG c + NFIELD c + 3 + nscal c + NRAD c + NCR c + match chem c with Some nf => nf | None => 0 end.
(** What is read at one cell: conserved variables (u or u_orb), potential, cell-centered field, scalars, ir_avg, rad_mom, rad_mom_cm, rad_mom_nu, u_cr. *)
Record hcell := mkHC { h_u : cell; h_phi : R; h_b : nat -> R; h_s : nat -> R; h_ir : nat -> R; h_rad : nat -> R; h_radcm : nat -> R; h_radnu : nat -> R; h_cr : nat -> R }.
(** The additions at one cell, history.cpp 93-191 and 194-298 (the same but for where u comes from): column and amount.  None: the fatal error of 163-169.
    The indices IER, IFR1, IFR2, IFR3, IPR11, IPR12, IPR13, IPR22, IPR23, IPR33 (nr_radiation/radiation.hpp 36-37) are 0,1,2,3,4,7,8,5,9,6. *)
Definition writes (c : config) (vol : R) (h : hcell) : option (list (nat * R)) :=
  let u := h_u h in
  let p1 := (NHYDRO c + 3 + SG c)%nat in let p2 := (p1 + NFIELD c)%nat in let p3 := (p2 + nscal c)%nat in let p4 := (p3 + NRAD c)%nat in
  let base := [(0%nat, vol * c_d u); (1%nat, vol * c_1 u); (2%nat, vol * c_2 u); (3%nat, vol * c_3 u);
     (4%nat, vol * 0.5 * (c_1 u * c_1 u) / c_d u); (5%nat, vol * 0.5 * (c_2 u * c_2 u) / c_d u); (6%nat, vol * 0.5 * (c_3 u * c_3 u) / c_d u)]
     ++ (if nonb c then [(7%nat, vol * c_e u)] else [])
     ++ (if grav c then [((NHYDRO c + 3)%nat, vol * 0.5 * c_d u * h_phi h)] else [])
     ++ (if mag c then [(p1, vol * 0.5 * h_b h 0 * h_b h 0); ((p1 + 1)%nat, vol * 0.5 * h_b h 1 * h_b h 1); ((p1 + 2)%nat, vol * 0.5 * h_b h 2 * h_b h 2)] else [])
     ++ map (fun n => ((p2 + n)%nat, vol * h_s h n)) (seq 0 (nscal c))
     ++ match chem c with Some nf => map (fun n => ((p3 + n)%nat, vol * h_ir h n)) (seq 0 nf) | None => [] end in
  let crs := if cr c then [((p4 + 0)%nat, vol * h_cr h 0%nat); ((p4 + 1)%nat, vol * h_cr h 1%nat); ((p4 + 2)%nat, vol * h_cr h 2%nat); ((p4 + 3)%nat, vol * h_cr h 3%nat)] else [] in
  match rad c with
  | None => Some (base ++ crs)
  | Some nf =>
    if Nat.eqb nf 1 then Some (base ++
      [((p3 + 0)%nat, vol * h_rad h 0%nat); ((p3 + 1)%nat, vol * h_rad h 1%nat); ((p3 + 2)%nat, vol * h_rad h 2%nat); ((p3 + 3)%nat, vol * h_rad h 3%nat);
       ((p3 + 4)%nat, vol * h_radcm h 0%nat); ((p3 + 5)%nat, vol * h_radcm h 1%nat); ((p3 + 6)%nat, vol * h_radcm h 2%nat); ((p3 + 7)%nat, vol * h_radcm h 3%nat);
       ((p3 + 8)%nat, vol * h_rad h 4%nat); ((p3 + 9)%nat, vol * h_rad h 7%nat); ((p3 + 10)%nat, vol * h_rad h 8%nat); ((p3 + 11)%nat, vol * h_rad h 5%nat); ((p3 + 12)%nat, vol * h_rad h 9%nat); ((p3 + 13)%nat, vol * h_rad h 6%nat)] ++ crs)
    else if Nat.ltb (NRAD c) (4 * nf) then None
    else Some (base ++ flat_map (fun ifr => [((p3 + 4 * ifr)%nat, vol * h_radnu h (ifr * 13)%nat); ((p3 + 4 * ifr + 1)%nat, vol * h_radnu h (ifr * 13 + 1)%nat);
       ((p3 + 4 * ifr + 2)%nat, vol * h_radnu h (ifr * 13 + 2)%nat); ((p3 + 4 * ifr + 3)%nat, vol * h_radnu h (ifr * 13 + 3)%nat)]) (seq 0 nf) ++ crs)
  end.
(** hst_data[n] += v. *)
Definition hst := nat -> R.
Definition add_at (h : hst) (w : nat * R) : hst := fun n => if Nat.eqb n (fst w) then h n + snd w else h n.
(** A block: is..ke, volumes, the data of its cells, and the values of the user-defined history functions. *)
Record hblock := mkHB { hb_dims : dims; hb_vol : Z -> Z -> Z -> R; hb_cell : Z -> Z -> Z -> hcell; hb_user : nat -> R }.
Definition zrange (lo hi : Z) : list Z := map (fun n => (lo + Z.of_nat n)%Z) (seq 0 (Z.to_nat (hi - lo + 1))).
(** for k, for j, for i: the cells of a block in the order of the loops. *)
Definition cells_of (b : hblock) : list (R * hcell) :=
  let d := hb_dims b in flat_map (fun k => flat_map (fun j => map (fun i => (hb_vol b k j i, hb_cell b k j i)) (zrange (is_ d) (ie d))) (zrange (js d) (je d))) (zrange (ks d) (ke d)).
Definition add_cell (c : config) (h : option hst) (x : R * hcell) : option hst :=
  match h, writes c (fst x) (snd x) with Some h, Some ws => Some (fold_left add_at ws h) | _, _ => None end.
(** The built-in columns of one rank: all zero, then its blocks in turn. *)
Definition rank_data (c : config) (bs : list hblock) : option hst := fold_left (add_cell c) (flat_map cells_of bs) (Some (fun _ => 0)).
(** MPI_Reduce with MPI_SUM over the ranks (318-329). *)
Definition reduce_sum (c : config) (ranks : list (list hblock)) : option hst :=
  fold_right (fun bs acc => match rank_data c bs, acc with Some h, Some a => Some (fun n => h n + a n) | _, _ => None end) (Some (fun _ => 0)) ranks.
(** User-defined outputs: initial value, operation over the blocks of a rank, and over the ranks; real_max is the largest number of the type Real.  No function was enrolled: the value stays as it is. *)
Inductive uop := USum | UMax | UMin.
Definition u_init (real_max : R) (op : uop) : R := match op with USum => 0 | UMax => - real_max | UMin => real_max end.
Definition u_op (op : uop) (x y : R) : R := match op with USum => x + y | UMax => Rmax x y | UMin => Rmin x y end.
Definition user_rank (real_max : R) (op : uop) (enrolled : bool) (n : nat) (bs : list hblock) : R :=
  if enrolled then fold_left (fun a b => u_op op (hb_user b n) a) bs (u_init real_max op) else u_init real_max op.
Definition user_data (real_max : R) (op : uop) (enrolled : bool) (n : nat) (ranks : list (list hblock)) : R :=
  match ranks with [] => u_init real_max op | r :: rs => fold_left (fun a bs => u_op op a (user_rank real_max op enrolled n bs)) rs (user_rank real_max op enrolled n r) end.

(** The labels of the header after time and dt, 385-461. *)
Inductive label := LMass | LMom (d : nat) | LKE (d : nat) | LTotE | LGravE | LME (d : nat) | LScalar (n : nat) | LChemRad (n : nat) | LEr | LFr (d : nat) | LEr0 | LFr0 (d : nat) | LPr (a b : nat) | LErF (f : nat) | LFrF (f d : nat) | LEc | LFc (d : nat) | LUser (n : nat).
Definition builtin_labels (c : config) : list label :=
  [LMass; LMom 1; LMom 2; LMom 3; LKE 1; LKE 2; LKE 3] ++ (if nonb c then [LTotE] else []) ++ (if grav c then [LGravE] else []) ++ (if mag c then [LME 1; LME 2; LME 3] else [])
  ++ map LScalar (seq 0 (nscal c)) ++ match chem c with Some nf => map LChemRad (seq 0 nf) | None => [] end
  ++ match rad c with None => [] | Some nf => if Nat.eqb nf 1 then [LEr; LFr 1; LFr 2; LFr 3; LEr0; LFr0 1; LFr0 2; LFr0 3; LPr 1 1; LPr 1 2; LPr 1 3; LPr 2 2; LPr 2 3; LPr 3 3]
       else flat_map (fun f => [LErF f; LFrF f 1; LFrF f 2; LFrF f 3]) (seq 0 nf) end
  ++ (if cr c then [LEc; LFc 1; LFc 2; LFc 3] else []).
Definition header (c : config) (nuser : nat) : list label := builtin_labels c ++ map LUser (seq 0 nuser).
(** A line of the file after time and dt, 465-469: hst_data[0..nhistory_output-1], the first nhistory_vars of them built in. *)
Definition column (real_max : R) (c : config) (nuser : nat) (op : nat -> uop) (enrolled : nat -> bool) (ranks : list (list hblock)) (n : nat) : option R :=
  match reduce_sum c ranks with None => None | Some h =>
    if Nat.ltb n (nhistory_vars c) then Some (h n)
    else if Nat.ltb n (nhistory_vars c + nuser) then let m := (n - nhistory_vars c)%nat in Some (user_data real_max (op m) (enrolled m) m ranks) else None end.
