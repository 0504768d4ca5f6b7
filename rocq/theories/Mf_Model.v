(** Radiation in frequency groups: the mapping of intensities between the frequency grids of two frames, src/nr_radiation/integrators/multi_group.cpp.  Exact arithmetic, one angle.
    Grids, intensities and ratios are functions of the group index. *)
From Coq Require Import Reals Bool List Arith.
From Verif Require Import Time_Model.
Local Open Scope R_scope.

(** Sum over the indices below n: the accumulation loops. *)
Fixpoint sumn (n : nat) (f : nat -> R) : R := match n with O => 0 | S k => sumn k f + f k end.
(** TINY_NUMBER, athena.hpp. *)
Definition TINY_NUMBER : R := / 10 ^ 20.

(** GetCmMCIntensity, multi_group.cpp 73-83: the monochromatic intensity at the lower edge of group i. *)
Fixpoint ir_face (ir_cm delta_nu_n : nat -> R) (i : nat) : R :=
  match i with O => 0 | S k => Rmax (2 * ir_cm k / delta_nu_n k - ir_face ir_cm delta_nu_n k) 0 end.

(** SplitFrequencyBinLinear, multi_group.cpp 331-370: entries of the row split_ratio. *)
Definition first_piece (nu : nat -> R) (nu_l nu_r ir_l ir_r : R) (l : nat) : R :=
  let delta_nu := 1 / (nu_r - nu_l) in
  let nu_ratio := (nu (S l) - nu_l) * delta_nu in
  if ltR (ir_l + ir_r) TINY_NUMBER then nu_ratio
  else let ir_l_bd1 := ir_l + (ir_r - ir_l) * nu_ratio in (ir_l_bd1 + ir_l) / (ir_l + ir_r) * nu_ratio.
Definition middle_piece (nu : nat -> R) (nu_l nu_r ir_l ir_r : R) (m : nat) : R :=
  let delta_nu := 1 / (nu_r - nu_l) in
  let nu_ratio := (nu (S m) - nu m) * delta_nu in
  if ltR (ir_l + ir_r) TINY_NUMBER then nu_ratio
  else
    let ir_l_m := ir_l + (ir_r - ir_l) * ((nu m - nu_l) * delta_nu) in
    let ir_l_m1 := ir_l + (ir_r - ir_l) * ((nu (S m) - nu_l) * delta_nu) in
    (ir_l_m + ir_l_m1) / (ir_l + ir_r) * nu_ratio.
Definition piece (nu : nat -> R) (nu_l nu_r ir_l ir_r : R) (l j : nat) : R :=
  match j with O => first_piece nu nu_l nu_r ir_l ir_r l | S _ => middle_piece nu nu_l nu_r ir_l ir_r (l + j) end.
Definition SplitFrequencyBinLinear (l r : nat) (nu : nat -> R) (nu_l nu_r ir_l ir_r : R) (j : nat) : R :=
  if Nat.eqb r l then 1
  else if Nat.ltb j (r - l) then piece nu nu_l nu_r ir_l ir_r l j
  else 1 - sumn (r - l) (piece nu nu_l nu_r ir_l ir_r l).

(** The searches of multi_group.cpp 114-116 and 425-427 (up) and of 141-143, 160, 452-454 and 475 (down), from group b.  The code reads nu[b+1] before it tests b < nfreq-1; the value is not used then. *)
Fixpoint up (fuel nfreq : nat) (nu : nat -> R) (x : R) (b : nat) : nat :=
  match fuel with O => b | S f => if ltR (nu (S b)) x && Nat.ltb b (nfreq - 1) then up f nfreq nu x (S b) else b end.
Fixpoint down (nu : nat -> R) (x : R) (b : nat) : nat :=
  match b with O => O | S c => if ltR x (nu b) then down nu x c else b end.
(** map_start, map_end and the row of split_ratio of a group. *)
Record row := { start : nat; stop : nat; ratio : nat -> R }.
Definition row_up (nfreq : nat) (nu : nat -> R) (nu_l nu_r ir_l ir_r : R) (ifr : nat) : row :=
  let l_bd := up nfreq nfreq nu nu_l ifr in let r_bd := up nfreq nfreq nu nu_r l_bd in
  {| start := l_bd; stop := r_bd; ratio := SplitFrequencyBinLinear l_bd r_bd nu nu_l nu_r ir_l ir_r |}.
Definition row_down (nu : nat -> R) (nu_l nu_r ir_l ir_r : R) (ifr : nat) : row :=
  let r_bd := down nu nu_r ifr in let l_bd := down nu nu_l r_bd in
  {| start := l_bd; stop := r_bd; ratio := SplitFrequencyBinLinear l_bd r_bd nu nu_l nu_r ir_l ir_r |}.
(** The last group, multi_group.cpp 130-133 (441-444) and 157-190 (472-503).  planck is FitIntPlanckFunc, nu_tr the value of EffectiveBlackBody. *)
Definition last_up (nfreq : nat) : row := {| start := nfreq - 1; stop := nfreq - 1; ratio := fun _ => 1 |}.
Definition planck_piece (planck : R -> R) (nu : nat -> R) (nu_l nu_tr : R) (l j : nat) : R :=
  let ori_norm := planck nu_tr in
  let div_ori := if ltR TINY_NUMBER (1 - ori_norm) then 1 / (1 - ori_norm) else 0 in
  match j with
  | O => (planck (nu_tr * nu (S l) / nu_l) - ori_norm) * div_ori
  | S _ => (planck (nu_tr * nu (S (l + j)) / nu_l) - planck (nu_tr * nu (l + j)%nat / nu_l)) * div_ori
  end.
Definition last_down (planck : R -> R) (nfreq : nat) (nu : nat -> R) (nu_l nu_tr : R) : row :=
  let r_bd := (nfreq - 1)%nat in let l_bd := down nu nu_l (nfreq - 2) in
  {| start := l_bd; stop := r_bd;
     ratio := fun j => if Nat.ltb j (r_bd - l_bd) then planck_piece planck nu nu_l nu_tr l_bd j else 1 - sumn (r_bd - l_bd) (planck_piece planck nu nu_l nu_tr l_bd) |}.

(** Result of a splitting: the rows, the fatal error, or a write behind the nmax_map_ entries of the last row (not tested in the code). *)
Inductive outcome (A : Type) := Ok (x : A) | Fatal | OutOfRow.
Arguments Ok {A}. Arguments Fatal {A}. Arguments OutOfRow {A}.
(** Common body of ForwardSplitting (91-198) and BackwardSplitting (397-505): groups with edges e are distributed over the groups with edges nu; upward: the edges e are the higher ones. *)
Definition splitting (planck : R -> R) (effective : R -> R -> R) (nfreq nmax : nat) (upward : bool) (nu e ir face : nat -> R) : outcome (nat -> row) :=
  if Nat.ltb nfreq 2 then Fatal else
  let rows i :=
    if Nat.ltb i (nfreq - 1) then
      if upward then row_up nfreq nu (e i) (e (S i)) (face i) (face (S i)) i else row_down nu (e i) (e (S i)) (face i) (face (S i)) i
    else if upward then last_up nfreq else last_down planck nfreq nu (e (nfreq - 1)%nat) (effective (ir (nfreq - 1)%nat) (e (nfreq - 1)%nat)) in
  let too_long i := Nat.ltb nmax (stop (rows i) - start (rows i) + 1) in
  if existsb too_long (seq 0 (nfreq - 1)) then Fatal
  else if too_long (nfreq - 1)%nat then OutOfRow
  else Ok rows.
Definition ForwardSplitting planck effective nfreq nmax (tran_coef : R) (nu ir face : nat -> R) : outcome (nat -> row) :=
  splitting planck effective nfreq nmax (negb (ltR tran_coef 1)) nu (fun i => nu i * tran_coef) ir face.
Definition BackwardSplitting planck effective nfreq nmax (tran_coef : R) (nu ir face : nat -> R) : outcome (nat -> row) :=
  splitting planck effective nfreq nmax (ltR tran_coef 1) (fun i => nu i * tran_coef) nu ir face.

(** MapIrcmFrequency, multi_group.cpp 203-230. *)
Definition MapIrcmFrequency (nfreq : nat) (rows : nat -> row) (input : nat -> R) (m : nat) : R :=
  sumn nfreq (fun ifr => if Nat.leb (start (rows ifr)) m && Nat.leb m (stop (rows ifr)) then input ifr * ratio (rows ifr) (m - start (rows ifr))%nat else 0).
(** MapLabToCmFrequency, multi_group.cpp 55-71, and MapCmToLabFrequency, 376-389; delta_nu: frequencygrid.cpp 98-100. *)
Definition delta_nu (nu : nat -> R) (i : nat) : R := nu (S i) - nu i.
Definition map_outcome {A B} (f : A -> B) (o : outcome A) : outcome B := match o with Ok x => Ok (f x) | Fatal => Fatal | OutOfRow => OutOfRow end.
Definition MapLabToCmFrequency planck effective nfreq nmax (tran_coef : R) (nu ir_cm : nat -> R) : outcome (nat -> R) :=
  map_outcome (fun rows => MapIrcmFrequency nfreq rows ir_cm)
    (ForwardSplitting planck effective nfreq nmax tran_coef nu ir_cm (ir_face ir_cm (fun i => delta_nu nu i * tran_coef))).
Definition MapCmToLabFrequency planck effective nfreq nmax (tran_coef : R) (nu ir_shift : nat -> R) : outcome (nat -> R) :=
  map_outcome (fun rows => MapIrcmFrequency nfreq rows ir_shift)
    (BackwardSplitting planck effective nfreq nmax tran_coef nu ir_shift (ir_face ir_shift (delta_nu nu))).

(** InverseMapFrequency, multi_group.cpp 288-328, for tran_coef >= 1: None for the return value false.  The result is built as a list, group ifr last. *)
Definition nth0 (l : list R) (i : nat) : R := nth i l 0.
Fixpoint solve_up (count : nat -> nat) (mat : nat -> nat -> R) (input : nat -> R) (n : nat) : option (list R) :=
  match n with
  | O => Some nil
  | S ifr =>
    match solve_up count mat input ifr with
    | None => None
    | Some x =>
      let s := match ifr with O => input O | S _ => input ifr - sumn (count ifr - 1) (fun j => mat ifr (S j) * nth0 x (ifr - S j)) end in
      let v := s / mat ifr O in
      match ifr with O => Some (x ++ v :: nil) | S _ => if ltR v 0 then None else Some (x ++ v :: nil) end
    end
  end.
(** FreMapMatrix, multi_group.cpp 235-282, for tran_coef >= 1: the test of the diagonal (245-251), then the matrix and the number of groups that map to each group.
    An index ifr - map_bin_start(ifr) below zero reads in front of the row: OutOfRow.  Entry (m, m - ifr) is written by group ifr alone. *)
Fixpoint diagonal (rows : nat -> row) (n : nat) : outcome bool :=
  match n with
  | O => Ok true
  | S ifr =>
    match diagonal rows ifr with
    | Ok true => if Nat.ltb ifr (start (rows ifr)) then OutOfRow else if ltR (ratio (rows ifr) (ifr - start (rows ifr))) TINY_NUMBER then Ok false else Ok true
    | o => o
    end
  end.
Definition map_matrix (rows : nat -> row) (m d : nat) : R :=
  if Nat.leb d m && (Nat.leb (start (rows (m - d)%nat)) m && Nat.leb m (stop (rows (m - d)%nat))) then ratio (rows (m - d)%nat) (m - start (rows (m - d)%nat)) else 0.
Fixpoint countb (n : nat) (f : nat -> bool) : nat := match n with O => O | S k => (countb k f + if f k then 1 else 0)%nat end.
Definition map_count (nfreq : nat) (rows : nat -> row) (m : nat) : nat := countb nfreq (fun ifr => Nat.leb (start (rows ifr)) m && Nat.leb m (stop (rows ifr))).
(** rad_source.cpp 201-215 for tran_coef >= 1, up to the fallback: None when the inverse mapping is not used. *)
Definition InverseMap (nfreq : nat) (rows : nat -> row) (input : nat -> R) : outcome (option (list R)) :=
  match diagonal rows nfreq with
  | Ok true => Ok (solve_up (map_count nfreq rows) (map_matrix rows) input nfreq)
  | Ok false => Ok None
  | Fatal => Fatal
  | OutOfRow => OutOfRow
  end.
