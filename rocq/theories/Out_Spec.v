(** Small specification for C84. *)
From Coq Require Import Reals ZArith List.
From Verif Require Import Fv_Model Src_Model Lud_Spec Out_Model.
Local Open Scope R_scope.
(** The sum of f over lo..hi. *)
Definition zsum (lo hi : Z) (f : Z -> R) : R := total (Z.to_nat (hi - lo + 1)) (fun n => f (lo + Z.of_nat n)%Z).
(** The cells lo..hi of a block along one direction: faces in order from the lower to the upper end of the block. *)
Definition axis (xf : Z -> R) (lo hi : Z) (xmin xmax : R) : Prop :=
  (lo <= hi)%Z /\ (forall i, (lo <= i <= hi)%Z -> xf i < xf (i + 1)%Z) /\ xmin = xf lo /\ xmax = xf (hi + 1)%Z.
Definition sound (b : oblock) : Prop := let d := o_dims b in
  axis (f1 b) (is_ d) (ie d) (x1min b) (x1max b) /\ axis (f2 b) (js d) (je d) (x2min b) (x2max b) /\ axis (f3 b) (ks d) (ke d) (x3min b) (x3max b).
(** The cell of the block that holds the position s. *)
Definition holds (xf : Z -> R) (lo hi : Z) (s : R) (c : Z) : Prop := (lo <= c <= hi)%Z /\ xf c <= s < xf (c + 1)%Z.
(** The data cover the active cells of the block at least (with ghost cells if asked for). *)
Definition covers (b : oblock) (o : odata) : Prop := let d := o_dims b in
  (out_is o <= is_ d)%Z /\ (ie d <= out_ie o)%Z /\ (out_js o <= js d)%Z /\ (je d <= out_je o)%Z /\ (out_ks o <= ks d)%Z /\ (ke d <= out_ke o)%Z.
(** No direction is both sliced and summed. *)
Definition no_conflict (q : request) : Prop := (slice1 q = None \/ sum1 q = false) /\ (slice2 q = None \/ sum2 q = false) /\ (slice3 q = None \/ sum3 q = false).
(** The positions asked for lie in the block. *)
Definition within_block (b : oblock) (q : request) : Prop :=
  (forall s, slice1 q = Some s -> x1min b <= s < x1max b) /\ (forall s, slice2 q = Some s -> x2min b <= s < x2max b) /\ (forall s, slice3 q = Some s -> x3min b <= s < x3max b).
(** One direction of an output at its index p: the cell of the slice, the sum over the range, or the data themselves. *)
Definition along (slice : option Z) (sum : bool) (lo hi p : Z) (f : Z -> R) : R := match slice with Some c => f c | None => if sum then zsum lo hi f else f p end.
Definition located (xf : Z -> R) (lo hi : Z) (slice : option R) (c : option Z) : Prop := match slice with Some s => exists i, c = Some i /\ holds xf lo hi s i | None => c = None end.
(** The range of the output along one direction. *)
Definition range_of (slice : option R) (sum : bool) (lo hi : Z) : Z * Z := match slice with Some _ => (0, 0)%Z | None => if sum then (0, 0)%Z else (lo, hi) end.
(** Position of a point of the coordinates (r, theta, phi) or (r, phi, z). *)
Definition spherical_position (r th ph : R) : vec3 := (r * sin th * cos ph, r * sin th * sin ph, r * cos th).
Definition cylindrical_position (r ph z : R) : vec3 := (r * cos ph, r * sin ph, z).
Definition X (v : vec3) : R := fst (fst v).
Definition Y (v : vec3) : R := snd (fst v).
Definition Z_ (v : vec3) : R := snd v.
Definition inner (v w : vec3) : R := X v * X w + Y v * Y w + Z_ v * Z_ w.
(** A curve of points passes with velocity v at t. *)
Definition moves (p : R -> vec3) (t : R) (v : vec3) : Prop :=
  derivable_pt_lim (fun t => X (p t)) t (X v) /\ derivable_pt_lim (fun t => Y (p t)) t (Y v) /\ derivable_pt_lim (fun t => Z_ (p t)) t (Z_ v).
Definition times (c : R) (v : vec3) : vec3 := (c * X v, c * Y v, c * Z_ v).
(** The gas of a cell: its kinetic energy and the rest of its energy. *)
Definition kinetic (u : cell) : R := (c_1 u ^ 2 + c_2 u ^ 2 + c_3 u ^ 2) / (2 * c_d u).
(** What a column of the history file is said to be: the integral over the mesh of this density. *)
Definition pr_index (a b : nat) : nat := match a, b with 1%nat, 1%nat => 4 | 2%nat, 2%nat => 5 | 3%nat, 3%nat => 6 | 1%nat, 2%nat => 7 | 1%nat, 3%nat => 8 | _, _ => 9 end%nat.
Definition mom (u : cell) (d : nat) : R := match d with 1%nat => c_1 u | 2%nat => c_2 u | _ => c_3 u end.
Definition density (l : label) (h : hcell) : R :=
  match l with
  | LMass => c_d (h_u h) | LMom d => mom (h_u h) d | LKE d => mom (h_u h) d ^ 2 / c_d (h_u h) / 2 | LTotE => c_e (h_u h) | LGravE => c_d (h_u h) * h_phi h / 2
  | LME d => h_b h (d - 1) ^ 2 / 2 | LScalar n => h_s h n | LChemRad n => h_ir h n
  | LEr => h_rad h 0%nat | LFr d => h_rad h d | LEr0 => h_radcm h 0%nat | LFr0 d => h_radcm h d | LPr a b => h_rad h (pr_index a b)
  | LErF f => h_radnu h (13 * f)%nat | LFrF f d => h_radnu h (13 * f + d)%nat | LEc => h_cr h 0%nat | LFc d => h_cr h d | LUser _ => 0 end.
Definition sum_list {A} (f : A -> R) (l : list A) : R := fold_right (fun x s => f x + s) 0 l.
Definition block_integral (f : hcell -> R) (b : hblock) : R := let d := hb_dims b in
  zsum (ks d) (ke d) (fun k => zsum (js d) (je d) (fun j => zsum (is_ d) (ie d) (fun i => hb_vol b k j i * f (hb_cell b k j i)))).
(** Over all blocks of all ranks. *)
Definition integral (f : hcell -> R) (ranks : list (list hblock)) : R := sum_list (sum_list (block_integral f)) ranks.
(** A user-defined output: the sum, the largest or the least of the values of the blocks. *)
Definition user_value (op : uop) (vals : list R) (v : R) : Prop :=
  match op with
  | USum => v = sum_list (fun x => x) vals
  | UMax => In v vals /\ forall x, In x vals -> x <= v
  | UMin => In v vals /\ forall x, In x vals -> v <= x end.
(** Configurations in which each column has a place of its own: no radiation of the chemistry module beside radiation transport or cosmic rays, and one frequency group, or up to three without cosmic rays. *)
Definition tidy (c : config) : Prop := (chem c = None \/ (rad c = None /\ cr c = false)) /\ match rad c with Some nf => nf = 1%nat \/ ((4 * nf <= 14)%nat /\ cr c = false) | None => True end.
(** The values of a user-defined output, of all blocks of all ranks. *)
Definition values (n : nat) (ranks : list (list hblock)) : list R := map (fun b => hb_user b n) (concat ranks).
