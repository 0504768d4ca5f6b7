(** What a restart file has to do. *)
From Coq Require Import Ascii List Arith NArith Bool Permutation.
From Verif Require Import Par_Model Rst_Model.
Import ListNotations.
Local Open Scope nat_scope.

(** Writes one behind the other, from [o] to [e]. *)
Inductive tile : nat -> list write -> nat -> Prop :=
| Tnil : forall o, tile o [] o
| Tcons : forall o s ws e, tile (o + length s) ws e -> tile o ((o, s) :: ws) e.
(** Two writes touch no common position. *)
Definition apart (a b : write) : Prop := fst a + length (snd a) <= fst b \/ fst b + length (snd b) <= fst a.
(** The state of a run: objects have their sizes; all blocks have arrays of the same sizes [sz]; the numbers fit in int and uint64_t. *)
Definition good_mesh (S : sizes) (m : mesh) : Prop := length (m_root m) = 4 /\ length (m_region m) = sRegion S /\ length (m_time m) = sReal S /\ length (m_dt m) = sReal S /\ length (m_ncycle m) = 4.
Definition good_blocks (S : sizes) (sz : var -> nat) (bs : list mblock) : Prop := Forall (fun b => length (b_loc b) = sLoc S /\ length (b_cost b) = sDouble S /\ forall v, length (b_arr b v) = sz v) bs.
Definition fits_in (c : config) (sz : var -> nat) (nb : nat) : Prop := (N.of_nat nb < 256 ^ 4)%N /\ (N.of_nat (GetBlockSizeInBytes c sz) < 256 ^ 8)%N.
(** The arrays that belong to a run with configuration [c]. *)
Definition kept (c : config) (v : var) : Prop :=
  match v with
  | U => True | W | W1 => gr c = true | B1 | B2 | B3 => mhd c = true | IR => rad c = true | UCR => cr c = true | ECR => crd c = true
  | SC => scal c = true | HCH => scal c = true /\ chem c = true | CIR => chemrad c = true | IUser n => n < niu c | RUser n => n < nru c
  end.
(** The same block. *)
Definition same_block (c : config) (b b' : mblock) : Prop := b_loc b' = b_loc b /\ b_cost b' = b_cost b /\ forall v, kept c v -> b_arr b' v = b_arr b v.
(** Ranks given by the numbers of their blocks: first block and number of blocks of each. *)
Fixpoint split_ranks (first : nat) (nblist : list nat) : list (nat * nat) := match nblist with [] => [] | n :: l => (first, n) :: split_ranks (first + n) l end.
