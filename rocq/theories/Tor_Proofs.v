(** Lemmas on sums over periodic meshes. *)
From Coq Require Import Reals ZArith Lra Lia.
From Verif Require Import Fv_Model Lud_Spec Lud_Proofs Tor_Spec.
Local Open Scope R_scope.

Lemma row_ext n f g : (forall i, f i = g i) -> row_sum n f = row_sum n g.
Proof. intros H. apply total_ext. intros. apply H. Qed.
Lemma row_plus n f g : row_sum n (fun i => f i + g i) = row_sum n f + row_sum n g.
Proof. apply total_plus. Qed.
Lemma row_scal n c f : row_sum n (fun i => c * f i) = c * row_sum n f.
Proof. apply total_scal. Qed.
Lemma row_le n f g : (forall i, f i <= g i) -> row_sum n f <= row_sum n g.
Proof. intros H. unfold row_sum. induction n; simpl; [lra|]. specialize (H (Z.of_nat n)). lra. Qed.
Lemma row_up n f : f (Z.of_nat n) = f 0%Z -> row_sum n (fun i => f (i + 1)%Z) = row_sum n f.
Proof.
  intros H. unfold row_sum. assert (G : forall m, total m (fun i => f (Z.of_nat i + 1)%Z) = total m (fun i => f (Z.of_nat i)) + f (Z.of_nat m) - f 0%Z).
  { induction m; simpl total; [simpl; ring|]. rewrite IHm. replace (Z.of_nat (S m)) with (Z.of_nat m + 1)%Z by lia. ring. }
  rewrite G, H. ring.
Qed.
Section Box.
Variables n1 n2 n3 : nat.
Notation box := (box_sum n1 n2 n3).
Notation per := (periodic n1 n2 n3).

Lemma box_ext f g : (forall k j i, f k j i = g k j i) -> box f = box g.
Proof. intros H. unfold box_sum. apply row_ext. intros. apply row_ext. intros. apply row_ext. intros. apply H. Qed.
Lemma box_plus f g : box (fun k j i => f k j i + g k j i) = box f + box g.
Proof. unfold box_sum. rewrite <- row_plus. apply row_ext. intros k. rewrite <- row_plus. apply row_ext. intros j. rewrite <- row_plus. reflexivity. Qed.
Lemma box_scal c f : box (fun k j i => c * f k j i) = c * box f.
Proof. unfold box_sum. rewrite <- row_scal. apply row_ext. intros k. rewrite <- row_scal. apply row_ext. intros j. rewrite <- row_scal. reflexivity. Qed.
Lemma box_minus f g : box (fun k j i => f k j i - g k j i) = box f - box g.
Proof. replace (box f - box g) with (box f + (-1) * box g) by ring. rewrite <- box_scal, <- box_plus. apply box_ext. intros. ring. Qed.
Lemma box_le f g : (forall k j i, f k j i <= g k j i) -> box f <= box g.
Proof. intros H. unfold box_sum. apply row_le. intros. apply row_le. intros. apply row_le. intros. apply H. Qed.
Lemma box_zero : box (fun _ _ _ => 0) = 0.
Proof. transitivity (box (fun k j i => 0 * 0)); [apply box_ext; intros; ring|]. rewrite box_scal. ring. Qed.
Lemma box_pos f : (forall k j i, 0 <= f k j i) -> 0 <= box f.
Proof. intros H. rewrite <- box_zero. apply box_le. auto. Qed.

Lemma box_i f : per f -> box (fun k j i => f k j (i + 1)%Z) = box f.
Proof. intros H. unfold box_sum. apply row_ext. intros k. apply row_ext. intros j. apply (row_up n1 (fun i => f k j i)). rewrite <- (proj1 (H k j 0%Z)). f_equal; lia. Qed.
Lemma box_j f : per f -> box (fun k j i => f k (j + 1)%Z i) = box f.
Proof. intros H. unfold box_sum. apply row_ext. intros k. apply (row_up n2 (fun j => row_sum n1 (fun i => f k j i))). apply row_ext. intros i. rewrite <- (proj1 (proj2 (H k 0%Z i))). f_equal; lia. Qed.
Lemma box_k f : per f -> box (fun k j i => f (k + 1)%Z j i) = box f.
Proof. intros H. unfold box_sum. apply (row_up n3 (fun k => row_sum n2 (fun j => row_sum n1 (fun i => f k j i)))). apply row_ext. intros j. apply row_ext. intros i. rewrite <- (proj2 (proj2 (H 0%Z j i))). f_equal; lia. Qed.

(** Closure of periodic arrays. *)
Lemma per_op (o : R -> R -> R) f g : per f -> per g -> per (fun k j i => o (f k j i) (g k j i)).
Proof. intros F G k j i. destruct (F k j i) as [F1 [F2 F3]], (G k j i) as [G1 [G2 G3]]. rewrite F1, F2, F3, G1, G2, G3. auto. Qed.
Lemma per_plus f g : per f -> per g -> per (fun k j i => f k j i + g k j i).
Proof. apply (per_op Rplus). Qed.
Lemma per_minus f g : per f -> per g -> per (fun k j i => f k j i - g k j i).
Proof. apply (per_op Rminus). Qed.
Lemma per_mult f g : per f -> per g -> per (fun k j i => f k j i * g k j i).
Proof. apply (per_op Rmult). Qed.
Lemma per_div f g : per f -> per g -> per (fun k j i => f k j i / g k j i).
Proof. apply (per_op Rdiv). Qed.
Lemma per_opp f : per f -> per (fun k j i => - f k j i).
Proof. intros F. apply (per_op (fun x _ => - x) f f); auto. Qed.
Lemma per_const c : per (fun _ _ _ => c).
Proof. intros k j i. auto. Qed.
Lemma per_shift a b c f : per f -> per (fun k j i => f (k + a)%Z (j + b)%Z (i + c)%Z).
Proof.
  intros F k j i. replace (i + Z.of_nat n1 + c)%Z with (i + c + Z.of_nat n1)%Z by lia. replace (j + Z.of_nat n2 + b)%Z with (j + b + Z.of_nat n2)%Z by lia. replace (k + Z.of_nat n3 + a)%Z with (k + a + Z.of_nat n3)%Z by lia. apply F.
Qed.
Lemma per_eq f g : (forall k j i, f k j i = g k j i) -> per f -> per g.
Proof. intros E F k j i. rewrite <- !E. apply F. Qed.
Lemma per_ip f : per f -> per (fun k j i => f k j (i + 1)%Z).
Proof. intros F. apply per_eq with (fun k j i => f (k + 0)%Z (j + 0)%Z (i + 1)%Z); [intros; f_equal; lia|apply per_shift; auto]. Qed.
Lemma per_im f : per f -> per (fun k j i => f k j (i - 1)%Z).
Proof. intros F. apply per_eq with (fun k j i => f (k + 0)%Z (j + 0)%Z (i + -1)%Z); [intros; f_equal; lia|apply per_shift; auto]. Qed.
Lemma per_jp f : per f -> per (fun k j i => f k (j + 1)%Z i).
Proof. intros F. apply per_eq with (fun k j i => f (k + 0)%Z (j + 1)%Z (i + 0)%Z); [intros; f_equal; lia|apply per_shift; auto]. Qed.
Lemma per_jm f : per f -> per (fun k j i => f k (j - 1)%Z i).
Proof. intros F. apply per_eq with (fun k j i => f (k + 0)%Z (j + -1)%Z (i + 0)%Z); [intros; f_equal; lia|apply per_shift; auto]. Qed.
Lemma per_kp f : per f -> per (fun k j i => f (k + 1)%Z j i).
Proof. intros F. apply per_eq with (fun k j i => f (k + 1)%Z (j + 0)%Z (i + 0)%Z); [intros; f_equal; lia|apply per_shift; auto]. Qed.
Lemma per_km f : per f -> per (fun k j i => f (k - 1)%Z j i).
Proof. intros F. apply per_eq with (fun k j i => f (k + -1)%Z (j + 0)%Z (i + 0)%Z); [intros; f_equal; lia|apply per_shift; auto]. Qed.

Lemma box_im f : per f -> box (fun k j i => f k j (i - 1)%Z) = box f.
Proof. intros H. rewrite <- (box_i (fun k j i => f k j (i - 1)%Z)) by (apply per_im; auto). apply box_ext. intros. f_equal; lia. Qed.
Lemma box_jm f : per f -> box (fun k j i => f k (j - 1)%Z i) = box f.
Proof. intros H. rewrite <- (box_j (fun k j i => f k (j - 1)%Z i)) by (apply per_jm; auto). apply box_ext. intros. f_equal; lia. Qed.
Lemma box_km f : per f -> box (fun k j i => f (k - 1)%Z j i) = box f.
Proof. intros H. rewrite <- (box_k (fun k j i => f (k - 1)%Z j i)) by (apply per_km; auto). apply box_ext. intros. f_equal; lia. Qed.

(** Summation by parts. *)
Lemma parts_i v F : per v -> per F -> box (fun k j i => v k j i * (F k j (i + 1)%Z - F k j i)) = - box (fun k j i => F k j i * (v k j i - v k j (i - 1)%Z)).
Proof.
  intros Pv PF. transitivity (box (fun k j i => v k j i * F k j (i + 1)%Z) - box (fun k j i => v k j i * F k j i)); [rewrite <- box_minus; apply box_ext; intros; ring|].
  assert (E : box (fun k j i => v k j i * F k j (i + 1)%Z) = box (fun k j i => v k j (i - 1)%Z * F k j i)) by (rewrite <- (box_i (fun k j i => v k j (i - 1)%Z * F k j i)) by (apply per_mult; [apply per_im|]; auto); apply box_ext; intros; f_equal; f_equal; lia). rewrite E.
  replace (- box (fun k j i => F k j i * (v k j i - v k j (i - 1)%Z))) with ((-1) * box (fun k j i => F k j i * (v k j i - v k j (i - 1)%Z))) by ring. rewrite <- box_scal, <- box_minus. apply box_ext. intros. ring.
Qed.
Lemma parts_j v F : per v -> per F -> box (fun k j i => v k j i * (F k (j + 1)%Z i - F k j i)) = - box (fun k j i => F k j i * (v k j i - v k (j - 1)%Z i)).
Proof.
  intros Pv PF. transitivity (box (fun k j i => v k j i * F k (j + 1)%Z i) - box (fun k j i => v k j i * F k j i)); [rewrite <- box_minus; apply box_ext; intros; ring|].
  assert (E : box (fun k j i => v k j i * F k (j + 1)%Z i) = box (fun k j i => v k (j - 1)%Z i * F k j i)) by (rewrite <- (box_j (fun k j i => v k (j - 1)%Z i * F k j i)) by (apply per_mult; [apply per_jm|]; auto); apply box_ext; intros; f_equal; f_equal; lia). rewrite E.
  replace (- box (fun k j i => F k j i * (v k j i - v k (j - 1)%Z i))) with ((-1) * box (fun k j i => F k j i * (v k j i - v k (j - 1)%Z i))) by ring. rewrite <- box_scal, <- box_minus. apply box_ext. intros. ring.
Qed.
Lemma parts_k v F : per v -> per F -> box (fun k j i => v k j i * (F (k + 1)%Z j i - F k j i)) = - box (fun k j i => F k j i * (v k j i - v (k - 1)%Z j i)).
Proof.
  intros Pv PF. transitivity (box (fun k j i => v k j i * F (k + 1)%Z j i) - box (fun k j i => v k j i * F k j i)); [rewrite <- box_minus; apply box_ext; intros; ring|].
  assert (E : box (fun k j i => v k j i * F (k + 1)%Z j i) = box (fun k j i => v (k - 1)%Z j i * F k j i)) by (rewrite <- (box_k (fun k j i => v (k - 1)%Z j i * F k j i)) by (apply per_mult; [apply per_km|]; auto); apply box_ext; intros; f_equal; f_equal; lia). rewrite E.
  replace (- box (fun k j i => F k j i * (v k j i - v (k - 1)%Z j i))) with ((-1) * box (fun k j i => F k j i * (v k j i - v (k - 1)%Z j i))) by ring. rewrite <- box_scal, <- box_minus. apply box_ext. intros. ring.
Qed.
End Box.
