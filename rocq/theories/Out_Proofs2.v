(** Proofs for C84: Cartesian vectors, orbital conversion, history files. *)
From Coq Require Import Reals ZArith List Bool Lra Lia Psatz.
Import ListNotations.
From Verif Require Import Fv_Model Met_Model Src_Model Lud_Spec Lud_Proofs Out_Model Out_Spec Out_Proofs.
Local Open Scope R_scope.

(** ** Cartesian vectors *)
Lemma sc x : sin x * sin x + cos x * cos x = 1.
Proof. pose proof (sin2_cos2 x) as H. unfold Rsqr in H. exact H. Qed.
Lemma cartesian_inner s flat th ph v w v' w' : CalculateCartesianVector s flat th ph v = Some v' -> CalculateCartesianVector s flat th ph w = Some w' -> inner v' w' = inner v w.
Proof.
  destruct v as [[a b] c], w as [[a' b'] c']. unfold CalculateCartesianVector. pose proof (sc th) as T. pose proof (sc ph) as P.
  destruct s; [discriminate| |destruct flat]; intros E E'; injection E as <-; injection E' as <-; unfold inner, X, Y, Z_; cbn [fst snd].
  - transitivity ((a * a' + b * b') * (sin th * sin th + cos th * cos th) + c * c'); [ring|rewrite T; ring].
  - transitivity ((a * a' + b * b') * (sin th * sin th + cos th * cos th) + c * c'); [ring|rewrite T; ring].
  - set (e := a * sin th + b * cos th). set (e' := a' * sin th + b' * cos th). set (g := a * cos th - b * sin th). set (g' := a' * cos th - b' * sin th).
    transitivity ((e * e' + c * c') * (sin ph * sin ph + cos ph * cos ph) + g * g'); [unfold e, e', g, g'; ring|]. rewrite P.
    transitivity ((a * a' + b * b') * (sin th * sin th + cos th * cos th) + c * c'); [unfold e, e', g, g'; ring|rewrite T; ring].
Qed.
Lemma d_ext f g x l l' : (forall t, f t = g t) -> l = l' -> derivable_pt_lim f x l -> derivable_pt_lim g x l'.
Proof. intros E <- H e He. destruct (H e He) as (d & D). exists d. intros h Hh Hd. rewrite <- !E. auto. Qed.
Lemma d_lin a x : derivable_pt_lim (fun t => t * a) x a.
Proof. apply (d_ext (mult_real_fct a id) _ x (a * 1)); [intros; unfold mult_real_fct, id; ring|ring|]. apply derivable_pt_lim_scal, derivable_pt_lim_id. Qed.
Lemma d_cst a x : derivable_pt_lim (fun _ => a) x 0.
Proof. apply (derivable_pt_lim_const a x). Qed.
Lemma d_id x : derivable_pt_lim (fun t => t) x 1.
Proof. apply (derivable_pt_lim_id x). Qed.
Lemma d_sin a x : derivable_pt_lim (fun t => a * sin t) x (a * cos x).
Proof. apply (derivable_pt_lim_scal sin a). apply derivable_pt_lim_sin. Qed.
Lemma d_cos a x : derivable_pt_lim (fun t => a * cos t) x (a * - sin x).
Proof. apply (derivable_pt_lim_scal cos a). apply derivable_pt_lim_cos. Qed.
Ltac dgo a b := first [ apply (d_ext (fun t => t * a) _ _ a); [intros; cbn; ring|cbn; ring|apply d_lin] | idtac ].
Lemma spherical_axes r th ph e1 e2 e3 :
  CalculateCartesianVector spherical_polar false th ph (1, 0, 0) = Some e1 -> CalculateCartesianVector spherical_polar false th ph (0, 1, 0) = Some e2 -> CalculateCartesianVector spherical_polar false th ph (0, 0, 1) = Some e3 ->
  moves (fun r => spherical_position r th ph) r e1 /\ moves (fun th => spherical_position r th ph) th (times r e2) /\ moves (fun ph => spherical_position r th ph) ph (times (r * sin th) e3).
Proof.
  unfold CalculateCartesianVector. intros E1 E2 E3. injection E1 as <-. injection E2 as <-. injection E3 as <-. unfold moves, spherical_position, times, X, Y, Z_. cbn [fst snd].
  split; [split; [|split]|split; [split; [|split]|split; [|split]]].
  - apply (d_ext (fun t => t * (sin th * cos ph)) _ _ (sin th * cos ph)); [intros; ring|ring|apply d_lin].
  - apply (d_ext (fun t => t * (sin th * sin ph)) _ _ (sin th * sin ph)); [intros; ring|ring|apply d_lin].
  - apply (d_ext (fun t => t * (cos th)) _ _ (cos th)); [intros; ring|ring|apply d_lin].
  - apply (d_ext (fun t => (r * cos ph) * sin t) _ _ ((r * cos ph) * cos th)); [intros; ring|ring|apply d_sin].
  - apply (d_ext (fun t => (r * sin ph) * sin t) _ _ ((r * sin ph) * cos th)); [intros; ring|ring|apply d_sin].
  - apply (d_ext (fun t => r * cos t) _ _ (r * - sin th)); [intros; ring|ring|apply d_cos].
  - apply (d_ext (fun t => (r * sin th) * cos t) _ _ ((r * sin th) * - sin ph)); [intros; ring|ring|apply d_cos].
  - apply (d_ext (fun t => (r * sin th) * sin t) _ _ ((r * sin th) * cos ph)); [intros; ring|ring|apply d_sin].
  - apply (d_ext (fun t => r * cos th) _ _ 0); [intros; ring|ring|apply d_cst].
Qed.
Lemma cylindrical_axes r ph z flat x3 e1 e2 e3 :
  CalculateCartesianVector cylindrical flat ph x3 (1, 0, 0) = Some e1 -> CalculateCartesianVector cylindrical flat ph x3 (0, 1, 0) = Some e2 -> CalculateCartesianVector cylindrical flat ph x3 (0, 0, 1) = Some e3 ->
  moves (fun r => cylindrical_position r ph z) r e1 /\ moves (fun ph => cylindrical_position r ph z) ph (times r e2) /\ moves (fun z => cylindrical_position r ph z) z e3.
Proof.
  unfold CalculateCartesianVector. intros E1 E2 E3. injection E1 as <-. injection E2 as <-. injection E3 as <-. unfold moves, cylindrical_position, times, X, Y, Z_. cbn [fst snd].
  split; [split; [|split]|split; [split; [|split]|split; [|split]]].
  - apply (d_ext (fun t => t * cos ph) _ _ (cos ph)); [intros; ring|ring|apply d_lin].
  - apply (d_ext (fun t => t * sin ph) _ _ (sin ph)); [intros; ring|ring|apply d_lin].
  - apply (d_ext (fun t => z) _ _ 0); [intros; ring|ring|apply d_cst].
  - apply (d_ext (fun t => r * cos t) _ _ (r * - sin ph)); [intros; ring|ring|apply d_cos].
  - apply (d_ext (fun t => r * sin t) _ _ (r * cos ph)); [intros; ring|ring|apply d_sin].
  - apply (d_ext (fun t => z) _ _ 0); [intros; ring|ring|apply d_cst].
  - apply (d_ext (fun t => r * cos ph) _ _ 0); [intros; ring|ring|apply d_cst].
  - apply (d_ext (fun t => r * sin ph) _ _ 0); [intros; ring|ring|apply d_cst].
  - apply (d_ext (fun t => t) _ _ 1); [intros; ring|ring|apply d_id].
Qed.
Lemma meridional th ph v : CalculateCartesianVector spherical_polar true th ph v = CalculateCartesianVector spherical_polar false th 0 v.
Proof. destruct v as [[a b] c]. unfold CalculateCartesianVector. rewrite sin_0, cos_0. f_equal. f_equal; [f_equal|]; ring. Qed.

(** ** Orbital conversion *)
Lemma convert_gas nb dir2 vK u : c_d u <> 0 -> let u' := convert_cons nb dir2 vK u in
  c_d u' = c_d u /\ c_1 u' = c_1 u /\ c_2 u' / c_d u = c_2 u / c_d u + (if dir2 then 0 else vK) /\ c_3 u' / c_d u = c_3 u / c_d u + (if dir2 then vK else 0) /\
  (nb = true -> c_e u' - kinetic u' = c_e u - kinetic u).
Proof.
  intros D. unfold convert_cons, kinetic. cbv zeta. replace 0.5 with (/ 2) by lra. destruct dir2, nb; cbn [c_d c_1 c_2 c_3 c_e]; repeat split; intros; try discriminate; field; auto.
Qed.
Lemma convert_all nb dir2 vKc w u o flags : (forall f, In f flags -> f = 1 \/ f = 2 \/ f = 3)%Z ->
  let o' := fold_left (fun o f => ConvertOrbitalSystem nb dir2 vKc w u f o) flags (ResetOrbitalSystemConversionFlag o) in
  ((exists f, In f flags /\ f <> 2%Z) -> forall k j i, w_orb o' k j i = convert_prim dir2 (vK_at dir2 vKc k j i) (w k j i)) /\
  ((exists f, In f flags /\ f <> 1%Z) -> forall k j i, u_orb o' k j i = convert_cons nb dir2 (vK_at dir2 vKc k j i) (u k j i)).
Proof.
  intros H.
  set (P := fun (o : orb) => forall k j i, w_orb o k j i = convert_prim dir2 (vK_at dir2 vKc k j i) (w k j i)).
  set (C := fun (o : orb) => forall k j i, u_orb o k j i = convert_cons nb dir2 (vK_at dir2 vKc k j i) (u k j i)).
  assert (G : forall fl o, (forall f, In f fl -> f = 1 \/ f = 2 \/ f = 3)%Z -> (done_ o = 3 \/ done_ o = 2 /\ P o \/ done_ o = 1 /\ C o \/ done_ o = 0 /\ P o /\ C o)%Z ->
    let o' := fold_left (fun o f => ConvertOrbitalSystem nb dir2 vKc w u f o) fl o in
    (((exists f, In f fl /\ f <> 2%Z) \/ P o /\ (done_ o = 2 \/ done_ o = 0)%Z) -> P o') /\ (((exists f, In f fl /\ f <> 1%Z) \/ C o /\ (done_ o = 1 \/ done_ o = 0)%Z) -> C o')).
  { induction fl as [|f fl IH]; intros q Hf I; cbn [fold_left].
    - split; intros [(f & [] & _)|(A & _)]; exact A.
    - specialize (IH (ConvertOrbitalSystem nb dir2 vKc w u f q) (fun f h => Hf f (or_intror h))).
      assert (K : let q' := ConvertOrbitalSystem nb dir2 vKc w u f q in (done_ q' = 3 \/ done_ q' = 2 /\ P q' \/ done_ q' = 1 /\ C q' \/ done_ q' = 0 /\ P q' /\ C q')%Z /\
        ((f <> 2%Z \/ P q /\ (done_ q = 2 \/ done_ q = 0)%Z) -> P q' /\ (done_ q' = 2 \/ done_ q' = 0)%Z) /\ ((f <> 1%Z \/ C q /\ (done_ q = 1 \/ done_ q = 0)%Z) -> C q' /\ (done_ q' = 1 \/ done_ q' = 0)%Z)).
      { clear IH. destruct q as [dn wo uo]. cbn [done_] in *. unfold ConvertOrbitalSystem. cbn [done_ w_orb u_orb].
        destruct (Hf f (or_introl eq_refl)) as [E|[E|E]]; subst f; (destruct I as [E|[(E & I)|[(E & I)|(E & I & J)]]]; subst dn); cbn -[P C convert_cons convert_prim vK_at];
        (split; [first [left; reflexivity | right; left; split; [reflexivity|] | right; right; left; split; [reflexivity|] | right; right; right; split; [reflexivity|split]]; unfold P, C in *; cbn [w_orb u_orb] in *; auto|]);
        (split; intros N; first [exfalso; clear -N; destruct N as [N|(_ & N)]; lia | split; [unfold P, C in *; cbn [w_orb u_orb] in *; solve [auto]|lia]]). }
      destruct K as (K1 & K2 & K3). destruct (IH K1) as (IP & IC). split.
      + intros [(g & [<-|G] & N)|A]; [apply IP; right; apply K2; auto|apply IP; left; eauto|apply IP; right; apply K2; auto].
      + intros [(g & [<-|G] & N)|A]; [apply IC; right; apply K3; auto|apply IC; left; eauto|apply IC; right; apply K3; auto]. }
  destruct (G flags (ResetOrbitalSystemConversionFlag o) H (or_introl eq_refl)) as (A & B). split; [intros F; apply A; left; exact F|intros F; apply B; left; exact F].
Qed.
