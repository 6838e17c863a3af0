(** Lemmas about the variance of the local energy and the overlap with eigenvectors. *)
From Coq Require Import List ZArith Reals Bool Arith String Lra Lia.
From Verif Require Import Base Cplx LatticeSpec AutoregressiveSpec ObservableModel ObservableSpec ExactModel ExactSpec ExactProofs CheckpointModel CallbackModel CallbackProps ExactCallbackSpec
  MonteCarloSpec MonteCarloProofs EigenStoppingSpec.
Import ListNotations.
Local Open Scope R_scope.

Lemma square_le a b : 0 <= b -> a * a <= b * b -> a <= b.
Proof. intros B H. nra. Qed.


Lemma schwarz {A} (f g : A -> C) l :
  Cnorm2 (Csum (fun s => (Cconj (f s) * g s)%C) l) <= Rsum (fun s => Cnorm2 (f s)) l * Rsum (fun s => Cnorm2 (g s)) l.
Proof.
  induction l as [|s l IH]; [unfold Csum, Rsum, Cnorm2, C0; cbn [fold_right fst snd]; lra|].
  change (Csum (fun s => (Cconj (f s) * g s)%C) (s :: l)) with (Cconj (f s) * g s + Csum (fun s => (Cconj (f s) * g s)%C) l)%C.
  change (Rsum (fun s => Cnorm2 (f s)) (s :: l)) with (Cnorm2 (f s) + Rsum (fun s => Cnorm2 (f s)) l).
  change (Rsum (fun s => Cnorm2 (g s)) (s :: l)) with (Cnorm2 (g s) + Rsum (fun s => Cnorm2 (g s)) l).
  set (S := Csum _ l) in *. set (P := Rsum (fun s => Cnorm2 (f s)) l) in *. set (Q := Rsum (fun s => Cnorm2 (g s)) l) in *.
  assert (HP : 0 <= P) by (apply Cplx.Rsum_nonneg; intros; apply Cnorm2_nonneg).
  assert (HQ : 0 <= Q) by (apply Cplx.Rsum_nonneg; intros; apply Cnorm2_nonneg).
  pose proof (Cnorm2_nonneg (f s)) as HA. pose proof (Cnorm2_nonneg (g s)) as HB.
  set (x := (Cconj (f s) * g s)%C). assert (X : Cnorm2 x = Cnorm2 (f s) * Cnorm2 (g s)).
  { unfold x. rewrite Cnorm2_mult. f_equal. unfold Cnorm2, Cconj. cbn [fst snd]. ring. }
  set (a := Cnorm2 (f s)) in *. set (b := Cnorm2 (g s)) in *. clearbody x S P Q a b.
  set (c := fst x * fst S + snd x * snd S).
  assert (K : Cnorm2 (x + S)%C = Cnorm2 x + 2 * c + Cnorm2 S) by (unfold Cnorm2, Cplus, c; cbn [fst snd]; ring).
  assert (L : c * c <= Cnorm2 x * Cnorm2 S).
  { unfold c, Cnorm2. pose proof (Rle_0_sqr (fst x * snd S - snd x * fst S)) as N. unfold Rsqr in N. nra. }
  assert (M : 2 * c <= a * Q + P * b).
  { apply square_le; [nra|]. assert (a * b * Cnorm2 S <= a * b * (P * Q)) by (apply Rmult_le_compat_l; [nra|exact IH]).
    pose proof (Rle_0_sqr (a * Q - P * b)) as N. unfold Rsqr in N. rewrite X in L. nra. }
  rewrite K, X. lra.
Qed.

Lemma overlap_matrix n H lambda phi psi : hermitian n H -> eigenvector n H lambda phi ->
  Csum (fun s => (Cconj (phi s) * apply_matrix n H psi s)%C) (spin_configs n) = (RtoC lambda * Csum (fun s => (Cconj (phi s) * psi s)%C) (spin_configs n))%C.
Proof.
  intros HH [_ E]. rewrite <- Csum_scal.
  rewrite (Csum_ext _ (fun s => Csum (fun t => (Cconj (phi s) * (H s t * psi t))%C) (spin_configs n))) by (intros; unfold apply_matrix; now rewrite Csum_scal).
  rewrite Csum_exchange. apply Csum_ext. intros t Ht.
  transitivity (Cconj (apply_matrix n H phi t) * psi t)%C; [|rewrite (E t Ht), Cconj_mult, Cconj_RtoC; ring].
  unfold apply_matrix. rewrite Csum_conj, <- Csum_scal_r. apply Csum_ext. intros s Hs. rewrite (HH s t Hs Ht), Cconj_mult. ring.
Qed.

Lemma norm2_pos n lp : 0 < norm2 n lp.
Proof. apply ExactProofs.norm2_pos. Qed.

Lemma residual n H lp : norm2 n lp * fluctuation n H lp =
  Rsum (fun s => Cnorm2 (apply_matrix n H (fun t => Cexp (lp t)) s - expectation n H lp * Cexp (lp s))%C) (spin_configs n).
Proof.
  pose proof (norm2_pos n lp) as P. unfold fluctuation, mean_config. rewrite <- Rsum_scal. apply Rsum_ext. intros s _.
  transitivity (Cnorm2 (Cexp (lp s)) * Cnorm2 (local_energy n H lp s - expectation n H lp)%C); [unfold probability, born; field; lra|].
  rewrite <- Cnorm2_mult. f_equal. unfold local_energy, Cdiv.
  transitivity (apply_matrix n H (fun t => Cexp (lp t)) s * (Cexp (lp s) * Cinv (Cexp (lp s))) - expectation n H lp * Cexp (lp s))%C; [ring|].
  rewrite Cmult_inv_r by apply Cexp_nonzero. ring.
Qed.

Lemma fluctuation_split n H lp : hermitian n H -> fluctuation n H lp = real_variance n H lp + imaginary_square n H lp.
Proof.
  intros HH. destruct (expectation_real n H lp HH) as [I _]. unfold real_variance, imaginary_square, mean_over. rewrite <- Rsum_plus.
  apply Rsum_ext. intros s _. rewrite <- Rmult_plus_distr_l. f_equal. unfold Cnorm2, Cminus, energy. cbn [fst snd]. fold (Re (expectation n H lp)) (Im (expectation n H lp)).
  fold (Re (local_energy n H lp s)) (Im (local_energy n H lp s)). rewrite I. ring.
Qed.

Lemma vector_pos n H lambda phi : eigenvector n H lambda phi -> 0 < Rsum (fun s => Cnorm2 (phi s)) (spin_configs n).
Proof.
  intros [(s & Hs & Ns) _]. apply in_split in Hs. destruct Hs as (l1 & l2 & ->). rewrite Rsum_app, Rsum_cons.
  pose proof (Cnorm2_pos _ Ns). pose proof (Cplx.Rsum_nonneg (fun s => Cnorm2 (phi s)) l1 ltac:(intros; apply Cnorm2_nonneg)).
  pose proof (Cplx.Rsum_nonneg (fun s => Cnorm2 (phi s)) l2 ltac:(intros; apply Cnorm2_nonneg)). lra.
Qed.

Lemma fidelity_bound n H lp lambda phi : hermitian n H -> eigenvector n H lambda phi ->
  fidelity n phi lp * (energy n H lp - lambda) ^ 2 <= fluctuation n H lp.
Proof.
  intros HH E. pose proof (vector_pos _ _ _ _ E) as PV. pose proof (norm2_pos n lp) as PN.
  set (psi := fun t => Cexp (lp t)).
  pose proof (schwarz phi (fun s => (apply_matrix n H psi s - expectation n H lp * psi s)%C) (spin_configs n)) as S. cbn beta in S.
  pose proof (residual n H lp) as RR. change (fun s => Cnorm2 (apply_matrix n H (fun t => Cexp (lp t)) s - expectation n H lp * Cexp (lp s))%C)
    with (fun s => Cnorm2 (apply_matrix n H psi s - expectation n H lp * psi s)%C) in RR. rewrite <- RR in S. clear RR. unfold fidelity. set (O := Csum (fun s => (Cconj (phi s) * Cexp (lp s))%C) (spin_configs n)).
  assert (X : Csum (fun s => (Cconj (phi s) * (apply_matrix n H psi s - expectation n H lp * psi s))%C) (spin_configs n) = (RtoC (lambda - energy n H lp) * O)%C).
  { rewrite (Csum_ext _ (fun s => (Cconj (phi s) * apply_matrix n H psi s + (- expectation n H lp) * (Cconj (phi s) * psi s))%C)) by (intros; ring).
    rewrite Csum_plus, Csum_scal, (overlap_matrix n H lambda phi psi HH E). change (Csum (fun s => (Cconj (phi s) * psi s)%C) (spin_configs n)) with O. replace (expectation n H lp) with (RtoC (energy n H lp)).
    - rewrite RtoC_minus. ring.
    - apply C_eq; [reflexivity|]. now rewrite (proj1 (expectation_real n H lp HH)). }
  rewrite X, Cnorm2_mult in S. replace (Cnorm2 (RtoC (lambda - energy n H lp))) with ((energy n H lp - lambda) ^ 2) in S by (unfold Cnorm2, RtoC; cbn [fst snd]; ring).
  set (V := Rsum (fun s => Cnorm2 (phi s)) (spin_configs n)) in *. set (N := norm2 n lp) in *.
  apply (Rmult_le_reg_l (V * N)); [nra|]. replace (V * N * (Cnorm2 O / (V * N) * (energy n H lp - lambda) ^ 2)) with ((energy n H lp - lambda) ^ 2 * Cnorm2 O) by (field; split; lra).
  rewrite Rmult_assoc. exact S.
Qed.

Lemma real_square n H lp : real_local_energies n H lp -> imaginary_square n H lp = 0.
Proof. intros R. unfold imaginary_square, mean_over. rewrite <- (Cplx.Rsum_zero (spin_configs n)). apply Rsum_ext. intros s Hs. rewrite (R s Hs). ring. Qed.

Lemma fidelity_nonneg n H lambda phi lp : eigenvector n H lambda phi -> 0 <= fidelity n phi lp.
Proof.
  intros E. pose proof (vector_pos _ _ _ _ E) as PV. pose proof (norm2_pos n lp) as PN. unfold fidelity, Rdiv. apply Rmult_le_pos; [apply Cnorm2_nonneg|].
  left. apply Rinv_0_lt_compat. nra.
Qed.

(** The callback on the logs of an epoch. *)
Lemma logged_statistics n H lp e0 a b c now : let l := epoch_logs n H lp e0 a b c now in
  lookup "val_energy/energy" l = None /\ lookup "energy/energy" l = Some (energy n H lp) /\ lookup "energy/local_energy_variance" l = Some (real_variance n H lp).
Proof.
  cbv zeta. unfold epoch_logs, energy_logs, magnetisation_logs, time_logs. split; [destruct e0; reflexivity|]. split; [reflexivity|].
  transitivity (Some (mean_over n lp (fun s => (Re (local_energy n H lp s) - Re (expectation n H lp)) * (Re (local_energy n H lp s) - Re (expectation n H lp))))); [reflexivity|].
  f_equal. unfold real_variance, mean_over, energy. apply Rsum_ext. intros. ring.
Qed.

Lemma stopping n H lp e0 a b c now bound vt tol me epoch : bound <> 0 -> let l := epoch_logs n H lp e0 a b c now in
  ((me <= epoch)%nat /\ bound + tol * Rabs bound < energy n H lp /\ real_variance n H lp < vt -> asks_to_stop bound vt tol me epoch l) /\
  (~ ((me <= epoch)%nat /\ bound + tol * Rabs bound < energy n H lp /\ real_variance n H lp < vt) -> lets_continue bound vt tol me epoch l).
Proof.
  intros Hb l. pose proof (logged_statistics n H lp e0 a b c now) as L. cbv zeta in L. fold l in L.
  split.
  - intros (A & B & D) w W. destruct (C54_early_stopping bound vt tol me epoch w l _ _ Hb (or_intror L)) as (w' & E & S & _ & T & _). exists w'. split; [exact E|]. split.
    + apply S. right. auto.
    + apply T; auto.
  - intros N w. destruct (C54_early_stopping bound vt tol me epoch w l _ _ Hb (or_intror L)) as (w' & E & _ & _ & _ & T). rewrite E, T; [reflexivity|].
    destruct (le_lt_dec me epoch) as [A|A]; [|now left]. right. destruct (Rlt_dec (bound + tol * Rabs bound) (energy n H lp)); [|now left]. right. tauto.
Qed.

Lemma zero_variance n H lp : hermitian n H -> real_local_energies n H lp ->
  (real_variance n H lp = 0 <-> eigenvector n H (energy n H lp) (fun s => Cexp (lp s))).
Proof.
  intros HH R. pose proof (norm2_pos n lp) as PN.
  assert (K : forall s, In s (spin_configs n) -> apply_matrix n H (fun t => Cexp (lp t)) s = (local_energy n H lp s * Cexp (lp s))%C).
  { intros s _. unfold local_energy, Cdiv. transitivity (apply_matrix n H (fun t => Cexp (lp t)) s * (Cexp (lp s) * Cinv (Cexp (lp s))))%C; [|ring].
    rewrite Cmult_inv_r by apply Cexp_nonzero. ring. }
  assert (PP : forall s, 0 < probability n lp s).
  { intros s. unfold probability. apply Rdiv_lt_0_compat; [apply Cnorm2_exp_pos|exact PN]. }
  split.
  - intros V. split.
    + assert (NE : spin_configs n <> []). { intros E. unfold norm2 in PN. rewrite E in PN. unfold Rsum in PN. cbn in PN. lra. }
      destruct (spin_configs n) as [|s l]; [contradiction|]. exists s. split; [now left|apply Cexp_nonzero].
    + intros s Hs. rewrite (K s Hs). f_equal. apply C_eq; [|exact (R s Hs)].
      assert (Z : probability n lp s * (Re (local_energy n H lp s) - energy n H lp) ^ 2 = 0).
      { refine (ObservableProofs.Rsum_zero_all (fun s => probability n lp s * (Re (local_energy n H lp s) - energy n H lp) ^ 2) (spin_configs n) _ V s Hs).
        intros t _. apply Rmult_le_pos; [left; apply PP|apply pow2_ge_0]. }
      specialize (PP s). rewrite Re_RtoC. apply Rmult_integral in Z. destruct Z as [Z|Z]; [lra|]. replace ((Re (local_energy n H lp s) - energy n H lp) ^ 2) with (Rsqr (Re (local_energy n H lp s) - energy n H lp)) in Z by (unfold Rsqr; ring).
      apply Rsqr_0_uniq in Z. lra.
  - intros [_ E]. unfold real_variance, mean_over. rewrite <- (Cplx.Rsum_zero (spin_configs n)). apply Rsum_ext. intros s Hs.
    assert (L : local_energy n H lp s = RtoC (energy n H lp)).
    { unfold local_energy. rewrite (E s Hs). unfold Cdiv. transitivity (RtoC (energy n H lp) * (Cexp (lp s) * Cinv (Cexp (lp s))))%C; [ring|].
      rewrite Cmult_inv_r by apply Cexp_nonzero. ring. }
    rewrite L, Re_RtoC. ring.
Qed.

(** * One spin in a transverse field *)
Section OneSpin.
  Context (h : R).
  Notation H := (ising_matrix 1 h false [1%nat]).

  Lemma spins s : In s (spin_configs 1) -> s = [1%Z] \/ s = [(-1)%Z].
  Proof. intros [<-|[<-|[]]]; auto. Qed.

  Lemma apply_up phi : apply_matrix 1 H phi [1%Z] = (RtoC (- h) * phi [(-1)%Z])%C.
  Proof.
    unfold apply_matrix. change (spin_configs 1) with [[1%Z]; [(-1)%Z]]. unfold Csum. cbn [fold_right].
    assert (H11 : H [1%Z] [1%Z] = C0) by (unfold ising_matrix, ising_element; cbn; unfold RtoC, C0; f_equal; ring).
    assert (H12 : H [1%Z] [(-1)%Z] = RtoC (- h)) by (unfold ising_matrix, ising_element; cbn; unfold RtoC; f_equal; ring).
    rewrite H11, H12. ring.
  Qed.
  Lemma apply_down phi : apply_matrix 1 H phi [(-1)%Z] = (RtoC (- h) * phi [1%Z])%C.
  Proof.
    unfold apply_matrix. change (spin_configs 1) with [[1%Z]; [(-1)%Z]]. unfold Csum. cbn [fold_right].
    assert (H11 : H [(-1)%Z] [(-1)%Z] = C0) by (unfold ising_matrix, ising_element; cbn; unfold RtoC, C0; f_equal; ring).
    assert (H12 : H [(-1)%Z] [1%Z] = RtoC (- h)) by (unfold ising_matrix, ising_element; cbn; unfold RtoC; f_equal; ring).
    rewrite H11, H12. ring.
  Qed.
  Lemma local_up lp : local_energy 1 H lp [1%Z] = (RtoC (- h) * Cexp (lp [(-1)%Z] - lp [1%Z]))%C.
  Proof. unfold local_energy. rewrite apply_up, Cexp_minus. unfold Cdiv. ring. Qed.
  Lemma local_down lp : local_energy 1 H lp [(-1)%Z] = (RtoC (- h) * Cexp (lp [1%Z] - lp [(-1)%Z]))%C.
  Proof. unfold local_energy. rewrite apply_down, Cexp_minus. unfold Cdiv. ring. Qed.

  Lemma uniform_ground : eigenvector 1 H (- h) (fun _ => C1).
  Proof.
    split; [exists [1%Z]; split; [now left|intros E; injection E; lra]|].
    intros s Hs. destruct (spins s Hs) as [-> | ->]; [rewrite apply_up|rewrite apply_down]; reflexivity.
  Qed.
  Lemma lowest lambda phi : 0 <= h -> eigenvector 1 H lambda phi -> - h <= lambda.
  Proof.
    intros Hh [(s & Hs & N) E]. pose proof (E [1%Z] ltac:(now left)) as U. pose proof (E [(-1)%Z] ltac:(right; now left)) as D.
    rewrite apply_up in U. rewrite apply_down in D.
    assert (X : forall z, z <> C0 -> (RtoC (h * h) * z = RtoC (lambda * lambda) * z)%C -> h * h = lambda * lambda).
    { intros z Nz Q. assert (P : fst z <> 0 \/ snd z <> 0).
      { destruct (Req_EM_T (fst z) 0) as [A|A]; [|now left]. right. intros B. apply Nz. destruct z. cbn in *. now subst. }
      unfold Cmult, RtoC in Q. cbn [fst snd] in Q. injection Q as Q1 Q2. destruct P as [P|P].
      - apply (Rmult_eq_reg_r (fst z)); [lra|exact P].
      - apply (Rmult_eq_reg_r (snd z)); [lra|exact P]. }
    assert (Y : h * h = lambda * lambda).
    { destruct (spins s Hs) as [-> | ->]; refine (X _ N _).
      - transitivity (RtoC (- h) * (RtoC (- h) * phi [1%Z]))%C; [rewrite RtoC_mult, !RtoC_opp; ring|]. rewrite D.
        transitivity (RtoC lambda * (RtoC (- h) * phi [(-1)%Z]))%C; [ring|]. rewrite U, RtoC_mult. ring.
      - transitivity (RtoC (- h) * (RtoC (- h) * phi [(-1)%Z]))%C; [rewrite RtoC_mult, !RtoC_opp; ring|]. rewrite U.
        transitivity (RtoC lambda * (RtoC (- h) * phi [1%Z]))%C; [ring|]. rewrite D, RtoC_mult. ring. }
    nra.
  Qed.

  (** A phase: exp(i w s). *)
  Definition phase (w : R) (s : list Z) : C := (0, w * IZR (nth 0 s 0%Z)).
  Lemma phase_local w s : In s (spin_configs 1) -> local_energy 1 H (phase w) s = (- h * cos (2 * w), IZR (nth 0 s 0%Z) * (h * sin (2 * w))).
  Proof.
    intros Hs. destruct (spins s Hs) as [-> | ->]; [rewrite local_up|rewrite local_down]; unfold phase, Cminus, Cexp, Cmult, RtoC; cbn [nth fst snd];
      rewrite Rminus_0_r, exp_0.
    - replace (w * -1 - w * 1) with (- (2 * w)) by ring. rewrite cos_neg, sin_neg. f_equal; ring.
    - replace (w * 1 - w * -1) with (2 * w) by ring. f_equal; ring.
  Qed.
  Lemma phase_energy w : energy 1 H (phase w) = - h * cos (2 * w).
  Proof.
    unfold energy. rewrite (proj1 (expectation_mean 1 H (phase w))).
    rewrite (mu_ext 1 (phase w) (fun s => Re (local_energy 1 H (phase w) s)) (fun _ => - h * cos (2 * w))); [apply mu_const|].
    intros s Hs. now rewrite (phase_local w s Hs).
  Qed.
  Lemma phase_variance w : real_variance 1 H (phase w) = 0.
  Proof.
    unfold real_variance, mean_over. rewrite <- (Cplx.Rsum_zero (spin_configs 1)). apply Rsum_ext. intros s Hs.
    rewrite (phase_local w s Hs), phase_energy. unfold Re. cbn [fst]. ring.
  Qed.
  Lemma phase_fidelity w : fidelity 1 (fun _ => C1) (phase w) = cos w ^ 2.
  Proof.
    unfold fidelity, norm2. change (spin_configs 1) with [[1%Z]; [(-1)%Z]]. unfold Csum, Rsum, born. cbn [fold_right].
    unfold phase, Cexp, Cmult, Cplus, Cconj, Cnorm2, C1, C0. cbn [nth fst snd]. rewrite exp_0.
    replace (w * -1) with (- w) by ring. replace (w * 1) with w by ring. rewrite cos_neg, sin_neg.
    pose proof (sin2_cos2 w) as P. unfold Rsqr in P. set (x := cos w) in *. set (y := sin w) in *.
    match goal with |- _ / ?D = _ => replace D with 4 by nra end. field.
  Qed.
  Lemma phase_not_eigen w lambda : h <> 0 -> sin (2 * w) <> 0 -> ~ eigenvector 1 H lambda (fun s => Cexp (phase w s)).
  Proof.
    intros Nh Ns [_ E]. specialize (E [1%Z] ltac:(now left)).
    assert (L : local_energy 1 H (phase w) [1%Z] = RtoC lambda).
    { unfold local_energy. rewrite E. unfold Cdiv. transitivity (RtoC lambda * (Cexp (phase w [1%Z]) * Cinv (Cexp (phase w [1%Z]))))%C; [ring|].
      rewrite Cmult_inv_r by apply Cexp_nonzero. ring. }
    rewrite phase_local in L by now left. unfold RtoC in L. injection L as _ L. cbn [nth] in L. assert (K : h * sin (2 * w) = 0) by lra.
    apply Rmult_integral in K. tauto.
  Qed.

  (** Real amplitudes 2 and 1. *)
  Definition tilted (s : list Z) : C := RtoC (if Z.eqb (nth 0 s 0%Z) 1 then ln 2 else 0).
  Lemma tilted_amplitudes : Cexp (tilted [1%Z]) = RtoC 2 /\ Cexp (tilted [(-1)%Z]) = RtoC 1.
  Proof. unfold tilted. cbn [nth]. cbn. rewrite !Cexp_RtoC, exp_ln, exp_0 by lra. auto. Qed.
  Lemma tilted_local : local_energy 1 H tilted [1%Z] = RtoC (- h / 2) /\ local_energy 1 H tilted [(-1)%Z] = RtoC (- 2 * h).
  Proof.
    destruct tilted_amplitudes as [A B]. unfold local_energy. rewrite apply_up, apply_down, A, B.
    rewrite !Cdiv_RtoC by lra. unfold Cscale, Cmult, RtoC. cbn [fst snd]. split; f_equal; field.
  Qed.
  Lemma tilted_norm : norm2 1 tilted = 5.
  Proof.
    destruct tilted_amplitudes as [A B]. unfold norm2, born. change (spin_configs 1) with [[1%Z]; [(-1)%Z]]. unfold Rsum. cbn [fold_right]. rewrite A, B.
    unfold Cnorm2, RtoC. cbn [fst snd]. ring.
  Qed.
  Lemma tilted_mean f : mean_over 1 tilted f = 4 / 5 * f [1%Z] + 1 / 5 * f [(-1)%Z].
  Proof.
    destruct tilted_amplitudes as [A B]. unfold mean_over, probability. rewrite tilted_norm. change (spin_configs 1) with [[1%Z]; [(-1)%Z]].
    unfold Rsum, born. cbn [fold_right]. rewrite A, B. unfold Cnorm2, RtoC. cbn [fst snd]. field.
  Qed.
  Lemma tilted_energy : energy 1 H tilted = - (4 / 5) * h.
  Proof.
    destruct tilted_local as [A B]. unfold energy. rewrite (proj1 (expectation_mean 1 H tilted)).
    change (mean_config 1 tilted (fun s => Re (local_energy 1 H tilted s))) with (mean_over 1 tilted (fun s => Re (local_energy 1 H tilted s))).
    rewrite tilted_mean, A, B, !Re_RtoC. field.
  Qed.
  Lemma tilted_variance : real_variance 1 H tilted = 9 / 25 * h ^ 2.
  Proof. destruct tilted_local as [A B]. unfold real_variance. rewrite tilted_mean, A, B, !Re_RtoC, tilted_energy. field. Qed.
  Lemma tilted_real : real_local_energies 1 H tilted.
  Proof. destruct tilted_local as [A B]. intros s Hs. destruct (spins s Hs) as [-> | ->]; [rewrite A|rewrite B]; reflexivity. Qed.
  Lemma tilted_fidelity : fidelity 1 (fun _ => C1) tilted = 9 / 10.
  Proof.
    destruct tilted_amplitudes as [A B]. unfold fidelity. rewrite tilted_norm. change (spin_configs 1) with [[1%Z]; [(-1)%Z]].
    unfold Csum, Rsum. cbn [fold_right]. rewrite A, B. unfold Cnorm2, Cmult, Cplus, Cconj, RtoC, C1, C0. cbn [fst snd]. field.
  Qed.
End OneSpin.
