(** C93: what the variance that is reported says about the wave function, and when BadEigenStateStopping stops a training with exact statistics. *)
From Coq Require Import List ZArith Reals Bool Arith String Lra Lia.
From Verif Require Import Base Cplx LatticeSpec AutoregressiveSpec ObservableModel ObservableSpec ExactModel ExactSpec ExactOperatorProofs CheckpointModel CallbackModel CallbackProps
  ExactCallbackModel ExactCallbackSpec ExactCallbackProps MonteCarloModel MonteCarloProofs EigenStoppingSpec EigenStoppingProofs.
Import ListNotations.
Local Open Scope R_scope.

(** The overlap of the wave function with an eigenvector whose energy is far from the reported one is small, measured by the fluctuation of the local energy. That
    is the reported variance and, in addition, the mean square of the imaginary part, which is not reported. *)
Theorem C93_fidelity : forall (n : nat) (H : list Z -> list Z -> C) (lp phi : list Z -> C) (lambda : R), hermitian n H -> eigenvector n H lambda phi ->
  fidelity n phi lp * (energy n H lp - lambda) ^ 2 <= real_variance n H lp + imaginary_square n H lp.
Proof. intros n H lp phi lambda HH E. rewrite <- fluctuation_split by exact HH. now apply fidelity_bound. Qed.
Print Assumptions C93_fidelity.
(** One spin in the field 3 with the amplitudes 2 and 1, and the ground state: 81/250 is at most 81/25. *)
Example C93_fidelity_ex : let H := ising_matrix 1 3 false [1%nat] in hermitian 1 H /\ eigenvector 1 H (-3) (fun _ => C1) /\
  fidelity 1 (fun _ => C1) tilted * (energy 1 H tilted - -3) ^ 2 = 81 / 250 /\ real_variance 1 H tilted = 81 / 25.
Proof.
  cbv zeta. split; [exact (ising_matrix_hermitian 1 3 false [1%nat])|]. split; [exact (uniform_ground 3)|].
  rewrite tilted_fidelity, tilted_energy, tilted_variance. split; field.
Qed.

(** When the local energies are real, a variance of zero means an eigenstate, and conversely. *)
Theorem C93_zero_variance : forall (n : nat) (H : list Z -> list Z -> C) (lp : list Z -> C), hermitian n H -> real_local_energies n H lp ->
  (real_variance n H lp = 0 <-> eigenvector n H (energy n H lp) (fun s => Cexp (lp s))).
Proof. exact zero_variance. Qed.
Print Assumptions C93_zero_variance.
Example C93_zero_variance_ex : let H := ising_matrix 1 3 false [1%nat] in hermitian 1 H /\ real_local_energies 1 H tilted.
Proof. split; [exact (ising_matrix_hermitian 1 3 false [1%nat])|apply tilted_real]. Qed.

(** BadEigenStateStopping on the logs of an epoch of exact training with real local energies: if it stops, the overlap with every eigenvector whose energy is at most the
    bound is smaller than variance_tol / (relative_error_to_stop * bound)^2; so if the overlap with one of them is at least that, the training goes on. With the
    default arguments (0.01 and 0.1) that is 1 / bound^2. *)
Theorem C93_stops_far_away : forall (n : nat) (H : list Z -> list Z -> C) (lp phi : list Z -> C) (lambda bound vt tol : R) (min_epoch epoch : nat) (e0 : option R) (a b c now : R),
  hermitian n H -> real_local_energies n H lp -> eigenvector n H lambda phi -> lambda <= bound -> bound <> 0 -> 0 < tol ->
  let l := epoch_logs n H lp e0 a b c now in
  (forall w w' l', stop_training w = false -> on_epoch_end (BadEigenStateStopping bound vt tol min_epoch) epoch w l = Ok (w', l') -> stop_training w' = true ->
     fidelity n phi lp < vt / (tol * bound) ^ 2) /\
  (vt / (tol * bound) ^ 2 <= fidelity n phi lp -> lets_continue bound vt tol min_epoch epoch l).
Proof.
  intros n H lp phi lambda bound vt tol me epoch e0 a b c now HH HR HE Hl Hb Ht l.
  assert (K : (me <= epoch)%nat /\ bound + tol * Rabs bound < energy n H lp /\ real_variance n H lp < vt -> fidelity n phi lp < vt / (tol * bound) ^ 2).
  { intros (_ & B & V). pose proof (C93_fidelity n H lp phi lambda HH HE) as F. rewrite (real_square n H lp HR), Rplus_0_r in F.
    pose proof (fidelity_nonneg n H lambda phi lp HE) as P. assert (A : 0 < Rabs bound) by now apply Rabs_pos_lt.
    assert (D : (tol * bound) ^ 2 = (tol * Rabs bound) ^ 2). { pose proof (pow2_abs bound) as Q. nra. }
    rewrite D. set (d := tol * Rabs bound) in *. assert (Pd : 0 < d) by (unfold d; nra). set (x := energy n H lp - lambda) in *. assert (X : d < x) by (unfold x; lra).
    assert (Y : fidelity n phi lp * d ^ 2 <= fidelity n phi lp * x ^ 2) by (apply Rmult_le_compat_l; [exact P|nra]).
    apply (Rmult_lt_reg_r (d ^ 2)); [nra|]. replace (vt / d ^ 2 * d ^ 2) with vt by (field; lra). lra. }
  destruct (stopping n H lp e0 a b c now bound vt tol me epoch Hb) as [S T]. fold l in S, T. split.
  - intros w w' l' W E Sw. apply K. destruct (le_lt_dec me epoch) as [A|A].
    + destruct (Rlt_dec (bound + tol * Rabs bound) (energy n H lp)) as [B|B]; [destruct (Rlt_dec (real_variance n H lp) vt) as [V|V]; [auto|]|];
        rewrite T in E by tauto; injection E as E _; congruence.
    + rewrite T in E by lia. injection E as E _. congruence.
  - intros F. apply T. intros X. specialize (K X). lra.
Qed.
Print Assumptions C93_stops_far_away.
Example C93_stops_far_away_ex : let H := ising_matrix 1 3 false [1%nat] in
  hermitian 1 H /\ real_local_energies 1 H tilted /\ eigenvector 1 H (-3) (fun _ => C1) /\ -3 <= -3 /\ (1 / 100) / (1 / 10 * -3) ^ 2 <= fidelity 1 (fun _ => C1) tilted.
Proof.
  cbv zeta. split; [exact (ising_matrix_hermitian 1 3 false [1%nat])|]. split; [apply tilted_real|]. split; [exact (uniform_ground 3)|]. split; [lra|].
  rewrite tilted_fidelity. replace (1 / 100 / (1 / 10 * -3) ^ 2) with (1 / 9) by field. lra.
Qed.

(** Refuted for complex amplitudes, because the imaginary part of the local energy is not looked at: one spin in any field h > 0 with the amplitudes exp(i w s). Whatever the
    phase, the reported variance is 0, also where the wave function is no eigenstate; and whenever cos(2 w) < 0.9 the callback with the exact ground state energy and its
    default arguments stops the training, although the overlap with the ground state is cos(w)^2, which can be 3/4 or more. *)
Theorem C93_complex_refuted : forall (h w : R), 0 < h ->
  let H := ising_matrix 1 h false [1%nat] in
  real_variance 1 H (phase w) = 0 /\
  (sin (2 * w) <> 0 -> forall lambda, ~ eigenvector 1 H lambda (fun s => Cexp (phase w s))) /\
  eigenvector 1 H (- h) (fun _ => C1) /\ (forall lambda phi, eigenvector 1 H lambda phi -> - h <= lambda) /\
  fidelity 1 (fun _ => C1) (phase w) = cos w ^ 2 /\
  (cos (2 * w) < 9 / 10 -> forall epoch e0 a b c now, (10 <= epoch)%nat ->
     asks_to_stop (- h) (1 / 100) (1 / 10) 10 epoch (epoch_logs 1 H (phase w) e0 a b c now)).
Proof.
  intros h w Hh H. split; [apply phase_variance|]. split; [intros Ns lambda; apply phase_not_eigen; [lra|exact Ns]|]. split; [apply uniform_ground|].
  split; [intros lambda phi; apply lowest; lra|]. split; [apply phase_fidelity|].
  intros C epoch e0 a b c now He. refine (proj1 (stopping 1 H (phase w) e0 a b c now (- h) (1 / 100) (1 / 10) 10 epoch _) _); [lra|].
  split; [exact He|]. unfold H. rewrite phase_energy, phase_variance, Rabs_Ropp, Rabs_right by lra. split; [nra|lra].
Qed.
Print Assumptions C93_complex_refuted.
Example C93_complex_ex : cos (2 * (PI / 6)) < 9 / 10 /\ sin (2 * (PI / 6)) <> 0 /\ cos (PI / 6) ^ 2 = 3 / 4.
Proof.
  replace (2 * (PI / 6)) with (PI / 3) by field. rewrite cos_PI3, sin_PI3, cos_PI6. pose proof (sqrt_lt_R0 3 ltac:(lra)). split; [lra|]. split; [lra|].
  replace ((sqrt 3 / 2) ^ 2) with (sqrt 3 * sqrt 3 / 4) by field. rewrite sqrt_sqrt by lra. lra.
Qed.

(** Refuted also for real amplitudes when the energies are small, because the tolerance for the variance is absolute while that for the energy is relative: one spin in a field
    0 < h < 1/6 with the amplitudes 2 and 1 is stopped, although its overlap with the ground state is 9/10. In a stronger field the same wave function is not stopped. *)
Theorem C93_small_energies_refuted : forall (h : R) (epoch : nat) (e0 : option R) (a b c now : R), 0 < h -> (10 <= epoch)%nat ->
  let H := ising_matrix 1 h false [1%nat] in
  real_local_energies 1 H tilted /\ eigenvector 1 H (- h) (fun _ => C1) /\ (forall lambda phi, eigenvector 1 H lambda phi -> - h <= lambda) /\
  fidelity 1 (fun _ => C1) tilted = 9 / 10 /\
  (h < 1 / 6 -> asks_to_stop (- h) (1 / 100) (1 / 10) 10 epoch (epoch_logs 1 H tilted e0 a b c now)) /\
  (1 / 6 <= h -> lets_continue (- h) (1 / 100) (1 / 10) 10 epoch (epoch_logs 1 H tilted e0 a b c now)).
Proof.
  intros h epoch e0 a b c now Hh He H. split; [apply tilted_real|]. split; [apply uniform_ground|]. split; [intros lambda phi; apply lowest; lra|]. split; [apply tilted_fidelity|].
  destruct (stopping 1 H tilted e0 a b c now (- h) (1 / 100) (1 / 10) 10 epoch ltac:(lra)) as [S T]. unfold H in *. rewrite tilted_energy, tilted_variance, Rabs_Ropp, Rabs_right in S, T by lra.
  split; intros B.
  - apply S. split; [exact He|]. split; [lra|nra].
  - apply T. intros (_ & _ & V). nra.
Qed.
Print Assumptions C93_small_energies_refuted.
Example C93_small_energies_ex : 0 < 1 / 8 < 1 / 6 /\ (10 <= 10)%nat.
Proof. split; [lra|lia]. Qed.

(** The same in whole trainings of that spin whose weight is the phase. Exact training with the default callbacks logging per epoch: at the end of every epoch from the tenth on,
    with whatever phase the last cycle began unless cos(2 w) >= 0.9, the callback stops the training. Sampled batches, whatever rows were drawn: the estimate of the energy is exact,
    the reported variance is 0, and the logs of the batch stop the training in the same way. *)
Theorem C93_training_refuted : forall (h : R) (phases : nat -> R) (e0 : option R), 0 < h ->
  let H := ising_matrix 1 h false [1%nat] in let op := ising_operator 1 h false [1%nat] in
  (forall batch past e t steps epochs, good_batch_size 1 batch -> built 1 op batch past e -> (0 < steps)%nat ->
     exists s all,
       fit_exact (fun g => phase (phases g)) steps epochs 0
         (start_training {| variation := new_variational e; machine := phase (phases 0%nat); time := t |} (default_exact_callbacks e e0 false)) = Ok (s, all) /\
       List.length all = epochs /\
       forall k ls l, nth_error all k = Some (ls, l) -> (10 <= k)%nat ->
         cos (2 * phases (cycle_start (cycle_length 1 batch) (k * steps + steps - 1))) < 9 / 10 -> asks_to_stop (- h) (1 / 100) (1 / 10) 10 k l) /\
  (forall b w, b <> [] -> (forall s, In s b -> s = [1%Z] \/ s = [(-1)%Z]) ->
     exists st, next_batch op (phase w) b = Ok st /\ Re (energy_of_step st) = - h * cos (2 * w) /\ variance_of_step st = 0 /\
       (cos (2 * w) < 9 / 10 -> forall k, (10 <= k)%nat ->
          asks_to_stop (- h) (1 / 100) (1 / 10) 10 k [("energy/energy", Re (energy_of_step st)); ("energy/local_energy_variance", variance_of_step st)]%string)).
Proof.
  intros h phases e0 Hh H op.
  assert (HO : operator_represents 1 H op).
  { apply (ising_operator_represents 1 h false [1%nat]). left. exists 1%nat. split; [reflexivity|]. right. split; [reflexivity|lia]. }
  split.
  - intros batch past e t steps epochs HB HE Hs.
    destruct (C61_logged_per_epoch 1 H op batch past e e0 t (fun g => phase (phases g)) steps epochs ltac:(lia) HO HB HE Hs) as (s & all & E & L & A).
    exists s, all. split; [exact E|]. split; [exact L|]. intros k ls l N K C. destruct (A k ls l N) as (_ & t0 & t1 & t2 & now & -> & _).
    destruct (C93_complex_refuted h (phases (cycle_start (cycle_length 1 batch) (k * steps + steps - 1))) Hh) as (_ & _ & _ & _ & _ & S). now apply S.
  - intros b w NE Hb. assert (I : forall s, In s b -> In s (spin_configs 1)) by (intros s Is; destruct (Hb s Is) as [-> | ->]; [now left|right; now left]).
    eexists. split; [apply (next_batch_ok 1 H op (phase w) b HO NE I)|]. cbn [energy_of_step variance_of_step].
    assert (Lb : INR (List.length b) <> 0) by (apply not_0_INR; destruct b; [contradiction|discriminate]).
    assert (M : Re (spec_energy 1 H (phase w) b) = - h * cos (2 * w)).
    { unfold spec_energy. rewrite Re_scale, Re_Csum. rewrite (Rsum_ext _ (fun _ => - h * cos (2 * w))) by (intros s Is; unfold H; now rewrite (phase_local h w s (I s Is))).
      rewrite Cplx.Rsum_const. field. exact Lb. }
    assert (V : Rvar (map (fun s => Re (local_energy 1 H (phase w) s)) b) = 0).
    { rewrite (map_ext_in _ (fun _ => - h * cos (2 * w))) by (intros s Is; unfold H; now rewrite (phase_local h w s (I s Is))).
      unfold Rvar, Rmean. rewrite !map_length, !Rsum_map, !Cplx.Rsum_const. field. exact Lb. }
    split; [exact M|]. split; [exact V|]. rewrite M, V. intros C k K w0 W.
    destruct (C54_early_stopping (- h) (1 / 100) (1 / 10) 10 k w0 [("energy/energy", - h * cos (2 * w)); ("energy/local_energy_variance", 0)]%string
      (- h * cos (2 * w)) 0 ltac:(lra)) as (w' & E & S & _ & T & _); [right; repeat split|].
    assert (Q : - h + 1 / 10 * Rabs (- h) < - h * cos (2 * w)) by (rewrite Rabs_Ropp, Rabs_right by lra; nra).
    exists w'. split; [exact E|]. split; [apply S; right; split; [exact K|]; split; [exact Q|lra]|apply T; [exact K|exact Q|lra]].
Qed.
Print Assumptions C93_training_refuted.
Example C93_training_ex : good_batch_size 1 2 /\ (exists e, built 1 (ising_operator 1 3 false [1%nat]) 2 [] e) /\ cos (2 * (PI / 6)) < 9 / 10.
Proof.
  split; [split; [lia|reflexivity]|]. split; [|exact (proj1 C93_complex_ex)].
  destruct (ExactProofs.built_ok 1 (ising_matrix 1 3 false [1%nat]) (ising_operator 1 3 false [1%nat]) 2 [] ltac:(lia)) as (e & B & _).
  - apply (ising_operator_represents 1 3 false [1%nat]). left. exists 1%nat. split; [reflexivity|]. right. split; [reflexivity|lia].
  - split; [lia|reflexivity].
  - now exists e.
Qed.
