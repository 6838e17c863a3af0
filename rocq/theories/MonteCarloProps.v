(** Property C63 (optimization/variational_monte_carlo.py, optimization/horovod_variational_monte_carlo.py, deepar/samplers/autoregressive.py,
    samplers/exact_sampler.py). *)
From Coq Require Import List ZArith Reals Lra Lia Bool Arith.
From Verif Require Import Base Cplx OrderingModel OrderingSpec LatticeSpec AutoregressiveModel AutoregressiveSpec AutoregressiveProofs AutoregressiveProps
  ObservableModel ObservableSpec ExactModel ExactSpec ExactOperatorProofs ExactGradientProofs MonteCarloModel MonteCarloSpec MonteCarloProofs
  MonteCarloSamplerProofs.
Import ListNotations.
Local Open Scope R_scope.

(** C63: the independent law is a probability distribution and gives every row the distribution |psi|^2 / <psi|psi>. *)
Theorem C63_independent_rows : forall (n B : nat) (log_psi : list Z -> C),
  (forall b, 0 <= independent n log_psi b) /\ Rsum (independent n log_psi) (all_batches n B) = 1 /\
  right_marginals n B log_psi (independent n log_psi).
Proof.
  intros n B lp. split; [|split].
  - intros b. unfold independent. induction b as [|s b IH]; [unfold Rprod; simpl; lra|]. rewrite Rprod_cons.
    apply Rmult_le_pos; [apply ExactSamplerProofs.probability_nonneg|exact IH].
  - rewrite (Rsum_ext _ (fun b => independent n lp b * 1)) by (intros; ring). exact (avg_const n lp B 1).
  - apply independent_marginals.
Qed.
Print Assumptions C63_independent_rows.
Example C63_independent_rows_ex : all_batches 1 2 = [[[1]; [1]]; [[1]; [-1]]; [[-1]; [1]]; [[-1]; [-1]]]%Z /\
  independent 1 (fun _ => C0) [[1]; [-1]]%Z = / 4.
Proof.
  split; [reflexivity|]. unfold independent, probability, norm2, born, spin_configs. cbn [strings flat_map map app].
  unfold Rprod, Rsum. cbn [fold_right]. rewrite Cexp_0. unfold Cnorm2, C1. cbn [fst snd]. field.
Qed.

(** C63: the set of random numbers for which the site by site sampler returns a given batch is a box whose volume is the product of the
    rows' probabilities: the rows are independent and each is distributed as |psi|^2. *)
Theorem C63_autoregressive_batches :
  forall (shape : list nat) (order : list (list nat)) (net : list Z -> nat -> list C) (B : nat),
  (length shape = 1 \/ length shape = 2)%nat -> ordering_of shape order ->
  autoregressive (volume shape) (map (row_major shape) order) net ->
  (forall s i, length (net s i) = 2%nat) ->
  exists box : list (list Z) -> nat -> nat -> R * R,
    (forall b k i, 0 <= fst (box b k i) /\ snd (box b k i) <= 1) /\
    (forall us b, length us = B -> (forall u, In u us -> length u = volume shape /\ Forall (fun x => 0 <= x < 1) u) ->
       In b (all_batches (volume shape) B) ->
       (autoregressive_batch shape false (conditional_log_probs net) order us = Ok b <->
        forall k i, (k < B)%nat -> (i < volume shape)%nat -> inside (nth i (nth k us []) 0) (box b k i))) /\
    (forall b, In b (all_batches (volume shape) B) ->
       Rprod (fun k => Rprod (fun i => len (box b k i)) (seq 0 (volume shape))) (seq 0 B) = independent (volume shape) (predictions net) b).
Proof. exact autoregressive_batches. Qed.
Print Assumptions C63_autoregressive_batches.
Example C63_autoregressive_batches_ex : ordering_of [2]%nat [[0]; [1]]%nat /\
  autoregressive (volume [2]%nat) (map (row_major [2]%nat) [[0]; [1]]%nat) example_net /\ (forall s i, length (example_net s i) = 2%nat).
Proof. split; [exact example_ordering|]. split; [exact example_net_autoregressive|exact example_net_rows]. Qed.

(** The example below: one spin in a transverse field, and the wave function exp(t s). *)
Definition field : operator := ising_operator 1 1 false [1%nat].
Definition field_matrix : list Z -> list Z -> C := ising_matrix 1 1 false [1%nat].
Definition tilt (t : R) (s : list Z) : C := RtoC (t * IZR (nth 0 s 0%Z)).
Lemma field_represents : operator_represents 1 field_matrix field.
Proof. apply (ising_operator_represents 1 1 false [1%nat]). left. exists 1%nat. split; [reflexivity|]. right. split; [reflexivity|lia]. Qed.

(** C63: the same for the exact sampler. *)
Theorem C63_exact_batches : forall (n : nat) (H : list Z -> list Z -> C) (op : operator) (batch : nat) (past : list (list Z -> C)) (e : exact)
    (log_psi : list Z -> C) (e' : exact) (B : nat),
  (n <= 31)%nat -> operator_represents n H op -> good_batch_size n batch -> built n op batch past e -> machine_updated log_psi e = Ok e' ->
  exists box : list (list Z) -> nat -> R * R,
    (forall b k, In b (all_batches n B) -> (k < B)%nat -> 0 <= fst (box b k) /\ snd (box b k) <= 1) /\
    (forall us b, length us = B -> Forall (fun u => 0 <= u < 1) us -> In b (all_batches n B) ->
       (exact_sampler_next e' us = Ok b <-> forall k, (k < B)%nat -> inside (nth k us 0) (box b k))) /\
    (forall b, In b (all_batches n B) -> Rprod (fun k => len (box b k)) (seq 0 B) = independent n log_psi b).
Proof. exact exact_batches. Qed.
Print Assumptions C63_exact_batches.
Example C63_exact_batches_ex : (1 <= 31)%nat /\ operator_represents 1 field_matrix field /\ good_batch_size 1 2 /\
  exists e e', built 1 field 2 [] e /\ machine_updated (tilt 1) e = Ok e'.
Proof.
  assert (HB : good_batch_size 1 2) by (split; [lia|reflexivity]).
  split; [lia|]. split; [exact field_represents|]. split; [exact HB|].
  destruct (ExactProofs.built_ok 1 field_matrix field 2 [] ltac:(lia) field_represents HB) as (e & He & G & _).
  destruct (ExactProofs.machine_updated_ok 1 field_matrix (tilt 1) e G) as (e' & E & _). exists e, e'. now split.
Qed.

(** C63: what a step computes: energy, variance and targets of the batch. *)
Theorem C63_step : forall (n : nat) (H : list Z -> list Z -> C) (op : operator) (log_psi : list Z -> C) (b : list (list Z)),
  operator_represents n H op -> (forall s, In s b -> In s (spin_configs n)) -> b <> [] ->
  let E := Cscale (/ INR (length b)) (Csum (local_energy n H log_psi) b) in
  exists st, next_batch op log_psi b = Ok st /\ batch_of_step st = b /\ energy_of_step st = E /\
    local_of_step st = map (local_energy n H log_psi) b /\
    variance_of_step st = average (map (fun s => (Re (local_energy n H log_psi s) - Re E) ^ 2) b) /\
    targets_of_step st = map (fun s => Cscale (/ INR (length b)) (Cconj (local_energy n H log_psi s - E)%C)) b.
Proof.
  intros n H op lp b HO A NE E. eexists. split; [apply (next_batch_ok n H); assumption|].
  cbn [batch_of_step energy_of_step local_of_step variance_of_step targets_of_step]. split; [reflexivity|]. split; [reflexivity|].
  split; [reflexivity|]. split; [|reflexivity]. unfold Rvar, average. set (m := Rmean (map (fun s => Re (local_energy n H lp s)) b)).
  assert (Em : m = Re E). { unfold m, E, Rmean. now rewrite Re_scale, Re_Csum, map_length, Rsum_map. }
  rewrite Em. unfold Rmean, Rdiv. rewrite !map_length, !Rsum_map. rewrite Rmult_comm. f_equal. apply Rsum_ext. intros; ring.
Qed.
Print Assumptions C63_step.
Example C63_step_ex : operator_represents 1 field_matrix field /\ (forall s, In s [[1]; [-1]; [1]]%Z -> In s (spin_configs 1)).
Proof. split; [exact field_represents|]. intros s [<-|[<-|[<-|[]]]]; cbn; auto. Qed.

(** C63: the reported energy is right on average, for independent rows and for any batch law with the right marginals. *)
Theorem C63_energy_unbiased : forall (n B : nat) (H : list Z -> list Z -> C) (op : operator) (log_psi : list Z -> C) (law : list (list Z) -> R),
  (0 < B)%nat -> operator_represents n H op -> right_marginals n B log_psi law ->
  exists energy, (forall b, In b (all_batches n B) -> exists st, next_batch op log_psi b = Ok st /\ energy_of_step st = energy b) /\
    Caverage_over law n B energy = expectation n H log_psi.
Proof.
  intros n B H op lp law HB HO M. exists (spec_energy n H lp). split; [|now apply energy_unbiased].
  intros b Hb. apply all_batches_in in Hb. destruct Hb as [Lb A]. eexists. split; [apply (next_batch_ok n H); eauto using nonempty_batch|reflexivity].
Qed.
Print Assumptions C63_energy_unbiased.
(** Perfectly correlated rows have the right marginals too. *)
Example C63_energy_unbiased_ex : operator_represents 1 field_matrix field /\
  right_marginals 1 2 (fun _ => C0) (independent 1 (fun _ => C0)) /\
  right_marginals 1 2 (fun _ => C0) (fun b => if list_eq_dec Z.eq_dec (nth 0 b []) (nth 1 b []) then / 2 else 0).
Proof.
  split; [exact field_represents|]. split; [apply independent_marginals|].
  intros [|[|k]] s Hk Hs; try lia; destruct Hs as [<-|[<-|[]]];
    unfold probability, norm2, born, spin_configs; cbn [strings flat_map map app all_batches];
    unfold Rsum; cbn [fold_right nth]; rewrite Cexp_0; unfold Cnorm2, C1; cbn -[Rplus Rmult Rdiv Rinv]; field.
Qed.

(** C63: the mean square error of the energy of independent rows is the fluctuation of the local energy divided by the batch size. *)
Theorem C63_energy_error : forall (n B : nat) (H : list Z -> list Z -> C) (op : operator) (log_psi : list Z -> C),
  (0 < B)%nat -> operator_represents n H op ->
  exists energy, (forall b, In b (all_batches n B) -> exists st, next_batch op log_psi b = Ok st /\ energy_of_step st = energy b) /\
    average_over (independent n log_psi) n B (fun b => Cnorm2 (energy b - expectation n H log_psi)%C) = fluctuation n H log_psi / INR B.
Proof.
  intros n B H op lp HB HO. exists (spec_energy n H lp). split.
  - intros b Hb. apply all_batches_in in Hb. destruct Hb as [Lb A]. eexists. split; [apply (next_batch_ok n H); eauto using nonempty_batch|reflexivity].
  - rewrite energy_error by assumption. unfold Rdiv. ring.
Qed.
Print Assumptions C63_energy_error.
Example C63_energy_error_ex : (0 < 3)%nat /\ operator_represents 1 field_matrix field.
Proof. split; [lia|exact field_represents]. Qed.

(** C63: for a Hermitian matrix the fluctuation is <H^2> - <H>^2, so an eigenstate has error 0. *)
Theorem C63_fluctuation : forall (n : nat) (H : list Z -> list Z -> C) (log_psi : list Z -> C), hermitian n H ->
  RtoC (fluctuation n H log_psi) = (expectation n (matrix_product n H H) log_psi - expectation n H log_psi * expectation n H log_psi)%C.
Proof. exact fluctuation_hermitian. Qed.
Print Assumptions C63_fluctuation.
Example C63_fluctuation_ex : hermitian 1 field_matrix.
Proof. exact (ising_matrix_hermitian 1 1 false [1%nat]). Qed.

(** C63: the reported variance of independent rows is on average (B - 1) / B times the fluctuation of the real part. *)
Theorem C63_variance : forall (n B : nat) (H : list Z -> list Z -> C) (op : operator) (log_psi : list Z -> C),
  (0 < B)%nat -> operator_represents n H op ->
  exists v, (forall b, In b (all_batches n B) -> exists st, next_batch op log_psi b = Ok st /\ variance_of_step st = v b) /\
    average_over (independent n log_psi) n B v = (INR B - 1) / INR B * real_fluctuation n H log_psi.
Proof.
  intros n B H op lp HB HO. exists (fun b => Rvar (map (fun s => Re (local_energy n H lp s)) b)). split; [|now apply variance_average].
  intros b Hb. apply all_batches_in in Hb. destruct Hb as [Lb A]. eexists. split; [apply (next_batch_ok n H); eauto using nonempty_batch|reflexivity].
Qed.
Print Assumptions C63_variance.
Example C63_variance_ex : (0 < 3)%nat /\ operator_represents 1 field_matrix field.
Proof. split; [lia|exact field_represents]. Qed.

(** C63: the derivative of the loss of a batch of independent rows is on average (B - 1) / B^2 times the derivative of the energy: one
    factor 1 / B because the targets are divided by the batch size and Keras takes the mean as well, and (B - 1) / B because the mean of
    the same batch is subtracted. *)
Theorem C63_gradient : forall (n : nat) (H : list Z -> list Z -> C) (op : operator) (log_psi : R -> list Z -> C) (d : list Z -> C) (x : R) (B : nat),
  (0 < B)%nat -> operator_represents n H op -> hermitian n H ->
  (forall s, In s (spin_configs n) -> Cderive (fun t => log_psi t s) x (d s)) ->
  exists D G, derivable_pt_lim (fun t => Re (expectation n H (log_psi t))) x G /\
    (forall b, In b (all_batches n B) -> exists st, next_batch op (log_psi x) b = Ok st /\
       derivable_pt_lim (fun t => batch_loss (targets_of_step st) (map (log_psi t) b)) x (D b)) /\
    average_over (independent n (log_psi x)) n B D = (INR B - 1) / INR B ^ 2 * G.
Proof. exact gradient_average. Qed.
Print Assumptions C63_gradient.
Lemma tilt_derive s : Cderive (fun t => tilt t s) (/ 3) (RtoC (IZR (nth 0 s 0%Z))).
Proof.
  split; unfold tilt; cbn [Re Im RtoC fst snd].
  - apply (limit_ext (mult_real_fct (IZR (nth 0 s 0%Z)) id)); [intros t; unfold mult_real_fct, id; ring|].
    apply (limit_value _ _ (IZR (nth 0 s 0%Z) * 1)); [ring|]. apply derivable_pt_lim_scal, derivable_pt_lim_id.
  - exact (derivable_pt_lim_const 0 (/ 3)).
Qed.
Example C63_gradient_ex : (0 < 3)%nat /\ operator_represents 1 field_matrix field /\ hermitian 1 field_matrix /\
  (forall s, In s (spin_configs 1) -> Cderive (fun t => tilt t s) (/ 3) (RtoC (IZR (nth 0 s 0%Z)))).
Proof.
  split; [lia|]. split; [exact field_represents|]. split; [exact (ising_matrix_hermitian 1 1 false [1%nat])|]. intros s _. apply tilt_derive.
Qed.

(** C63: with W workers of B rows each, Horovod's averaged energy and averaged gradients: (WB - 1) / (WB) / B times the derivative. *)
Theorem C63_horovod_gradient : forall (n : nat) (H : list Z -> list Z -> C) (op : operator) (log_psi : R -> list Z -> C) (d : list Z -> C) (x : R)
    (W B : nat),
  (0 < W)%nat -> (0 < B)%nat -> operator_represents n H op -> hermitian n H ->
  (forall s, In s (spin_configs n) -> Cderive (fun t => log_psi t s) x (d s)) ->
  exists D G, derivable_pt_lim (fun t => Re (expectation n H (log_psi t))) x G /\
    (forall b, In b (all_batches n (W * B)) -> exists sts,
       horovod_next_batches op (log_psi x) (map (fun w => slice b (w * B) (w * B + B)) (seq 0 W)) = Ok sts /\
       derivable_pt_lim (fun t => / INR W * Rsum (fun st => batch_loss (targets_of_step st) (map (log_psi t) (batch_of_step st))) sts) x (D b)) /\
    average_over (independent n (log_psi x)) n (W * B) D = (INR (W * B) - 1) / (INR (W * B) * INR B) * G.
Proof. exact horovod_gradient. Qed.
Print Assumptions C63_horovod_gradient.
Example C63_horovod_gradient_ex : (0 < 2)%nat /\ (0 < 3)%nat /\ operator_represents 1 field_matrix field /\ hermitian 1 field_matrix /\
  (forall s, In s (spin_configs 1) -> Cderive (fun t => tilt t s) (/ 3) (RtoC (IZR (nth 0 s 0%Z)))).
Proof. split; [lia|]. split; [lia|]. exact (proj2 C63_gradient_ex). Qed.

(** C63 fails for batches of one row: the targets vanish, so nothing is learned whatever the energy's derivative. *)
Theorem C63_single_row_refuted : forall (n : nat) (H : list Z -> list Z -> C) (op : operator) (log_psi : list Z -> C) (s : list Z),
  operator_represents n H op -> In s (spin_configs n) ->
  exists st, next_batch op log_psi [s] = Ok st /\ targets_of_step st = [C0] /\ variance_of_step st = 0.
Proof.
  intros n H op lp s HO Hs. eexists. split; [apply (next_batch_ok n H); [assumption|discriminate|intros t [<-|[]]; assumption]|].
  cbn [targets_of_step variance_of_step map length]. split.
  - f_equal. unfold spec_energy, Cscale, Cconj, Cminus, Csum, Cplus, C0. cbn [fold_right length fst snd]. simpl INR. f_equal; field.
  - unfold Rvar, Rmean. cbn [map length]. unfold Rsum. cbn [fold_right]. simpl INR. field.
Qed.
Print Assumptions C63_single_row_refuted.
Example C63_single_row_refuted_ex : operator_represents 1 field_matrix field /\ In [-1]%Z (spin_configs 1).
Proof. split; [exact field_represents|]. cbn; auto. Qed.
