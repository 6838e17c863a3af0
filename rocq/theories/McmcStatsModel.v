(** Model of the convergence statistics of samplers/metropolis_hastings.py (sum_correlations, calc_r_hat_value) and of callbacks/monte_carlo/mcmc_stats.py.
    Finite floating point numbers are real numbers; division by zero on numpy numbers gives infinities and nan as in numpy. *)
From Coq Require Import List ZArith Reals Bool Arith String.
From Verif Require Import Base Cplx IsingModel TrainingModel.
Import ListNotations.
Local Open Scope R_scope.

(** A numpy.float64. *)
Inductive npfloat := Finite (r : R) | PlusInf | MinusInf | NaN.
Definition np_div (a b : R) : npfloat :=
  if Req_EM_T b 0 then (if Req_EM_T a 0 then NaN else if Rlt_dec 0 a then PlusInf else MinusInf) else Finite (a / b).
Definition np_neg (x : npfloat) : npfloat := match x with Finite r => Finite (- r) | PlusInf => MinusInf | MinusInf => PlusInf | NaN => NaN end.
Definition np_add (x y : npfloat) : npfloat :=
  match x, y with
  | NaN, _ | _, NaN | PlusInf, MinusInf | MinusInf, PlusInf => NaN
  | PlusInf, _ | _, PlusInf => PlusInf
  | MinusInf, _ | _, MinusInf => MinusInf
  | Finite a, Finite b => Finite (a + b)
  end.
(** [x < 0]. *)
Definition np_negative (x : npfloat) : bool :=
  match x with Finite a => if Rlt_dec a 0 then true else false | MinusInf => true | PlusInf | NaN => false end.
Definition np_sqrt (x : npfloat) : npfloat :=
  match x with Finite a => if Rlt_dec a 0 then NaN else Finite (sqrt a) | PlusInf => PlusInf | MinusInf | NaN => NaN end.
(** [a / x] for a finite a. *)
Definition np_divide_into (a : R) (x : npfloat) : npfloat := match x with Finite b => np_div a b | PlusInf | MinusInf => Finite 0 | NaN => NaN end.
Definition np_double (x : npfloat) : npfloat := match x with Finite r => Finite (2 * r) | y => y end.

(** numpy mean of a non empty array (an empty one would give nan). *)
Definition np_mean (l : list R) : R := Rsum (fun x => x) l / INR (List.length l).
Definition np_sum (l : list npfloat) : npfloat := fold_right np_add (Finite 0) l.

(** metropolis_hastings.py:8-12 [sum_correlations], the loop from [i] with [steps] iterations left. *)
Fixpoint sum_correlations_loop (correlations : list npfloat) (steps i : nat) : npfloat :=
  match steps with
  | O => np_sum correlations
  | S k =>
      if np_negative (np_add (nth (2 * i - 1) correlations NaN) (nth (2 * i) correlations NaN))
      then np_sum (firstn (2 * i) correlations)
      else sum_correlations_loop correlations k (S i)
  end.
Definition sum_correlations (correlations : list npfloat) : npfloat :=
  sum_correlations_loop correlations (List.length correlations / 2 - 1) 1.

(** metropolis_hastings.py:67-89 [calc_r_hat_value]. The number of samples per chain is positive (the model leaves out the nan results of empty batches). *)
Definition calc_r_hat_value (batch_size num_of_chains : nat) (estimated_values : list R) : res (npfloat * R * npfloat * npfloat) :=
  if (num_of_chains =? 0)%nat then Err ZeroDivisionError else
  let samples_per_chain := (batch_size / num_of_chains)%nat in
  if negb (List.length estimated_values =? num_of_chains * samples_per_chain)%nat then Err ValueError else
  let per_chain := map (fun j => slice estimated_values (j * samples_per_chain) (j * samples_per_chain + samples_per_chain)) (range num_of_chains) in
  let chains_mean := map np_mean per_chain in
  let mean := np_mean chains_mean in
  let between_diff := map (fun c => c - mean) chains_mean in
  let within_diff := map2 (fun row c => map (fun x => x - c) row) per_chain chains_mean in
  if Req_EM_T (INR num_of_chains - 1) 0 then Err ZeroDivisionError else
  let between_variance := INR samples_per_chain / (INR num_of_chains - 1) * Rsum (fun d => d * d) between_diff in
  if (samples_per_chain =? 1)%nat then Ok (Finite 1, between_variance, Finite 0, Finite (INR batch_size)) else
  let within_variance := np_mean (map (Rsum (fun d => d * d)) within_diff) / INR (samples_per_chain - 1) in
  let variance := (INR (samples_per_chain - 1) * within_variance + between_variance) / INR samples_per_chain in
  let r_hat := np_sqrt (np_div variance within_variance) in
  let v := map (fun t => np_mean (map (fun row =>
                  np_mean (map (fun d => d * d) (map2 Rminus (skipn (t + 1) row) (firstn (samples_per_chain - t - 1) row)))) per_chain))
             (range (samples_per_chain - 1)) in
  let correlations := map (fun x => np_add (Finite 1) (np_neg (np_div x (2 * variance)))) v in
  let correlations_sum := sum_correlations correlations in
  let effective_sample_size := np_divide_into (INR batch_size) (np_add (Finite 1) (np_double correlations_sum)) in
  Ok (r_hat, variance, correlations_sum, effective_sample_size).

(** mcmc_stats.py:11-18 [add_mcmc_logs]: what is written to the logs. [local_energy]: current_local_energy of the generator. *)
Definition add_mcmc_logs (batch_size num_of_chains : nat) (acceptance_ratio : R) (local_energy : list C) : res (list (string * npfloat)) :=
  do r <- calc_r_hat_value batch_size num_of_chains (map Re local_energy);
  let '(r_hat, _, correlations_sum, effective_sample_size) := r in
  Ok [("mcmc/acceptance_ratio", Finite acceptance_ratio); ("mcmc/energy_r_hat", r_hat);
      ("mcmc/energy_effective_sample_size", effective_sample_size); ("mcmc/energy_correlations_sum", correlations_sum)]%string.
