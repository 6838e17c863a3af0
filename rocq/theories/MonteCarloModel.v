(** Model of one step of optimization/variational_monte_carlo.py and optimization/horovod_variational_monte_carlo.py: what becomes
    of a batch of samples. Floating point numbers are real (complex) numbers. *)
From Coq Require Import List ZArith Reals Bool Arith.
From Verif Require Import Base Cplx IsingModel OrderingModel AutoregressiveModel ObservableModel ExactModel.
Import ListNotations.

(** The attributes current_batch, current_energy, current_local_energy_variance and current_local_energy after a step, and the second
    component of the returned pair. *)
Record step := { batch_of_step : list (list Z); energy_of_step : C; variance_of_step : R; local_of_step : list C; targets_of_step : list C }.

(** variational_monte_carlo.py:34-36 [_update_batch_local_energy]: the operator's connections (observables/monte_carlo/operator.py:44-55),
    then observable.py:10-14 [estimate]. [log_psi] is the model on one configuration: the evaluation batch size only splits the rows. *)
Definition update_batch_local_energy (op : operator) (log_psi : list Z -> C) (batch : list (list Z)) : res estimation :=
  do c <- find_conn op batch;
  do values <- local_values log_psi (length batch) c;
  Ok (estimate values).

(** variational_monte_carlo.py:42-50 [next_batch] with the batch that the sampler returned; the batch size of the generator is the
    sampler's (line 16), the number of its rows. *)
Definition next_batch (op : operator) (log_psi : list Z -> C) (batch : list (list Z)) : res step :=
  do e <- update_batch_local_energy op log_psi batch;
  Ok {| batch_of_step := batch; energy_of_step := mean_value e; variance_of_step := variance e; local_of_step := local e;
        targets_of_step := loss_coefficients (length batch) (mean_value e) (local e) |}.

(** horovod_variational_monte_carlo.py:19-26: every worker estimates with its own batch, the energies are averaged over the workers,
    each worker's coefficients use the average. The workers' steps, in the order of their ranks; all workers have the same batch size. *)
Definition horovod_next_batches (op : operator) (log_psi : list Z -> C) (batches : list (list (list Z))) : res (list step) :=
  do es <- mapM (update_batch_local_energy op log_psi) batches;
  let e := reduced_energy (map mean_value es) in
  Ok (map2 (fun batch w => {| batch_of_step := batch; energy_of_step := e; variance_of_step := variance w; local_of_step := local w;
                              targets_of_step := loss_coefficients (length batch) e (local w) |}) batches es).

(** deepar/samplers/autoregressive.py:29-48 [__next__] for the whole batch: every row of the prediction depends on that row of the
    batch only, and every row has its own row of random numbers. *)
Definition autoregressive_batch (input_size : list nat) (zero_base : bool) (log_probs : list Z -> nat -> list R)
    (order : list loc) (random_batch : list (list R)) : res (list (list Z)) :=
  mapM (sampler_next input_size zero_base log_probs order) random_batch.
