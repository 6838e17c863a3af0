(** Model of observables/monte_carlo/operator.py, observables/monte_carlo/observable.py, optimization/loss.py and the
    parts of optimization/variational_monte_carlo.py and optimization/horovod_variational_monte_carlo.py that compute
    loss coefficients. Floating point numbers are real (complex) numbers. *)
From Coq Require Import List ZArith Reals Bool Arith.
From Verif Require Import Base Cplx.
Import ListNotations.

(** What an operator's find_conn returns: arrays indexed by connection, then by sample. Configurations are flat. *)
Record connections := { conns : list (list (list Z)); mels : list (list C); uses : list (list bool) }.

(** Entry [b] of every row. *)
Definition at_sample {A} (b : nat) (d : A) (rows : list (list A)) : list A := map (fun r => nth b r d) rows.

(** numpy boolean indexing [l[mask]]. *)
Fixpoint select {A} (mask : list bool) (l : list A) : list A :=
  match mask, l with
  | m :: mask', a :: l' => if m then a :: select mask' l' else select mask' l'
  | _, _ => []
  end.

(** operator.py:6-10 [get_flat_local_connections_log_values]: moveaxis and reshape list the connections sample by
    sample; the used ones are evaluated. [log_psi] is the model on one configuration ([predict] evaluates each row on
    its own). *)
Definition get_flat_local_connections_log_values (log_psi : list Z -> C) (batch_size : nat) (c : connections) : list C :=
  let local_connections_reshape := flat_map (fun b => at_sample b [] (conns c)) (range batch_size) in
  let mask := flat_map (fun b => at_sample b false (uses c)) (range batch_size) in
  map log_psi (select mask local_connections_reshape).

(** operator.py:26-33: the loop over samples; [idx] moves through the flat values; [sample_log_values[0]] raises
    IndexError for a sample without used connection. *)
Fixpoint unbalanced_loop (c : connections) (flat_log_values : list C) (samples : list nat) (idx : nat) : res (list C) :=
  match samples with
  | [] => Ok []
  | i :: t =>
      let mask := at_sample i false (uses c) in
      let conn_per_sample := length (filter (fun u => u) mask) in
      let sample_log_values := slice flat_log_values idx (idx + conn_per_sample) in
      match sample_log_values with
      | [] => Err IndexError
      | v0 :: _ =>
          let sample_val_division := map (fun v => Cexp (v - v0)%C) sample_log_values in
          let local := Csum (fun z => z) (map2 Cmult (select mask (at_sample i C0 (mels c))) sample_val_division) in
          do r <- unbalanced_loop c flat_log_values t (idx + conn_per_sample);
          Ok (local :: r)
      end
  end.

(** operator.py:20-34 [local_values_optimized_for_unbalanced_local_connections]. *)
Definition local_values_unbalanced (log_psi : list Z -> C) (batch_size : nat) (c : connections) : res (list C) :=
  unbalanced_loop c (get_flat_local_connections_log_values log_psi batch_size c) (range batch_size) 0.

(** operator.py:36-42 [local_values_optimized_for_balanced_local_connections]. *)
Definition local_values_balanced (log_psi : list Z -> C) (batch_size : nat) (c : connections) : res (list C) :=
  let flat_log_values := map log_psi (concat (conns c)) in
  let log_values := map (fun k => slice flat_log_values (k * batch_size) (k * batch_size + batch_size))
                        (range (length (conns c))) in
  match log_values with
  | [] => Err IndexError
  | row0 :: _ =>
      let connections_division := map (fun row => map2 (fun v v0 => Cexp (v - v0)%C) row row0) log_values in
      let products := map2 (map2 Cmult) (mels c) connections_division in
      Ok (map (fun b => Csum (fun z => z) (at_sample b C0 products)) (range batch_size))
  end.

(** operator.py:44-55 [local_values]; the mean of the use flags is compared with 0.95 exactly (the mean of an empty
    array is nan and compares false). *)
Definition count_true (l : list bool) : nat := length (filter (fun u => u) l).
Definition local_values (log_psi : list Z -> C) (batch_size : nat) (c : connections) : res (list C) :=
  if 100 * count_true (concat (uses c)) <? 95 * length (concat (uses c))
  then local_values_unbalanced log_psi batch_size c
  else local_values_balanced log_psi batch_size c.

(** numpy.mean of complex and real arrays, numpy.var. (For the empty array numpy returns nan; every use below has a
    non empty batch.) *)
Definition Cmean (l : list C) : C := Cscale (/ INR (length l)) (Csum (fun z => z) l).
Definition Rmean (l : list R) : R := (/ INR (length l) * Rsum (fun x => x) l)%R.
Definition Rvar (l : list R) : R := Rmean (map (fun x => (x - Rmean l) * (x - Rmean l))%R l).

(** observable.py:10-14 [estimate]: mean value, variance of the real parts, local values. *)
Record estimation := { mean_value : C; variance : R; local : list C }.
Definition estimate (values : list C) : estimation :=
  {| mean_value := Cmean values; variance := Rvar (map Re values); local := values |}.

(** variational_monte_carlo.py:38-40 [loss_coefficients] and 50: divided by the batch size. *)
Definition loss_coefficients (batch_size : nat) (energy : C) (local_energy : list C) : list C :=
  map (fun e => Cscale (/ INR batch_size) (Cconj (e - energy)%C)) local_energy.

(** loss.py:4-5 [loss_for_energy_minimization] for one sample, and the mean over the samples that Keras takes. *)
Definition loss_for_energy_minimization (y_true y_pred : C) : R := 2 * Re (Cmult y_pred y_true).
Definition batch_loss (y_true y_pred : list C) : R := Rmean (map2 loss_for_energy_minimization y_true y_pred).

(** horovod_variational_monte_carlo.py:20-26: hvd.allreduce averages the real and the imaginary parts of the local
    mean energies over the workers. *)
Definition reduced_energy (worker_energies : list C) : C := (Rmean (map Re worker_energies), Rmean (map Im worker_energies)).
(** The coefficients of all workers, each with its own local energies. *)
Definition horovod_coefficients (batch_size : nat) (worker_values : list (list C)) : list (list C) :=
  let e := reduced_energy (map (fun vs => mean_value (estimate vs)) worker_values) in
  map (loss_coefficients batch_size e) worker_values.

(** sigma_z.py:7-16 [abs_sigma_z], [sigma_z] for one configuration, flat (the wave function is not used). *)
Definition sigma_z (s : list Z) : R := (IZR (sumZ s) / INR (length s))%R.
Definition abs_sigma_z (s : list Z) : R := (IZR (Z.abs (sumZ s)) / INR (length s))%R.

(** The arrays of operators/ising.py with real entries, and of operators/heisenberg.py, whose model keeps one record per sample,
    in the form used here. *)
Definition of_real_arrays (conn : list (list (list Z))) (mel : list (list R)) (use : list (list bool)) : connections :=
  {| conns := conn; mels := map (map RtoC) mel; uses := use |}.
Definition of_samples (number_of_connections : nat) (samples : list (list (list Z) * list Z * list bool)) : connections :=
  {| conns := map (fun k => map (fun r => nth k (fst (fst r)) []) samples) (range number_of_connections);
     mels := map (fun k => map (fun r => RtoC (IZR (nth k (snd (fst r)) 0%Z))) samples) (range number_of_connections);
     uses := map (fun k => map (fun r => nth k (snd r) false) samples) (range number_of_connections) |}.
