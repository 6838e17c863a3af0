(** Model of the experiment scripts: experiments/ising_runner.py, heisenberg_runner.py, run_evaluation.py and the parts of train.py outside
    the loop over the stages (which is StagesModel.v). It starts with the configuration that argparse returns. *)
From Coq Require Import String List ZArith Reals Bool Arith.
From Verif Require Import Base Cplx IsingModel HeisenbergModel TrainingModel ObservableModel ExactModel MonteCarloModel SymmetryModel SymmetricEvaluationModel
  CallbackModel StagesModel.
Import ListNotations.

(** The attribute func that the subcommand sets (ising_runner.py:13-14, heisenberg_runner.py:13-14); [None] without a subcommand, which
    argparse allows (the subparsers are not required). *)
Inductive command := Train | Eval.
(** The configuration as far as it is read. The options of the subcommand that is not given do not exist in the code. Left out: output_path,
    weights_path, width, depth, weights_normalization, steps_per_epoch, validation_period. [workers]: hvd.size() with --use_horovod. *)
Record config := {
  func : option command; hilbert_state_shape : list nat; pbc : bool; gamma : R;
  batch_size : list nat; num_epoch : list nat; learning_rate : list R; mini_batch_size : nat; workers : option nat; num_of_samples : nat
}.
(** What a run of a script does: the operator it uses, the epochs it trains, the files stage_k.h5, what it prints, the exception that ends it. *)
Record outcome := { used : option operator; trained : list (epoch_run R); files : list nat; printed : option logs; raised : option exn }.
Definition failed (o : option operator) (e : exn) : outcome := {| used := o; trained := []; files := []; printed := None; raised := Some e |}.

(** run_evaluation.py:25, train.py:149: the keys of keys_to_progress_bar_mapping. *)
Definition shown_keys : list string := ["energy/energy"; "energy/relative_error"; "energy/local_energy_variance"]%string.

(** A callback of the final evaluation: one of callbacks/monte_carlo/, or the one of horovod that averages the logs over the workers. *)
Inductive run_callback := Stats (c : callback) | MetricAverage.
(** train.py:145-148, run_evaluation.py:22-24 ([horovod] is false there): the callbacks that are passed to evaluate, [callbacks[:4]]. *)
Definition evaluation_callbacks (e0 : option R) (horovod : bool) : list run_callback :=
  firstn 4 (map Stats (default_callbacks false e0 false 1) ++ (if horovod then [MetricAverage] else [])).
(** evaluate calls them; what MetricAverage does depends on the other workers (not modelled: it is never in the list). *)
Definition statistics (cs : list run_callback) : list callback := flat_map (fun c => match c with Stats c => [c] | MetricAverage => [] end) cs.

Section Run.
  (** The machine with its weights; [batch r k] is the k-th batch that the sampler of worker [r] returns in the evaluation (worker 0 without horovod);
      the times that are measured, and the clock. *)
  Context (machine : list (array Z) -> res (list C)) (batch : nat -> nat -> list (list Z)) (start sampled evaluated now : nat -> R).

  (** variational_monte_carlo.py:42-50 [next_batch], or the one of horovod_variational_monte_carlo.py (train.py:140-142) on rank 0, with the operator and the
      symmetrised model, for batch number [k]. *)
  Definition evaluation_step (op : operator) (shape : list nat) (workers : option nat) (k : nat) : res step :=
    let log_psi := predicted (evaluation_model machine) shape in
    match workers with
    | None => next_batch op log_psi (batch 0 k)
    | Some n => do s <- horovod_next_batches op log_psi (map (fun r => batch r k) (range n));
                match s with [] => Err IndexError | st :: _ => Ok st end
    end.
  (** The generator and its attributes after [k] calls of next_batch, with callbacks/monte_carlo/observable.py:16-18. An exception in next_batch is
      read as zeros (it does not occur for the operators of the scripts). *)
  Definition evaluation_vmc (op : operator) (shape : list nat) (workers : option nat) (served : generator unit) : vmc :=
    {| served := served;
       current_energy := fun k => match evaluation_step op shape workers (k - 1) with Ok st => energy_of_step st | Err _ => C0 end;
       current_local_energy_variance := fun k => match evaluation_step op shape workers (k - 1) with Ok st => RtoC (variance_of_step st) | Err _ => C0 end;
       observable_value := fun name k =>
         if String.eqb name "sigma_z" then RtoC (batch_mean sigma_z (batch 0 (k - 1))) else RtoC (batch_mean abs_sigma_z (batch 0 (k - 1)));
       start_time := start; sampling_end_time := sampled; local_energy_end_time := evaluated |}.
  (** run_evaluation.py:20-21, train.py:138-144: the sampler gets the batch size mini_batch_size, and so does the generator. *)
  Definition evaluation_world (op : operator) (shape : list nat) (workers : option nat) (mini : nat) : res world :=
    do G <- new_generator (fst (sampler_sizes mini None)) (Some mini);
    let g := evaluation_vmc op shape workers G in
    Ok {| CallbackModel.train := g; val := g; clock := now; reads := 0; stop_training := false; stopped_epoch := None |}.

  (** train.py:132-151, the evaluation after training, on rank 0. *)
  Definition final_evaluation (op : operator) (c : config) (e0 : option R) : res logs :=
    do w <- evaluation_world op (hilbert_state_shape c) (workers c) (mini_batch_size c);
    do steps <- evaluation_steps (mini_batch_size c);
    do r <- evaluate (statistics (evaluation_callbacks e0 match workers c with None => false | Some _ => true end)) (Some shown_keys) steps w;
    Ok (snd r).
  (** train.py:76-151 [train], on rank 0, started with a checkpoint of [initial_epoch] epochs. *)
  Definition train_script (op : operator) (c : config) (e0 : option R) (initial_epoch : nat) : outcome :=
    match StagesModel.train (mini_batch_size c) (workers c) (batch_size c) (num_epoch c) (learning_rate c) initial_epoch with
    | Err e => failed (Some op) e
    | Ok (epochs, fs, _, Some e) => {| used := Some op; trained := epochs; files := fs; printed := None; raised := Some e |}
    | Ok (epochs, fs, _, None) =>
        match final_evaluation op c e0 with
        | Ok r => {| used := Some op; trained := epochs; files := fs; printed := Some r; raised := None |}
        | Err e => {| used := Some op; trained := epochs; files := fs; printed := None; raised := Some e |}
        end
    end.
  (** run_evaluation.py:12-26 [run]. *)
  Definition eval_script (op : operator) (c : config) (e0 : option R) : outcome :=
    let mini := mini_batch_size c in
    let results :=
      do w <- evaluation_world op (hilbert_state_shape c) None mini;
      do r <- evaluate (statistics (evaluation_callbacks e0 false)) (Some shown_keys) (num_of_samples c / mini) w;
      Ok (snd r) in
    match results with
    | Ok r => {| used := Some op; trained := []; files := []; printed := Some r; raised := None |}
    | Err e => failed (Some op) e
    end.
  (** [config.func(operator, config, true_ground_state_energy)]. *)
  Definition dispatch (op : operator) (c : config) (e0 : option R) (initial_epoch : nat) : outcome :=
    match func c with
    | None => failed (Some op) AttributeError (* not reached *)
    | Some Train => train_script op c e0 initial_epoch
    | Some Eval => eval_script op c e0
    end.

  (** The comparison of the shape with two given sizes (ising_runner.py:26, heisenberg_runner.py:24-29). *)
  Definition is_grid (shape : list nat) (a b : nat) : bool := (length shape =? 2) && (nth 0 shape 0 =? a) && (nth 1 shape 0 =? b).

  (** ising_runner.py:27-31: the table of energies, indexed with a float. *)
  Definition ising_table (gamma : R) : res R :=
    if Req_EM_T gamma 2 then Ok (-346.982)%R
    else if Req_EM_T gamma 2.5 then Ok (-395.654)%R
    else if Req_EM_T gamma 3 then Ok (-457.039)%R
    else if Req_EM_T gamma 3.5 then Ok (-524.510)%R
    else if Req_EM_T gamma 4 then Ok (-593.536)%R
    else Err KeyError.
  (** ising_runner.py:24-32. Without a subcommand already config.hilbert_state_shape does not exist (the subparsers define that option). *)
  Definition ising_main (c : config) (initial_epoch : nat) : outcome :=
    if match func c with None => true | Some _ => false end then failed None AttributeError else
    let op := ising_operator 1 (gamma c) (pbc c) (hilbert_state_shape c) in
    let e0 := if negb (pbc c) && is_grid (hilbert_state_shape c) 12 12 then do e <- ising_table (gamma c); Ok (Some e) else Ok None in
    match e0 with
    | Err e => failed (Some op) e
    | Ok e0 => dispatch op c e0 initial_epoch
    end.
  (** heisenberg_runner.py:22-31. *)
  Definition heisenberg_energy (shape : list nat) (pbc : bool) : option R :=
    if is_grid shape 10 10 then (if pbc then Some (-268.61976)%R else Some (-251.4624)%R)
    else if negb pbc && is_grid shape 16 16 then Some (-658.9759488)%R
    else None.
  Definition heisenberg_main (c : config) (initial_epoch : nat) : outcome :=
    if match func c with None => true | Some _ => false end then failed None AttributeError else
    dispatch (heisenberg_operator (heisenberg_init (hilbert_state_shape c) true (pbc c))) c (heisenberg_energy (hilbert_state_shape c) (pbc c)) initial_epoch.
End Run.

(** The configuration of the commands in experiments/README.md:6-10 and 14 with the defaults of ising_runner.py:17 and heisenberg_runner.py:16, and of
    README.md:27-31 and 35 with the defaults of ising_runner.py:16, heisenberg_runner.py:15 and run_evaluation.py:32. *)
Definition ising_train (gamma : R) : config :=
  {| func := Some Train; hilbert_state_shape := [12; 12]; pbc := false; gamma := gamma; batch_size := [2 ^ 7; 2 ^ 10; 2 ^ 13]; num_epoch := [100; 100; 50];
     learning_rate := [0.001; 0.001; 0.001]%R; mini_batch_size := 2 ^ 12; workers := None; num_of_samples := 0 |}.
Definition heisenberg_train : config :=
  {| func := Some Train; hilbert_state_shape := [10; 10]; pbc := false; gamma := 0; batch_size := [2 ^ 10; 2 ^ 11]; num_epoch := [80; 370];
     learning_rate := [0.001; 0.001]%R; mini_batch_size := 2 ^ 11; workers := None; num_of_samples := 0 |}.
Definition ising_eval (gamma : R) : config :=
  {| func := Some Eval; hilbert_state_shape := [12; 12]; pbc := false; gamma := gamma; batch_size := []; num_epoch := [];
     learning_rate := []; mini_batch_size := 2 ^ 8; workers := None; num_of_samples := 2 ^ 16 |}.
Definition heisenberg_eval : config :=
  {| func := Some Eval; hilbert_state_shape := [10; 10]; pbc := false; gamma := 0; batch_size := []; num_epoch := [];
     learning_rate := []; mini_batch_size := 2 ^ 7; workers := None; num_of_samples := 2 ^ 16 |}.
