(** One training run of experiments/train.py with its parts put together: the fast sampler on the layers of a machine draws the batches of
    the generator, whose targets Keras trains on. *)
From Coq Require Import List ZArith Reals Bool Arith.
From Verif Require Import Base Cplx IsingModel OrderingModel AutoregressiveModel TrainingModel ObservableModel ExactModel MonteCarloModel
  GraphModel GraphSpec FastMachineModel.
Import ListNotations.

(** fast_autoregressive.py:58-61 [_extract_the_sample]: the activations of the input layer in row major order. The input layer holds one
    integer at every location; anything else cannot occur and is read as 0. *)
Definition extract_the_sample (shape : list nat) (x : loc -> value) : list Z :=
  map (fun l => match x l with VInts [z] => z | _ => 0%Z end) (raster shape).

(** fast_autoregressive.py:63-76: one row of the result of the sampling function, with one uniform random number per site. *)
Definition sampling_row (shape : list nat) (model : graph * nat) (u : list R) : res (list Z) :=
  let M := keras_model model in
  do x <- fast_sample M (graph_zeros (fst model)) (draw_with M site_value category_0 false u);
  Ok (extract_the_sample shape x).

(** fast_autoregressive.py:30-35 [__next__] of a sampler with the sizes base_sampler.py:12-18 stored. Run number [k] of the sampling function
    for [m] rows uses the [m] rows of random numbers [random k m]; the number of runs so far is counted. *)
Definition fast_sampler_next (shape : list nat) (model : graph * nat) (batch_size : nat) (mini : option nat) (random : nat -> nat -> list (list R))
    (k : nat) : res (nat * list (list Z)) :=
  let '(b, m) := sampler_sizes batch_size mini in
  do r <- fast_next random b m k;
  do rows <- mapM (sampling_row shape model) (snd r);
  Ok (fst r, rows).

(** variational_monte_carlo.py:42-50 [next_batch]: the sampler's batch, each row with its target. *)
Definition sample_and_next_batch (op : operator) (log_psi : list Z -> C) (shape : list nat) (model : graph * nat) (batch_size : nat)
    (mini : option nat) (random : nat -> nat -> list (list R)) (k : nat) : res (nat * list (list Z * C)) :=
  do r <- fast_sampler_next shape model batch_size mini random k;
  do st <- next_batch op log_psi (snd r);
  Ok (fst r, combine (batch_of_step st) (targets_of_step st)).
