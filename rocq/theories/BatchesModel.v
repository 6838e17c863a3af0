(** Model of the samplers and of VariationalMonteCarlo as objects: their constructors, copy_with_new_batch_size, set_sampler, and the mini batches that come
    out when the sampler returns fewer rows than its batch_size says. *)
From Coq Require Import List ZArith Reals Bool Arith.
From Verif Require Import Base Cplx ObservableModel ExactModel TrainingModel MonteCarloModel.
Import ListNotations.

(** The classes of samplers: deepar/samplers/autoregressive.py:10, deepar/samplers/fast_autoregressive.py:12, samplers/exact_sampler.py:7 and 25,
    samplers/metropolis_hastings.py:15 with its number of chains. *)
Inductive sampler_class := SiteBySite | FastGraph | Exactly | OfVector | Metropolis (chains : nat).

(** The attributes set by deepar/samplers/base_sampler.py:7-18. *)
Record sampler := { s_class : sampler_class; s_batch : nat; s_mini : nat }.

(** The constructors, as far as the sizes are concerned: base_sampler.py:7-10; metropolis_hastings.py:26-27 refuses a number of chains that does not divide
    the batch size, and [batch_size % 0] raises ZeroDivisionError. *)
Definition new_sampler (c : sampler_class) (batch_size : nat) (mini : option nat) : res sampler :=
  let sizes := sampler_sizes batch_size mini in
  let made := {| s_class := c; s_batch := fst sizes; s_mini := snd sizes |} in
  match c with
  | Metropolis chains => if chains =? 0 then Err ZeroDivisionError
                         else if batch_size mod chains =? 0 then Ok made else Err GenericException
  | _ => Ok made
  end.

(** autoregressive.py:24-27 and fast_autoregressive.py:25-28 [copy_with_new_batch_size]; the other classes have no such method. *)
Definition copy_with_new_batch_size (s : sampler) (batch_size : nat) (mini : option nat) : res sampler :=
  match s_class s with
  | SiteBySite | FastGraph =>
      let sizes := sampler_sizes batch_size mini in
      Ok {| s_class := s_class s; s_batch := fst sizes; s_mini := snd sizes |}
  | _ => Err AttributeError
  end.

(** [__next__] of each class: fast_autoregressive.py:30-35 runs the sampling function on mini batches; autoregressive.py:29-48, exact_sampler.py:14-20 and
    33-39 and metropolis_hastings.py:51-66 return batch_size rows. [draw k m] are the [m] rows of the [k]-th run. *)
Definition sampler_rows {X} (draw : nat -> nat -> list X) (s : sampler) (runs : nat) : res (nat * list X) :=
  match s_class s with
  | FastGraph => fast_next draw (s_batch s) (s_mini s) runs
  | _ => Ok (runs + 1, draw runs (s_batch s))
  end.

(** A generator of training data: the sampler, the runs of the sampler so far, the state of the MiniBatchGenerator (rows with their coefficients) and
    wave_function_evaluation_batch_size. *)
Record monte_carlo := { mc_sampler : sampler; mc_runs : nat; mc_generator : generator (list Z * C); mc_evaluation : nat }.

(** variational_monte_carlo.py:15-28 [__init__]. *)
Definition new_monte_carlo (s : sampler) (mini evaluation : option nat) : res monte_carlo :=
  do g <- new_generator (s_batch s) mini;
  Ok {| mc_sampler := s; mc_runs := 0; mc_generator := g;
        mc_evaluation := match evaluation with None => gen_mini g | Some e => e end |}.

(** variational_monte_carlo.py:30-32 [set_sampler]: the frequency that it returns, and the new state. The evaluation batch size stays. *)
Definition set_sampler (v : monte_carlo) (s : sampler) (mini : option nat) : res (nat * monte_carlo) :=
  do g <- set_batch_size (mc_generator v) (s_batch s) mini;
  Ok (gen_freq g, {| mc_sampler := s; mc_runs := mc_runs v; mc_generator := g; mc_evaluation := mc_evaluation v |}).

(** variational_monte_carlo.py:42-50 [next_batch]: rows and coefficients. The coefficients are divided by the batch size of the generator, the mean is taken
    over the rows. *)
Definition labelled_batch (op : operator) (log_psi : list Z -> C) (batch_size : nat) (rows : list (list Z)) : res (list (list Z * C)) :=
  do e <- update_batch_local_energy op log_psi rows;
  Ok (combine rows (loss_coefficients batch_size (mean_value e) (local e))).

(** mini_batch_generator.py:27-32 on top of it: the state and the mini batch; [draw] is the sampler's randomness with the weights of now. *)
Definition next_training_batch (op : operator) (log_psi : list Z -> C) (draw : nat -> nat -> list (list Z)) (v : monte_carlo)
  : res (monte_carlo * list (list Z * C)) :=
  let g := mc_generator v in
  do r <- (if gen_batch_size g <? gen_idx g + gen_mini g then
             do rows <- sampler_rows draw (mc_sampler v) (mc_runs v);
             do data <- labelled_batch op log_psi (gen_batch_size g) (snd rows);
             Ok (fst rows, data)
           else Ok (mc_runs v, gen_data g));
  let '(g', out) := next_mini_batch (fun _ => snd r) g in
  Ok ({| mc_sampler := mc_sampler v; mc_runs := fst r; mc_generator := g'; mc_evaluation := mc_evaluation v |}, out).

(** Consecutive mini batches; the weights and the randomness may change from one to the next. *)
Fixpoint training_batches (op : operator) (now : list ((list Z -> C) * (nat -> nat -> list (list Z)))) (v : monte_carlo)
  : res (monte_carlo * list (list (list Z * C))) :=
  match now with
  | [] => Ok (v, [])
  | (log_psi, draw) :: t =>
      do a <- next_training_batch op log_psi draw v;
      do b <- training_batches op t (fst a);
      Ok (fst b, snd a :: snd b)
  end.

(** model.predict(rows, batch_size) (variational_monte_carlo.py:25) for a model that treats the rows one by one: Keras cuts the rows into pieces of
    batch_size, the last one may be shorter, and concatenates the results; a batch size of 0 fails. [fuel] bounds the number of pieces. *)
Fixpoint pieces {X} (fuel size : nat) (rows : list X) : list (list X) :=
  match fuel, rows with
  | O, _ | _, [] => []
  | S k, _ => firstn size rows :: pieces k size (skipn size rows)
  end.
Definition predict {X Y} (model : X -> Y) (size : nat) (rows : list X) : res (list Y) :=
  if size =? 0 then Err ZeroDivisionError
  else Ok (concat (map (map model) (pieces (length rows) size rows))).

(** train.py:99-109 and examples/ising.py:97-110: the generators of one stage, for training and for validation, from the sampler of the stage before. *)
Definition stage_generators (s : sampler) (mini batch validation : nat) : res (monte_carlo * monte_carlo) :=
  do vs <- copy_with_new_batch_size s validation (Some mini);
  do ts <- copy_with_new_batch_size s batch (Some mini);
  do t <- new_monte_carlo ts (Some mini) None;
  do v <- new_monte_carlo vs None (Some mini);
  Ok (t, v).
