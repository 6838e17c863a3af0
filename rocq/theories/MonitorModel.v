(** Model of examples/custom_keras_model.py:36-49: the callbacks of the library together with the monitors of Keras (ModelCheckpoint and EarlyStopping), and
    of callbacks/monte_carlo/mcmc_stats.py as a callback. *)
From Coq Require Import List ZArith Reals Bool Arith String.
From Verif Require Import Base Cplx TrainingModel CheckpointModel CallbackModel.
Import ListNotations.

(** [sub in s] for strings. *)
Fixpoint contains (sub s : string) : bool :=
  if String.prefix sub s then true else match s with EmptyString => false | String _ t => contains sub t end.
(** mode='auto' of the Keras monitors: larger is better exactly for names with "acc" (ModelCheckpoint also for names starting with "fmeasure", which is left
    out). Used through custom_keras_model.py:36 and 41. *)
Definition higher_is_better (monitor : string) : bool := contains "acc" monitor.
(** [monitor_op(current, best)], with best = +-inf ([None]) at the start. *)
Definition better (monitor : string) (current : R) (best : option R) : bool :=
  match best with
  | None => true
  | Some b => if higher_is_better monitor then (if Rlt_dec b current then true else false) else (if Rlt_dec current b then true else false)
  end.

(** The callbacks of custom_keras_model.py:43-45. [Statistics]: those of CallbackModel.v. [McmcStats]: mcmc_stats.py. [ModelCheckpoint] (line 36:
    save_best_only, save_weights_only, period 1) and [EarlyStopping] (line 41) with their state. [Other]: TensorBoard and TerminateOnNaN, which do not write to
    the logs (training that meets nan is left out). *)
Inductive keras_callback :=
| Statistics (c : callback)
| McmcStats (in_batch : bool)
| ModelCheckpoint (monitor : string) (best : option R)
| EarlyStopping (monitor : string) (min_delta : R) (patience : nat) (best : option R) (wait : nat)
| Other.

(** [diagnostics]: what the sampler gives for the [k]-th batch (r_hat, correlations sum, effective sample size, acceptance ratio; see McmcStatsModel.v for the
    values), [None] for a sampler without calc_r_hat_value. [updates]: the number of updates of the weights so far. [saved]: the saves of ModelCheckpoint so
    far as (epoch, updates in the saved weights), the newest last; the file holds the newest. *)
Record run := { seen : world; diagnostics : option (nat -> R * R * R * R); updates : nat; saved : list (nat * nat) }.
Definition with_world (w : world) (r : run) : run :=
  {| seen := w; diagnostics := diagnostics r; updates := updates r; saved := saved r |}.
(** [self.model.stop_training = value]. *)
Definition set_stop (b : bool) (w : world) : world :=
  {| train := train w; val := val w; clock := clock w; reads := reads w; stop_training := b; stopped_epoch := stopped_epoch w |}.

(** mcmc_stats.py:11-17 [add_mcmc_logs]. *)
Definition add_mcmc_logs_to (r : run) (l : logs) : res logs :=
  match diagnostics r with
  | None => Err AttributeError
  | Some f =>
      do x <- attribute (train (seen r)) f ;
      let '(r_hat, correlations_sum, effective_sample_size, acceptance_ratio) := x in
      Ok (set_log "mcmc/energy_correlations_sum" correlations_sum (set_log "mcmc/energy_effective_sample_size" effective_sample_size
            (set_log "mcmc/energy_r_hat" r_hat (set_log "mcmc/acceptance_ratio" acceptance_ratio l))))
  end.

(** on_batch_end (mcmc_stats.py:19-23); the monitors of Keras inherit the empty one. *)
Definition batch_end (batch : nat) (c : keras_callback) (r : run) (l : logs) : res (keras_callback * run * logs) :=
  match c with
  | Statistics s => do x <- on_batch_end s batch (seen r) l ; Ok (c, with_world (fst x) r, snd x)
  | McmcStats true => do l <- add_mcmc_logs_to r l ; Ok (c, r, l)
  | _ => Ok (c, r, l)
  end.
(** on_epoch_end (mcmc_stats.py:25-29, and Keras for the monitors). A monitor whose key is not in the logs warns and does nothing. *)
Definition epoch_end (epoch : nat) (c : keras_callback) (r : run) (l : logs) : res (keras_callback * run * logs) :=
  match c with
  | Statistics s => do x <- on_epoch_end s epoch (seen r) l ; Ok (c, with_world (fst x) r, snd x)
  | McmcStats in_batch => if in_batch then Ok (c, r, l) else do l <- add_mcmc_logs_to r l ; Ok (c, r, l)
  | ModelCheckpoint monitor best =>
      match lookup monitor l with
      | None => Ok (c, r, l)
      | Some current =>
          if better monitor current best
          then Ok (ModelCheckpoint monitor (Some current),
                   {| seen := seen r; diagnostics := diagnostics r; updates := updates r; saved := saved r ++ [(epoch, updates r)] |}, l)
          else Ok (c, r, l)
      end
  | EarlyStopping monitor min_delta patience best wait =>
      match lookup monitor l with
      | None => Ok (c, r, l)
      | Some current =>
          let shifted := if higher_is_better monitor then (current - min_delta)%R else (current + min_delta)%R in
          if better monitor shifted best then Ok (EarlyStopping monitor min_delta patience (Some current) 0, r, l)
          else
            let wait := S wait in
            Ok (EarlyStopping monitor min_delta patience best wait, if patience <=? wait then with_world (set_stop true (seen r)) r else r, l)
      end
  | Other => Ok (c, r, l)
  end.

(** Keras calls the callbacks in order, with one dict of logs. *)
Fixpoint call_in_order (f : keras_callback -> run -> logs -> res (keras_callback * run * logs)) (cs : list keras_callback) (r : run) (l : logs)
  : res (list keras_callback * run * logs) :=
  match cs with
  | [] => Ok ([], r, l)
  | c :: t =>
      do x <- f c r l ;
      let '(c, r, l) := x in
      do y <- call_in_order f t r l ;
      let '(t, r, l) := y in
      Ok (c :: t, r, l)
  end.
(** Batches [b, b + steps) of one epoch: the next batch of the generator is made with the present weights, then the weights are updated, then the callbacks
    run. [loss]: the loss entry of Keras, for the given number of updates. *)
Fixpoint train_steps (loss : nat -> R) (cs : list keras_callback) (steps b : nat) (r : run) : res (list keras_callback * run) :=
  match steps with
  | O => Ok (cs, r)
  | S k =>
      let r := {| seen := advance_train (seen r); diagnostics := diagnostics r; updates := S (updates r); saved := saved r |} in
      do x <- call_in_order (batch_end b) cs r [("loss", loss (updates r))]%string ;
      train_steps loss (fst (fst x)) k (S b) (snd (fst x))
  end.
(** Epochs [epoch, epoch + n), until a callback asks to stop; the logs of the epochs that were run. *)
Fixpoint run_epochs (loss : nat -> R) (cs : list keras_callback) (steps n epoch : nat) (r : run) : res (list keras_callback * run * list logs) :=
  match n with
  | O => Ok (cs, r, [])
  | S k =>
      if stop_training (seen r) then Ok (cs, r, [])
      else
        do x <- train_steps loss cs steps 0 r ;
        do y <- call_in_order (epoch_end epoch) (fst x) (snd x) [("loss", loss (updates (snd x)))]%string ;
        do rest <- run_epochs loss (fst (fst y)) steps k (S epoch) (snd (fst y)) ;
        Ok (fst rest, snd y :: snd rest)
  end.
(** on_train_begin: EarlyStopping starts anew, ModelCheckpoint keeps its best value. *)
Definition train_begin (c : keras_callback) : keras_callback :=
  match c with EarlyStopping monitor min_delta patience _ _ => EarlyStopping monitor min_delta patience None 0 | _ => c end.
(** model.fit_generator (custom_keras_model.py:47-48). *)
Definition keras_fit (loss : nat -> R) (cs : list keras_callback) (steps n : nat) (r : run) : res (list keras_callback * run * list logs) :=
  run_epochs loss (map train_begin cs) steps n 0 (with_world (set_stop false (seen r)) r).

(** custom_keras_model.py:43-45, with the arguments of the monitors (lines 36 and 41) and log_in_batch_or_epoch (default True) as parameters. *)
Definition monitored (in_batch : bool) (e0 : R) (monitor1 : string) (best : option R) (monitor2 : string) (min_delta : R) (patience : nat) : list keras_callback :=
  map Statistics (default_callbacks false (Some e0) in_batch 1) ++
  [McmcStats true; ModelCheckpoint monitor1 best; Other; EarlyStopping monitor2 min_delta patience None 0; Other].
Definition custom_keras_model_callbacks (in_batch : bool) (e0 : R) : list keras_callback :=
  monitored in_batch e0 "energy/energy" None "energy/relative_error" (1 / 100000)%R 0.
