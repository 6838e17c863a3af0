(** Model of callbacks/monte_carlo/ and of evaluation/evaluate.py. *)
From Coq Require Import List ZArith Reals Bool Arith String.
From Verif Require Import Base Cplx IsingModel TrainingModel CheckpointModel.
Import ListNotations.

(** * Logs: a python dict, in the order of insertion. *)

Definition logs := list (string * R).
(** [logs[key] = value]. *)
Fixpoint set_log (key : string) (v : R) (l : logs) : logs :=
  match l with
  | [] => [(key, v)]
  | (k, x) :: t => if String.eqb k key then (k, v) :: t else (k, x) :: set_log key v t
  end.
(** [logs[key]]. *)
Definition get_log (key : string) (l : logs) : res R :=
  match lookup key l with None => Err KeyError | Some v => Ok v end.

(** * A VariationalMonteCarlo object (variational_monte_carlo.py:12-50): the mini batch generator, and what its attributes hold after the given number of
    calls of [next_batch] (any functions). current_batch enters through the values of the observables on it. *)

Record vmc := {
  served : generator unit;
  current_energy : nat -> C; current_local_energy_variance : nat -> C; observable_value : string -> nat -> C;
  start_time : nat -> R; sampling_end_time : nat -> R; local_energy_end_time : nat -> R
}.
(** [next(generator)], mini_batch_generator.py:27-41. *)
Definition vmc_next (v : vmc) : vmc :=
  {| served := fst (next_mini_batch (fun _ => []) (served v));
     current_energy := current_energy v; current_local_energy_variance := current_local_energy_variance v; observable_value := observable_value v;
     start_time := start_time v; sampling_end_time := sampling_end_time v; local_energy_end_time := local_energy_end_time v |}.
(** Reading an attribute. Before the first batch it does not exist (current_batch is None then, and the error of the estimators on None is not
    distinguished). *)
Definition attribute {A} (v : vmc) (f : nat -> A) : res A :=
  match gen_fetched (served v) with O => Err AttributeError | k => Ok (f k) end.

(** What the callbacks see and change: the two generators, the clock (its k-th reading from now), the stop flag of the Keras model and stopped_epoch. *)
Record world := {
  train : vmc; val : vmc; clock : nat -> R; reads : nat; stop_training : bool; stopped_epoch : option nat
}.
Definition advance_train (w : world) : world :=
  {| train := vmc_next (train w); val := val w; clock := clock w; reads := reads w; stop_training := stop_training w; stopped_epoch := stopped_epoch w |}.
Definition advance_val (w : world) : world :=
  {| train := train w; val := vmc_next (val w); clock := clock w; reads := reads w; stop_training := stop_training w; stopped_epoch := stopped_epoch w |}.
(** [time.time()]. *)
Definition read_clock (w : world) : R * world :=
  (clock w (reads w),
   {| train := train w; val := val w; clock := clock w; reads := S (reads w); stop_training := stop_training w; stopped_epoch := stopped_epoch w |}).
Definition stop_at (epoch : nat) (w : world) : world :=
  {| train := train w; val := val w; clock := clock w; reads := reads w; stop_training := true; stopped_epoch := Some epoch |}.

(** * The callbacks. [validation]: validation_generator is not None; [in_batch]: log_in_batch_or_epoch. *)

Inductive callback :=
| GeneratorIterator (period : nat)
| LocalEnergyStats (true_ground_state_energy : option R) (in_batch validation : bool) (period : nat)
| ObservableStats (name : string) (in_batch validation : bool) (period : nat)
| RuntimeStats (in_batch : bool)
| BadEigenStateStopping (upper_bound variance_tol relative_error_to_stop : R) (min_epoch : nat).

(** local_energy_stats.py:15-20 [add_energy_stats_to_logs]. A true energy of 0 makes numpy give inf or nan here (real division in the model). *)
Definition add_energy_stats_to_logs (e0 : option R) (l : logs) (g : vmc) (prefix : string) : res logs :=
  do e <- attribute g (current_energy g) ;
  do v <- attribute g (current_local_energy_variance g) ;
  let l := set_log (prefix ++ "energy/energy") (Re e) l in
  let l := set_log (prefix ++ "energy/local_energy_variance") (Re v) l in
  Ok match e0 with
     | None => l
     | Some x => set_log (prefix ++ "energy/relative_error") ((x - Re e) / x)%R l
     end.
(** observable.py:16-18 [add_observable_stats_to_logs]. *)
Definition add_observable_stats_to_logs (name : string) (l : logs) (g : vmc) (prefix : string) : res logs :=
  do v <- attribute g (observable_value g name) ;
  Ok (set_log (prefix ++ "observables/" ++ name) (Re v) l).
(** runtime_stats.py:11-16 [add_runtime_stats_to_logs]. *)
Definition add_runtime_stats_to_logs (w : world) (l : logs) : res (world * logs) :=
  let '(now, w') := read_clock w in
  let g := train w in
  do a <- attribute g (start_time g) ;
  do b <- attribute g (sampling_end_time g) ;
  do c <- attribute g (local_energy_end_time g) ;
  Ok (w', set_log "times/total" (now - a)%R (set_log "times/gradients" (now - c)%R
            (set_log "times/local_energy" (c - b)%R (set_log "times/sampling" (b - a)%R l)))).

(** on_batch_end: local_energy_stats.py:22-26, observable.py:20-24, runtime_stats.py:18-22; the two others inherit the empty one of Keras. *)
Definition on_batch_end (c : callback) (batch : nat) (w : world) (l : logs) : res (world * logs) :=
  match c with
  | LocalEnergyStats e0 true _ _ => do l <- add_energy_stats_to_logs e0 l (train w) "" ; Ok (w, l)
  | ObservableStats name true _ _ => do l <- add_observable_stats_to_logs name l (train w) "" ; Ok (w, l)
  | RuntimeStats true => add_runtime_stats_to_logs w l
  | _ => Ok (w, l)
  end.

(** [epoch % period == 0]. *)
Definition divides (period epoch : nat) : res bool :=
  if period =? 0 then Err ZeroDivisionError else Ok (epoch mod period =? 0).
(** [validation_generator is not None and epoch % validation_period == 0]. *)
Definition is_validation_epoch (validation : bool) (period epoch : nat) : res bool :=
  if validation then divides period epoch else Ok false.

(** bad_eigen_state_stopping.py:33-35, the comparison [(energy - bound) / |bound| > tol]; numpy gives +inf, nan or -inf for a bound of 0. *)
Definition exceeds (energy bound tol : R) : bool :=
  if Req_EM_T bound 0 then (if Rlt_dec 0 energy then true else false)
  else if Rlt_dec tol ((energy - bound) / Rabs bound) then true else false.
(** bad_eigen_state_stopping.py:19-31, the energy and the variance; [None] with the warning. *)
Definition energy_and_variance (l : logs) : res (option (R * R)) :=
  match lookup "val_energy/energy" l with
  | Some e => do v <- get_log "val_energy/local_energy_variance" l ; Ok (Some (e, v))
  | None => match lookup "energy/energy" l with
            | Some e => do v <- get_log "energy/local_energy_variance" l ; Ok (Some (e, v))
            | None => Ok None
            end
  end.

(** on_epoch_end: generator_iterator.py:10-12, local_energy_stats.py:28-34, observable.py:26-32, runtime_stats.py:24-28,
    bad_eigen_state_stopping.py:17-36. *)
Definition on_epoch_end (c : callback) (epoch : nat) (w : world) (l : logs) : res (world * logs) :=
  match c with
  | GeneratorIterator period =>
      do b <- divides period epoch ;
      Ok (if b then advance_val w else w, l)
  | LocalEnergyStats e0 in_batch validation period =>
      do l <- (if in_batch then Ok l else add_energy_stats_to_logs e0 l (train w) "") ;
      do b <- is_validation_epoch validation period epoch ;
      do l <- (if b then add_energy_stats_to_logs e0 l (val w) "val_" else Ok l) ;
      Ok (w, l)
  | ObservableStats name in_batch validation period =>
      do l <- (if in_batch then Ok l else add_observable_stats_to_logs name l (train w) "") ;
      do b <- is_validation_epoch validation period epoch ;
      do l <- (if b then add_observable_stats_to_logs name l (val w) "val_" else Ok l) ;
      Ok (w, l)
  | RuntimeStats in_batch => if in_batch then Ok (w, l) else add_runtime_stats_to_logs w l
  | BadEigenStateStopping bound variance_tol tol min_epoch =>
      do r <- energy_and_variance l ;
      match r with
      | None => Ok (w, l)
      | Some (energy, variance) =>
          if epoch <? min_epoch then Ok (w, l)
          else if exceeds energy bound tol && (if Rlt_dec variance variance_tol then true else false) then Ok (stop_at epoch w, l)
          else Ok (w, l)
      end
  end.

(** callbacks/monte_carlo/__init__.py:10-29 [default_wave_function_stats_callbacks_factory]. *)
Definition default_callbacks (validation : bool) (e0 : option R) (in_batch : bool) (period : nat) : list callback :=
  (if validation then [GeneratorIterator period] else []) ++
  [LocalEnergyStats e0 in_batch validation period; ObservableStats "sigma_z" in_batch validation period;
   ObservableStats "abs_sigma_z" in_batch validation period; RuntimeStats in_batch].

(** * Keras: callbacks are called in order, with one dict of logs. *)

Fixpoint call_all (f : callback -> world -> logs -> res (world * logs)) (cs : list callback) (w : world) (l : logs) : res (world * logs) :=
  match cs with
  | [] => Ok (w, l)
  | c :: t => do r <- f c w l ; call_all f t (fst r) (snd r)
  end.
(** One epoch of fit_generator: batches [b, b + steps), each with its own logs; the loss entries of Keras are left out. *)
Fixpoint train_batches (cs : list callback) (steps b : nat) (w : world) : res world :=
  match steps with
  | O => Ok w
  | S k => do r <- call_all (fun c => on_batch_end c b) cs (advance_train w) [] ; train_batches cs k (S b) (fst r)
  end.
(** Epochs [epoch, epoch + n), until a callback asks to stop; the logs of the epochs that were run. *)
Fixpoint fit_generator (cs : list callback) (steps n epoch : nat) (w : world) : res (world * list logs) :=
  match n with
  | O => Ok (w, [])
  | S k =>
      if stop_training w then Ok (w, [])
      else
        do w1 <- train_batches cs steps 0 w ;
        do r <- call_all (fun c => on_epoch_end c epoch) cs w1 [] ;
        do rest <- fit_generator cs steps k (S epoch) (fst r) ;
        Ok (fst rest, snd r :: snd rest)
  end.

(** * evaluation/evaluate.py *)

(** evaluate.py:10, the mean over the steps of one key; the mean of an empty list is nan with a warning (not reached: see [mean_logs]). *)
Definition mean (l : list R) : R := (Rsum (fun x => x) l / INR (List.length l))%R.
(** evaluate.py:5-11 [mean_logs]. *)
Definition mean_logs (arr : list logs) (keys : option (list string)) : res logs :=
  do keys <- match keys with
             | Some k => Ok k
             | None => match arr with [] => Err IndexError | l :: _ => Ok (map fst l) end
             end ;
  mapM (fun key => do vs <- mapM (get_log key) arr ; Ok (key, mean vs)) keys.

(** evaluate.py:20-23, one step: each callback gets both calls. *)
Definition both (i : nat) (c : callback) (w : world) (l : logs) : res (world * logs) :=
  do r <- on_batch_end c i w l ;
  on_epoch_end c i (fst r) (snd r).
(** evaluate.py:15-28 [evaluate]: [steps] more steps from step [i] with the logs so far; [keys]: the keys of keys_to_progress_bar_mapping. *)
Fixpoint evaluate_loop (cs : list callback) (keys : option (list string)) (steps i : nat) (w : world) (arr : list logs) : res (world * logs) :=
  match steps with
  | O => do r <- mean_logs arr None ; Ok (w, r)
  | S k =>
      do r <- call_all (both i) cs (advance_train w) [] ;
      let arr := arr ++ [snd r] in
      do shown <- match keys with None => Ok [] | Some ks => mean_logs arr (Some ks) end ;
      evaluate_loop cs keys k (S i) (fst r) arr
  end.
Definition evaluate (cs : list callback) (keys : option (list string)) (steps : nat) (w : world) : res (world * logs) :=
  evaluate_loop cs keys steps 0 w [].
