(** Model of callbacks/exact/ and of exact_evaluate (evaluation/evaluate.py:31-37). Floating point numbers are real numbers. *)
From Coq Require Import List ZArith Reals Bool Arith String.
From Verif Require Import Base Cplx ObservableModel ExactModel CallbackModel.
Import ListNotations.

(** The ExactVariational object as the callbacks see it: the arrays, and its attributes that do not exist (or are None) before the first evaluation.
    [norm_known]: wave_function_norm_squared is not None; [energy_known]: energy_observable.current_energy and current_local_energy_variance exist;
    the three times are machine_updated_start_time, wave_function_update_end_time and local_energy_update_end_time. *)
Record variational := {
  arrays : exact; norm_known : bool; energy_known : bool;
  started_at : option R; wave_function_at : option R; local_energy_at : option R
}.
Definition new_variational (e : exact) : variational :=
  {| arrays := e; norm_known := false; energy_known := false; started_at := None; wave_function_at := None; local_energy_at := None |}.

(** exact_variational.py:130 [num_of_batch_until_full_cycle]. *)
Definition num_of_batch_until_full_cycle (e : exact) : nat := num_of_states (number_of_spins e) / batch_size e.

(** exact_variational.py:132-139 [_update_wave_function_arrays] with its effect on the object. *)
Definition wave_function_updated (log_psi : list Z -> C) (e : exact) : res exact :=
  do wnp <- update_wave_function_arrays log_psi e;
  let '(w, norm, p) := wnp in
  Ok {| number_of_spins := number_of_spins e; batch_size := batch_size e; states := states e; columns := columns e;
        wave_function := w; norm_squared := norm; probs := p;
        energies := energies e; naive_energies := naive_energies e; ExactModel.current_energy := ExactModel.current_energy e;
        current_variance := current_variance e; grad_coefficients := grad_coefficients e; updates := updates e |}.
Definition update_wave_function_only (log_psi : list Z -> C) (v : variational) : res variational :=
  do e <- wave_function_updated log_psi (arrays v);
  Ok {| arrays := e; norm_known := true; energy_known := energy_known v;
        started_at := started_at v; wave_function_at := wave_function_at v; local_energy_at := local_energy_at v |}.

(** The clock: its readings from now on. *)
Definition clock_readings := nat -> R.
Definition after (k : nat) (t : clock_readings) : clock_readings := fun i => t (k + i).

(** exact_variational.py:146-152 [machine_updated] with its three readings of the clock. *)
Definition machine_updated_at (log_psi : list Z -> C) (t : clock_readings) (v : variational) : res variational :=
  do e <- machine_updated log_psi (arrays v);
  Ok {| arrays := e; norm_known := true; energy_known := true;
        started_at := Some (t 0); wave_function_at := Some (t 1); local_energy_at := Some (t 2) |}.

(** sigma_z.py:14-18 [_prepare_sigma_z_vals], the mean spin of every state and its absolute value. (For a model without spins numpy divides 0 by 0; the
    model divides real numbers.) *)
Definition total_spins (e : exact) : R := INR (number_of_spins e).
Definition sigma_z_vals (e : exact) : list R := map (fun s => (IZR (sumZ s) / total_spins e)%R) (states e).
Definition abs_sigma_z_vals (e : exact) : list R := map (fun s => (Rabs (IZR (sumZ s)) / total_spins e)%R) (states e).
(** exact/utils.py:6,15 [fdot]. *)
Definition fdot (a b : list R) : R := Rsum (fun x => x) (map2 Rmult a b).

(** The callbacks; [in_batch] is log_in_batch_or_epoch (update_in_batch_or_epoch). An observable callback carries the ExactObservable it built,
    of which only the connections and the energies are used. *)
Inductive exact_callback :=
| ExactLocalEnergy (true_ground_state_energy : option R) (in_batch : bool)
| ExactSigmaZ (sigma_z abs_sigma_z : list R) (in_batch : bool)
| ExactRuntimeStats (in_batch : bool)
| MachineUpdated (in_batch update_local_energy : bool)
| ExactObservableCallback (observable : exact) (name : string) (in_batch : bool).

(** Constructors: sigma_z.py:8-13, observable.py:8-12 (exact_variational.py:13-19 builds the connections of the operator). *)
Definition new_sigma_z (e : exact) (in_batch : bool) : exact_callback := ExactSigmaZ (sigma_z_vals e) (abs_sigma_z_vals e) in_batch.
Definition new_observable (e : exact) (op : operator) (name : string) (in_batch : bool) : res exact_callback :=
  do o <- new_exact (number_of_spins e) op (batch_size e);
  Ok (ExactObservableCallback o name in_batch).
(** callbacks/exact/__init__.py:8-12 [default_wave_function_callbacks_factory]. *)
Definition default_exact_callbacks (e : exact) (e0 : option R) (in_batch : bool) : list exact_callback :=
  [ExactLocalEnergy e0 in_batch; new_sigma_z e in_batch; ExactRuntimeStats in_batch].

(** What the calls see and change: the object, the weights (the machine they define) and the clock. *)
Record exact_world := { variation : variational; machine : list Z -> C; time : clock_readings }.

(** local_energy.py:12-17 [add_energy_to_logs]. *)
Definition add_energy_to_logs (e0 : option R) (v : variational) (l : logs) : res logs :=
  if energy_known v then
    let energy := Re (ExactModel.current_energy (arrays v)) in
    let l := set_log "energy/energy" energy l in
    let l := set_log "energy/local_energy_variance" (current_variance (arrays v)) l in
    Ok match e0 with None => l | Some x => set_log "energy/relative_error" ((x - energy) / x)%R l end
  else Err AttributeError.
(** sigma_z.py:20-22 [add_sigma_z_logs]. *)
Definition add_sigma_z_logs (sigma_z abs_sigma_z : list R) (v : variational) (l : logs) : res logs :=
  Ok (set_log "observables/sigma_z" (fdot sigma_z (probs (arrays v))) (set_log "observables/abs_sigma_z" (fdot abs_sigma_z (probs (arrays v))) l)).
(** runtime_stats.py:11-18 [add_runtime_stats_to_logs]; the clock is read before the attributes. *)
Definition add_exact_runtime_stats (w : exact_world) (l : logs) : res (exact_world * logs) :=
  let v := variation w in
  let now := time w 0 in
  let w := {| variation := v; machine := machine w; time := after 1 (time w) |} in
  match started_at v, wave_function_at v, local_energy_at v with
  | Some a, Some b, Some c =>
      Ok (w, set_log "times/total" (now - a)%R (set_log "times/gradients" (now - c)%R
               (set_log "times/local_energy" (c - b)%R (set_log "times/wave_function_update" (b - a)%R l))))
  | _, _, _ => Err AttributeError
  end.
(** observable.py:14-16 [add_observable_to_logs]; without a norm the division raises TypeError. (calculate_variance_of_the_local_operator is False, so only the
    energies are written.) The callback with the new energies is returned. *)
Definition add_observable_to_logs (o : exact) (name : string) (v : variational) (l : logs) : res (exact * logs) :=
  if norm_known v then
    do r <- update_local_energy (wave_function (arrays v)) (norm_squared (arrays v)) (probs (arrays v)) o;
    let '(en, naive, current, var) := r in
    Ok ({| number_of_spins := number_of_spins o; batch_size := batch_size o; states := states o; columns := columns o;
           wave_function := wave_function o; norm_squared := norm_squared o; probs := probs o;
           energies := en; naive_energies := naive_energies o; ExactModel.current_energy := current; current_variance := current_variance o;
           grad_coefficients := grad_coefficients o; updates := updates o |},
        set_log ("observables/" ++ name) (Re current) l)
  else Err TypeError.
(** machine_updated.py:11-16 and 18-23. *)
Definition update_machine (update_local_energy : bool) (w : exact_world) : res exact_world :=
  if update_local_energy
  then do v <- machine_updated_at (machine w) (time w) (variation w); Ok {| variation := v; machine := machine w; time := after 3 (time w) |}
  else do v <- update_wave_function_only (machine w) (variation w); Ok {| variation := v; machine := machine w; time := time w |}.

(** on_batch_end: local_energy.py:19-23, sigma_z.py:25-29, runtime_stats.py:20-24, machine_updated.py:11-16, observable.py:18-22. The last one reads
    self.generator, which does not exist. A cycle has at least one batch (the constructor rejects other batch sizes). *)
Definition exact_on_batch_end (c : exact_callback) (batch : nat) (w : exact_world) (l : logs) : res (exact_callback * exact_world * logs) :=
  let cycle := num_of_batch_until_full_cycle (arrays (variation w)) in
  match c with
  | ExactLocalEnergy e0 in_batch =>
      do l <- (if in_batch && (batch mod cycle =? 0) then add_energy_to_logs e0 (variation w) l else Ok l); Ok (c, w, l)
  | ExactSigmaZ a b in_batch =>
      do l <- (if in_batch && (batch mod cycle =? 0) then add_sigma_z_logs a b (variation w) l else Ok l); Ok (c, w, l)
  | ExactRuntimeStats in_batch =>
      do r <- (if in_batch && ((batch + 1) mod cycle =? 0) then add_exact_runtime_stats w l else Ok (w, l)); Ok (c, fst r, snd r)
  | MachineUpdated in_batch u => do w <- (if in_batch then update_machine u w else Ok w); Ok (c, w, l)
  | ExactObservableCallback o name in_batch => if in_batch then Err AttributeError else Ok (c, w, l)
  end.

(** on_epoch_end: local_energy.py:25-29, sigma_z.py:31-34, runtime_stats.py:26-30, machine_updated.py:18-23, observable.py:24-28. *)
Definition exact_on_epoch_end (c : exact_callback) (epoch : nat) (w : exact_world) (l : logs) : res (exact_callback * exact_world * logs) :=
  match c with
  | ExactLocalEnergy e0 in_batch => do l <- (if in_batch then Ok l else add_energy_to_logs e0 (variation w) l); Ok (c, w, l)
  | ExactSigmaZ a b in_batch => do l <- (if in_batch then Ok l else add_sigma_z_logs a b (variation w) l); Ok (c, w, l)
  | ExactRuntimeStats in_batch => do r <- (if in_batch then Ok (w, l) else add_exact_runtime_stats w l); Ok (c, fst r, snd r)
  | MachineUpdated in_batch u => do w <- (if in_batch then Ok w else update_machine u w); Ok (c, w, l)
  | ExactObservableCallback o name in_batch =>
      if in_batch then Ok (c, w, l)
      else do r <- add_observable_to_logs o name (variation w) l; Ok (ExactObservableCallback (fst r) name in_batch, w, snd r)
  end.

(** Callbacks in order, with one dict of logs. *)
Fixpoint call_exact (f : exact_callback -> exact_world -> logs -> res (exact_callback * exact_world * logs)) (cs : list exact_callback)
  (w : exact_world) (l : logs) : res (list exact_callback * exact_world * logs) :=
  match cs with
  | [] => Ok ([], w, l)
  | c :: t =>
      do r <- f c w l;
      let '(c, w, l) := r in
      do r <- call_exact f t w l;
      let '(t, w, l) := r in
      Ok (c :: t, w, l)
  end.

(** evaluate.py:31-37 [exact_evaluate]. *)
Definition exact_evaluate (cs : list exact_callback) (w : exact_world) : res (list exact_callback * exact_world * logs) :=
  do v <- machine_updated_at (machine w) (time w) (variation w);
  let w := {| variation := v; machine := machine w; time := after 3 (time w) |} in
  call_exact (fun c w l => do r <- exact_on_batch_end c (num_of_batch_until_full_cycle (arrays v)) w l;
                           let '(c, w, l) := r in exact_on_epoch_end c 1 w l) cs w [].

(** exact_variational.py:154-158 [to_generator] inside fit_generator(workers=0): position [i] in the inner loop (the end before the first batch). One
    batch: the next element of the generator (the coefficients are read at once), the gradient step, which turns the machine into [next_machine], then the callbacks. *)
Record training := { world_of : exact_world; position : nat; callbacks_of : list exact_callback }.
Definition start_training (w : exact_world) (cs : list exact_callback) : training :=
  {| world_of := w; position := num_of_states (number_of_spins (arrays (variation w))); callbacks_of := cs |}.
Definition train_on_batch (batch : nat) (next_machine : list Z -> C) (s : training) : res (training * (list (list Z) * list C) * logs) :=
  let w := world_of s in
  let n := num_of_states (number_of_spins (arrays (variation w))) in
  do r <- (if position s <? n then Ok (variation w, time w)
           else do v <- machine_updated_at (machine w) (time w) (variation w); Ok (v, after 3 (time w)));
  let '(v, t) := r in
  let i := if position s <? n then position s else 0 in
  let e := arrays v in
  let yielded := (slice (states e) i (i + batch_size e), slice (grad_coefficients e) i (i + batch_size e)) in
  do r <- call_exact (fun c => exact_on_batch_end c batch) (callbacks_of s) {| variation := v; machine := next_machine; time := t |} [];
  let '(cs, w, l) := r in
  Ok ({| world_of := w; position := i + batch_size e; callbacks_of := cs |}, yielded, l).
(** [k] batches from batch [b] of an epoch; [machines t] is the machine after t gradient steps. *)
Fixpoint train_exact (machines : nat -> list Z -> C) (t b k : nat) (s : training) : res (training * list (list (list Z) * list C) * list logs) :=
  match k with
  | O => Ok (s, [], [])
  | S k =>
      do r <- train_on_batch b (machines (S t)) s;
      let '(s, y, l) := r in
      do rest <- train_exact machines (S t) (S b) k s;
      let '(s, ys, ls) := rest in
      Ok (s, y :: ys, l :: ls)
  end.
(** Epochs of [steps] batches each; the logs at the end of an epoch come from on_epoch_end of every callback. *)
Fixpoint fit_exact (machines : nat -> list Z -> C) (steps epochs epoch : nat) (s : training) : res (training * list (list logs * logs)) :=
  match epochs with
  | O => Ok (s, [])
  | S k =>
      do r <- train_exact machines (epoch * steps) 0 steps s;
      let '(s, _, ls) := r in
      do r <- call_exact (fun c => exact_on_epoch_end c epoch) (callbacks_of s) (world_of s) [];
      let '(cs, w, l) := r in
      do rest <- fit_exact machines steps k (S epoch) {| world_of := w; position := position s; callbacks_of := cs |};
      Ok (fst rest, (ls, l) :: snd rest)
  end.
