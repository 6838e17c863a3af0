(** Model of the scripts in examples/ that do more than one call of fit_generator: ising.py, j1j2_2d_monte_carlo_4.py, evaluate_with_2d_obc_invariant.py, and of
    the grid of parameters that several scripts choose from. *)
From Coq Require Import String List ZArith Reals Bool Arith.
From Verif Require Import Base Cplx IsingModel TrainingModel ExactModel SymmetryModel CallbackModel StagesModel RunnerModel.
Import ListNotations.

(** * The grid of parameters *)

(** [itertools.product(star vs)]: the last list varies fastest. *)
Fixpoint product {A} (vs : list (list A)) : list (list A) :=
  match vs with
  | [] => [[]]
  | v :: t => flat_map (fun a => map (cons a) (product t)) v
  end.
(** j1j2_2d_exact_4.py:51-55, j1j2_2d_monte_carlo_4.py:25-29, complex_ops_autoregressive_heisenberg_1d.py:22-26: the parameters that a run index chooses, which may
    be negative. That sys.argv holds an integer is assumed. *)
Definition chosen {K A} (config : list (K * list A)) (run_index : Z) : res (list (K * A)) :=
  let params_options := product (map snd config) in
  match params_options with
  | [] => Err ZeroDivisionError
  | d :: _ => Ok (combine (map fst config) (nth (Z.to_nat (run_index mod Z.of_nat (length params_options))) params_options d))
  end.
(** A value of the grids. *)
Inductive param := Int (n : nat) | Float (x : R) | Flag (b : bool).
(** j1j2_2d_monte_carlo_4.py:19-24. *)
Definition monte_carlo_grid : list (string * list param) :=
  [("width", [Int 32]); ("depth", [Int 5]); ("lr", [Float 0.005; Float 0.001; Float 0.0005]); ("weights_normalization", [Flag true; Flag false])]%string.

(** * examples/ising.py *)

(** examples/ising.py:52-62 [depth_to_max_mini_batch]: the table, and the loop over it, from a first value of [res] (1 in the code). *)
Definition memory_table : list (nat * nat) := [(1, 2 ^ 12); (20, 2 ^ 11); (40, 2 ^ 10)].
Definition max_mini_batch_from (first depth : nat) : nat :=
  fold_left (fun res kv => if fst kv <=? depth then Nat.min res (snd kv) else res) memory_table first.
Definition depth_to_max_mini_batch (depth : nat) : nat := max_mini_batch_from 1 depth.

(** examples/ising.py:65-71 [restore_run_state]: no file of weights, or a file with the epoch in the file of the optimizer; without the latter
    load_optimizer_weights returns None, which cannot be unpacked. *)
Definition restore_run_state (checkpoint : option (option nat)) : res nat :=
  match checkpoint with
  | None => Ok 0
  | Some None => Err TypeError
  | Some (Some epoch) => Ok epoch
  end.

(** An epoch that is run: its number, the size of the batches and mini batches, after how many mini batches the weights are updated, and the steps. *)
Record epoch_record := { number : nat; size : nat; mini_size : nat; updated_every : nat; steps : nat }.
(** examples/ising.py:94-129, the loop over the stages; the epochs, the numbers of the files with the weights, and the exception. *)
Fixpoint example_stages (mini idx : nat) (stages : list (nat * nat)) (total initial_epoch : nat) : list epoch_record * list nat * option exn :=
  match stages with
  | [] => ([], [], None)
  | (b, n) :: t =>
      let total := total + n in
      if total <=? initial_epoch then example_stages mini (S idx) t total initial_epoch
      else match stage_sizes mini None (Scalar b) with
           | Err e => ([], [], Some e)
           | Ok (b, _) =>
               match @new_generator unit (fst (sampler_sizes b (Some mini))) (Some mini) with
               | Err e => ([], [], Some e)
               | Ok G =>
                   let here := map (fun e => {| number := e; size := gen_batch_size G; mini_size := gen_mini G; updated_every := gen_freq G; steps := 100 * gen_freq G |})
                                   (seq initial_epoch (total - initial_epoch)) in
                   let '(epochs, files, err) := example_stages mini (S idx) t total total in
                   (here ++ epochs, idx :: files, err)
               end
           end
  end.

(** The options that are read: --depth, --gamma ([None] when it is not given: it has no default and is not required), --no_weights_normalization. *)
Record ising_options := { depth : nat; field : option R; no_weights_normalization : bool }.
(** What a run does: whether the machine has weight normalisation, what the name of the run says about it, the epochs, the files, the result, the exception. *)
Record example_outcome := {
  normalized : bool; named_normalized : bool; run_epochs : list epoch_record; run_files : list nat; result : option logs; failure : option exn
}.

Section Ising.
  (** As in RunnerModel.v: the machine, the batches of the sampler in the evaluation, the times. *)
  Context (machine : list (array Z) -> res (list C)) (batch : nat -> nat -> list (list Z)) (start sampled evaluated now : nat -> R).

  (** examples/ising.py:131-149: the evaluation, with the sampler and the generator on [mini // 16]. *)
  Definition example_evaluation (mini : nat) (gamma e0 : R) : res logs :=
    let mini := mini / 16 in
    do w <- evaluation_world machine batch start sampled evaluated now (ising_operator 1 gamma false [12; 12]) [12; 12] None mini;
    do r <- evaluate (statistics (evaluation_callbacks (Some e0) false)) (Some shown_keys) (2 ^ 15 / mini) w;
    Ok (snd r).
  (** examples/ising.py:74-149 [run], with the value [mini] for depth_to_max_mini_batch(params.depth). *)
  Definition run_with (mini : nat) (o : ising_options) (batch_size_list epochs_list : list nat) (checkpoint : option (option nat)) : example_outcome :=
    let out epochs files r e :=
      {| normalized := negb (no_weights_normalization o); named_normalized := no_weights_normalization o;
         run_epochs := epochs; run_files := files; result := r; failure := e |} in
    match restore_run_state checkpoint with
    | Err e => out [] [] None (Some e)
    | Ok initial_epoch =>
        match field o with
        | None => out [] [] None (Some KeyError)
        | Some gamma =>
            match ising_table gamma with
            | Err e => out [] [] None (Some e)
            | Ok e0 =>
                let '(epochs, files, err) := example_stages mini 0 (combine batch_size_list epochs_list) 0 initial_epoch in
                match err with
                | Some e => out epochs files None (Some e)
                | None => match example_evaluation mini gamma e0 with
                          | Ok r => out epochs files (Some r) None
                          | Err e => out epochs files None (Some e)
                          end
                end
            end
        end
    end.
  Definition run_example (o : ising_options) := run_with (depth_to_max_mini_batch (depth o)) o.
  (** examples/ising.py:165-169. *)
  Definition ising_example (o : ising_options) (checkpoint : option (option nat)) : example_outcome :=
    run_example o [2 ^ 7; 2 ^ 10; 2 ^ 13] [100; 100; 50] checkpoint.
End Ising.

(** * examples/j1j2_2d_monte_carlo_4.py *)

(** evaluate.py:14-28 with a generator that is not the one of the callbacks: [next(generator)] advances [other] and leaves [train w]. *)
Fixpoint evaluate_other_loop (cs : list callback) (keys : option (list string)) (steps i : nat) (other : vmc) (w : world) (arr : list logs)
  : res (vmc * world * logs) :=
  match steps with
  | O => do r <- mean_logs arr None ; Ok (other, w, r)
  | S k =>
      let other := vmc_next other in
      do r <- call_all (both i) cs w [] ;
      let arr := arr ++ [snd r] in
      do shown <- match keys with None => Ok [] | Some ks => mean_logs arr (Some ks) end ;
      evaluate_other_loop cs keys k (S i) other (fst r) arr
  end.
Definition evaluate_other (cs : list callback) (keys : option (list string)) (steps : nat) (other : vmc) (w : world) : res (vmc * world * logs) :=
  evaluate_other_loop cs keys steps 0 other w [].
(** [generator.set_sampler(sampler)], variational_monte_carlo.py:30-32. *)
Definition set_sampler (v : vmc) (batch_size : nat) : res vmc :=
  do G <- TrainingModel.set_batch_size (served v) batch_size None ;
  Ok {| served := G; current_energy := current_energy v; current_local_energy_variance := current_local_energy_variance v; observable_value := observable_value v;
        start_time := start_time v; sampling_end_time := sampling_end_time v; local_energy_end_time := local_energy_end_time v |}.
Definition with_train (w : world) (v : vmc) : world :=
  {| CallbackModel.train := v; val := val w; clock := clock w; reads := reads w; stop_training := stop_training w; stopped_epoch := stopped_epoch w |}.
(** What a script ends with: sys.exit after the first fit at an epoch, or the result of its evaluations. *)
Inductive ending := Exit (epoch : nat) | Evaluated (results : list logs).

(** j1j2_2d_monte_carlo_4.py:43, 57-61: the energy, and the callbacks; tensorboard and TerminateOnNaN do not change what is modelled here. *)
Definition j1j2_energy : R := -30.022227800323677.
Definition j1j2_callbacks : list callback :=
  default_callbacks false (Some j1j2_energy) false 1 ++ [BadEigenStateStopping j1j2_energy 0.01 0.1 10].
(** j1j2_2d_monte_carlo_4.py:41-82. [attributes]: the attributes of monte_carlo_generator (the served part is replaced by a new generator); [invariant]: those of the
    generator with the symmetrised model. fit_generator starts with stop_training = False. *)
Definition with_served (v : vmc) (G : generator unit) : vmc :=
  {| served := G; current_energy := current_energy v; current_local_energy_variance := current_local_energy_variance v; observable_value := observable_value v;
     start_time := start_time v; sampling_end_time := sampling_end_time v; local_energy_end_time := local_energy_end_time v |}.
Definition j1j2_script (attributes invariant : vmc) (now : nat -> R) : res ending :=
  do G <- new_generator (2 ^ 10) None ;
  let g := with_served attributes G in
  do r1 <- fit_generator j1j2_callbacks (2 ^ 8) 60 0 {| CallbackModel.train := g; val := g; clock := now; reads := 0; stop_training := false; stopped_epoch := None |} ;
  let w := fst r1 in
  match stopped_epoch w with
  | Some e => Ok (Exit e)
  | None =>
      do g <- set_sampler (CallbackModel.train w) (2 ^ 10 * 8) ;
      do r2 <- fit_generator j1j2_callbacks (2 ^ 8) 80 0 (with_train w g) ;
      do G' <- new_generator (2 ^ 10 * 8) None ;
      do r3 <- evaluate_other (firstn 4 j1j2_callbacks) (Some ["energy/energy"; "energy/relative_error"]%string) 200 (with_served invariant G') (fst r2) ;
      Ok (Evaluated [snd r3])
  end.

(** * examples/evaluate_with_2d_obc_invariant.py:22-46 *)

Definition obc_callbacks : list callback := default_callbacks false (Some (-50.18662388277671)%R) true 1.
Definition obc_script (attributes invariant : vmc) (now : nat -> R) : res ending :=
  let keys := Some ["energy/energy"; "energy/relative_error"]%string in
  do G <- new_generator 128 None ;
  let g := with_served attributes G in
  do r1 <- fit_generator obc_callbacks 500 2 0 {| CallbackModel.train := g; val := g; clock := now; reads := 0; stop_training := false; stopped_epoch := None |} ;
  do r2 <- evaluate obc_callbacks keys 200 (fst r1) ;
  do G' <- new_generator 128 None ;
  do r3 <- evaluate obc_callbacks keys 200 (with_train (fst r2) (with_served invariant G')) ;
  Ok (Evaluated [snd r2; snd r3]).
