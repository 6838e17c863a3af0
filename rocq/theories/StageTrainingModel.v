(** Model of the parameter updates over all stages of experiments/train.py. *)
From Coq Require Import List Reals Arith Bool.
From Verif Require Import Base Cplx Vec TrainingModel.
Import ListNotations.

(** A stage: its batch size and its number of updates (epochs that are run, times steps_per_epoch). *)
Record stage := { stage_batch_size : nat; stage_updates : nat }.

(** train.py:90-130, the loop over the stages that are run. Every stage makes a new generator (102-105), tells the optimizer the number of
    mini batches per batch (110), sets the learning rate (111: the optimizer of stage [idx] is [O idx]) and trains for
    steps_per_epoch * update_params_frequency mini batches per epoch (126). [next_batch idx c w] is the [c]-th batch of that stage, drawn with
    the weights [w]. The state of the accumulating optimizer is kept from stage to stage. *)
Fixpoint train_stages {X S} (O : nat -> optimizer S) (sum : bool) (d mini : nat) (next_batch : nat -> nat -> list R -> list X)
    (sample_gradient : list R -> X -> list R) (idx : nat) (stages : list stage) (A : accumulating S) : res (accumulating S) :=
  match stages with
  | [] => Ok A
  | st :: t =>
      do G <- new_generator (stage_batch_size st) (Some mini);
      let A := set_update_params_frequency A (gen_freq G) in
      do r <- fit (O idx) sum d (next_batch idx) sample_gradient G A (stage_updates st * gen_freq G);
      train_stages O sum d mini next_batch sample_gradient (Datatypes.S idx) t (snd r)
  end.

(** A restart (train.py:84-86, checkpoint.py:18-26): the wrapped optimizer gets its saved state. optimizer.weights, which is what
    checkpoint.py:9-15 saves, does not contain the variables that accumulate_gradient_optimizer.py:23-24 and 55 add, so the counter and the
    accumulators start again from zero. *)
Definition restart {S} (O : optimizer S) (A : accumulating S) : res (accumulating S) := convert_to_accumulate O (inner A) 1.
