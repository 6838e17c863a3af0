(** Model of the stages in experiments/train.py. *)
From Coq Require Import List Bool Arith.
From Verif Require Import Base TrainingModel.
Import ListNotations.

(** A configuration value: what the parser gives, or a list of it. *)
Inductive value (A : Type) := Scalar (a : A) | Nested (l : list A).
Arguments Scalar {A} a. Arguments Nested {A} l.

(** train.py:69-72: [[config.x] * len(config.num_epoch)] when there is one value. *)
Definition spread {A} (l : list A) (stages : nat) : list (value A) :=
  if length l =? 1 then repeat (Nested l) stages else map Scalar l.
(** train.py:68-73 [to_valid_stages_config]: batch_size, num_epoch, learning_rate. *)
Definition to_valid_stages_config {L} (batch_size num_epoch : list nat) (learning_rate : list L)
  : res (list (value nat) * list nat * list (value L)) :=
  let b := spread batch_size (length num_epoch) in
  let r := spread learning_rate (length num_epoch) in
  if (length b =? length num_epoch) && (length r =? length num_epoch) then Ok (b, num_epoch, r) else Err AssertionError.

(** train.py:92-100, the sizes of a stage that is run: [workers] is hvd.size() with horovod, [None] without; the batch size of the training, and
    of the validation. [ceil(list / int)] and [min(list * 8, int)] raise TypeError. A mini batch size of 0 fails in the sampler (not modelled) or in the
    assertion. *)
Definition stage_sizes (mini : nat) (workers : option nat) (batch_size : value nat) : res (nat * nat) :=
  match batch_size with
  | Nested _ => Err TypeError
  | Scalar b =>
      do b <- match workers with None => Ok b | Some n => if n =? 0 then Err ZeroDivisionError else Ok (ceil_div b n) end ;
      if b <? mini then Ok (b, min (b * 8) (2 ^ 15))
      else if mini =? 0 then Err ZeroDivisionError
      else if b mod mini =? 0 then Ok (b, min (b * 8) (2 ^ 15)) else Err AssertionError
  end.

(** An epoch that is run: its number, the batch size and the learning rate. *)
Definition epoch_run (L : Type) := (nat * nat * value L)%type.
(** train.py:86-129, the loop over the stages (zip stops at the shortest list): the epochs that are run, the files stage_k.h5 that are written, the final
    initial_epoch, and the exception if there is one. *)
Fixpoint run_stages {L} (mini : nat) (workers : option nat) (idx : nat) (stages : list (value nat * nat * value L)) (total initial_epoch : nat)
  : list (epoch_run L) * list nat * nat * option exn :=
  match stages with
  | [] => ([], [], initial_epoch, None)
  | (b, n, r) :: t =>
      let total := total + n in
      if total <=? initial_epoch then run_stages mini workers (S idx) t total initial_epoch
      else match stage_sizes mini workers b with
           | Err e => ([], [], initial_epoch, Some e)
           | Ok (size, _) =>
               let here := map (fun e => (e, size, r)) (seq initial_epoch (total - initial_epoch)) in
               let '(epochs, files, last, err) := run_stages mini workers (S idx) t total total in
               (here ++ epochs, (idx + 1) :: files, last, err)
           end
  end.
(** train.py:76-129 [train], up to the final evaluation. *)
Definition train {L} (mini : nat) (workers : option nat) (batch_size num_epoch : list nat) (learning_rate : list L) (initial_epoch : nat)
  : res (list (epoch_run L) * list nat * nat * option exn) :=
  do c <- to_valid_stages_config batch_size num_epoch learning_rate ;
  let '(b, n, r) := c in
  Ok (run_stages mini workers 0 (combine (combine b n) r) 0 initial_epoch).

(** train.py:135, 147: the number of steps of the final evaluation. *)
Definition evaluation_steps (mini : nat) : res nat :=
  let m := mini / 16 in
  if m =? 0 then Err ZeroDivisionError else Ok (2 ^ 15 / m).
