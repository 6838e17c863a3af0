(** Model of callbacks/checkpoint.py, of the resume code in experiments/train.py:58-65 and of the write rate in callbacks/tensorboard.py. *)
From Coq Require Import List ZArith Bool Arith String.
From Verif Require Import Base.
Import ListNotations.

(** * Files. Opening a file for writing empties it, so that a crash before the end of the write leaves a partial file. *)

Inductive file (A : Type) := Missing | Partial | Complete (a : A).
Arguments Missing {A}. Arguments Partial {A}. Arguments Complete {A} a.

Section Disk.
  (** Model weights, and values of the weights of the optimizer. *)
  Context {W O : Type}.

  Record disk := { weights_file : file W; optimizer_file : file (O * nat * nat) }.
  Definition empty_disk : disk := {| weights_file := Missing; optimizer_file := Missing |}.

  Inductive action := OpenWeights | CloseWeights (w : W) | OpenOptimizer | CloseOptimizer (o : O * nat * nat).
  Definition perform (d : disk) (a : action) : disk :=
    match a with
    | OpenWeights => {| weights_file := Partial; optimizer_file := optimizer_file d |}
    | CloseWeights w => {| weights_file := Complete w; optimizer_file := optimizer_file d |}
    | OpenOptimizer => {| weights_file := weights_file d; optimizer_file := Partial |}
    | CloseOptimizer o => {| weights_file := weights_file d; optimizer_file := Complete o |}
    end.

  (** checkpoint.py:51-55 [_save] with save_weights_only (the file written by Keras with overwrite=True) followed by 9-15 [save_optimizer_weights]
      ([None]: the optimizer has no weights attribute value). *)
  Definition save_actions (w : W) (o : option O) (epoch batch : nat) : list action :=
    [OpenWeights; CloseWeights w] ++
    match o with
    | None => []
    | Some o => [OpenOptimizer; CloseOptimizer (o, epoch, batch)]
    end.

  (** checkpoint.py:18-26 [load_optimizer_weights]; [None] when there is no file. Unpickling a truncated file raises EOFError (or UnpicklingError, not
      distinguished). *)
  Definition load_optimizer_weights (d : disk) : res (option (O * nat * nat)) :=
    match optimizer_file d with
    | Missing => Ok None
    | Partial => Err EOFError
    | Complete o => Ok (Some o)
    end.

  (** train.py:58-65 [load_weights_if_exist]: the loaded weights and optimizer values, and initial_epoch. Opening a truncated HDF5 file raises OSError.
      Unpacking None raises TypeError. *)
  Definition load_weights_if_exist (d : disk) : res (option (W * O) * nat) :=
    match weights_file d with
    | Missing => Ok (None, 0)
    | Partial => Err OSError
    | Complete w =>
        do r <- load_optimizer_weights d ;
        match r with
        | None => Err TypeError
        | Some (o, epoch, _) => Ok (Some (w, o), epoch)
        end
    end.
End Disk.
Arguments disk : clear implicits.
Arguments action : clear implicits.

(** * File names. A format string is a list of texts and replacement fields. *)

Inductive piece := Text (s : string) | Field (key : string).
Fixpoint lookup {V} (key : string) (d : list (string * V)) : option V :=
  match d with
  | [] => None
  | (k, v) :: t => if String.eqb k key then Some v else lookup key t
  end.
(** [filepath.format( **logs)], checkpoint.py:52: the texts and the values put in; KeyError for a missing key. [None]: logs is None, which cannot be
    unpacked. *)
Fixpoint format_pieces {V} (path : list piece) (logs : list (string * V)) : res (list (string + V)) :=
  match path with
  | [] => Ok []
  | Text s :: t => do r <- format_pieces t logs ; Ok (inl s :: r)
  | Field k :: t => match lookup k logs with
                    | None => Err KeyError
                    | Some v => do r <- format_pieces t logs ; Ok (inr v :: r)
                    end
  end.
Definition format_path {V} (path : list piece) (logs : option (list (string * V))) : res (list (string + V)) :=
  match logs with
  | None => Err TypeError
  | Some d => format_pieces path d
  end.

(** * Times. The clock is read in integer units, 60 to the minute. *)

Record callback := { save_frequency_in_minutes : Z; last_save_time : Z; current_epoch : nat }.
(** The calls Keras makes, with the readings of the clock: at the start of [on_batch_end], and at the end of a save. *)
Inductive event := EpochBegin (epoch : nat) | BatchEnd (now : Z) (batch : nat) (after_save : Z) | TrainEnd (after_save : Z).
(** A save: epoch and batch that are stored. *)
Definition save := (nat * nat)%type.
(** checkpoint.py:59-72. The path is assumed to have no fields here. *)
Definition handle (c : callback) (e : event) : callback * option save :=
  match e with
  | EpochBegin epoch => ({| save_frequency_in_minutes := save_frequency_in_minutes c; last_save_time := last_save_time c; current_epoch := epoch |}, None)
  | BatchEnd now batch after =>
      if (now - last_save_time c <? save_frequency_in_minutes c * 60)%Z then (c, None)
      else ({| save_frequency_in_minutes := save_frequency_in_minutes c; last_save_time := after; current_epoch := current_epoch c |},
            Some (current_epoch c, batch))
  | TrainEnd after =>
      ({| save_frequency_in_minutes := save_frequency_in_minutes c; last_save_time := after; current_epoch := current_epoch c + 1 |},
       Some (current_epoch c + 1, 0))
  end.
Fixpoint handle_all (c : callback) (es : list event) : callback * list (event * save) :=
  match es with
  | [] => (c, [])
  | e :: t =>
      let (c1, s) := handle c e in
      let (c2, r) := handle_all c1 t in
      (c2, match s with None => r | Some s => (e, s) :: r end)
  end.
(** checkpoint.py:43-49: the constructor; [now]: the clock. *)
Definition new_callback (minutes now : Z) : callback := {| save_frequency_in_minutes := minutes; last_save_time := now; current_epoch := 0 |}.

(** * callbacks/tensorboard.py *)

Inductive update_frequency := PerEpoch | PerBatch | PerSamples (n : nat).
Record tensorboard := { update_freq : option nat; samples_seen : nat; samples_seen_at_last_write : nat }.
(** tensorboard.py:125-131; [None] stands for 'epoch'. *)
Definition new_tensorboard (u : update_frequency) : tensorboard :=
  {| update_freq := match u with PerEpoch => None | PerBatch => Some 1 | PerSamples n => Some n end; samples_seen := 0; samples_seen_at_last_write := 0 |}.
(** tensorboard.py:357-363 [on_batch_end] for a batch of the given size; the index of the write, if any. *)
Definition on_batch_end (t : tensorboard) (size : nat) : tensorboard * option nat :=
  match update_freq t with
  | None => (t, None)
  | Some f =>
      let seen := samples_seen t + size in
      if f <=? seen - samples_seen_at_last_write t
      then ({| update_freq := update_freq t; samples_seen := seen; samples_seen_at_last_write := seen |}, Some seen)
      else ({| update_freq := update_freq t; samples_seen := seen; samples_seen_at_last_write := samples_seen_at_last_write t |}, None)
  end.
(** tensorboard.py:334-338, the end of [on_epoch_end]: always a write; its index. *)
Definition on_epoch_end (t : tensorboard) (epoch : nat) : nat :=
  match update_freq t with None => epoch | Some _ => samples_seen t end.
Fixpoint batches (t : tensorboard) (sizes : list nat) : tensorboard * list nat :=
  match sizes with
  | [] => (t, [])
  | s :: r =>
      let (t1, w) := on_batch_end t s in
      let (t2, ws) := batches t1 r in
      (t2, match w with None => ws | Some i => i :: ws end)
  end.
