(** Notions for the statements about the monitors of Keras. *)
From Coq Require Import List ZArith Reals Arith String.
From Verif Require Import Base Cplx TrainingModel CheckpointModel CallbackModel CallbackSpec MonitorModel.
Import ListNotations.

(** The energy estimate of the last batch of the [j]-th epoch of a new generator with full batches, and its relative error. *)
Definition epoch_energy (v : vmc) (steps j : nat) : R := Re (current_energy v (steps * S j)).
Definition epoch_error (e0 : R) (v : vmc) (steps j : nat) : R := ((e0 - epoch_energy v steps j) / e0)%R.
(** A training that has not begun, with a sampler that gives the diagnostics. *)
Definition new_run (B : nat) (r : run) : Prop := fresh B None (train (seen r)) /\ diagnostics r <> None /\ updates r = 0.
(** The generator measures a machine whose energy after [u] updates is [energy u]: the first batch sees the initial weights. *)
Definition measures (energy : nat -> R) (v : vmc) : Prop := forall k, Re (current_energy v (S k)) = energy k.
