(** Notions for the statements about training in stages. *)
From Coq Require Import List Bool Arith.
From Verif Require Import Base CheckpointModel StagesModel.
Import ListNotations.

(** A stage: batch size, number of epochs, learning rate. *)
Definition stage (L : Type) := (nat * nat * L)%type.
Definition stages_of {L} (batch_size num_epoch : list nat) (learning_rate : list L) : list (stage L) := combine (combine batch_size num_epoch) learning_rate.
(** A stage as a configuration that gives one value per stage. *)
Definition lift {L} (s : stage L) : value nat * nat * value L := let '(b, n, r) := s in (Scalar b, n, Scalar r).
(** What every epoch of the whole training should use. *)
Definition schedule {L} (stages : list (stage L)) : list (nat * L) := flat_map (fun s => let '(b, n, r) := s in repeat (b, r) n) stages.
(** The part of a run that is compared with it: epoch number, batch size, learning rate; None for a malformed rate. *)
Definition scalar {A} (v : value A) : option A := match v with Scalar a => Some a | Nested _ => None end.
(** The numbered epochs from the k-th on. *)
Definition remaining {L} (k : nat) (stages : list (stage L)) : list (nat * nat * value L) :=
  map (fun e => let '(i, (b, r)) := e in (i, b, Scalar r)) (skipn k (combine (seq 0 (length (schedule stages))) (schedule stages))).
(** A stage that starts at all: its batch fits the mini batches. *)
Definition fits (mini : nat) {L} (s : stage L) : Prop := let '(b, _, _) := s in 0 < mini /\ (b < mini \/ b mod mini = 0).

(** The calls Keras makes on the checkpoint callback in the epochs [a, a + n): batch ends between the epoch starts. *)
Fixpoint stage_events (a : nat) (epochs : list (list event)) : list event :=
  match epochs with
  | [] => []
  | es :: t => EpochBegin a :: es ++ stage_events (S a) t
  end.
