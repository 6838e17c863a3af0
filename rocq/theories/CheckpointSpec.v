(** Notions for the statements about checkpoints. *)
From Coq Require Import List ZArith Bool Arith Lia String Sorted.
From Verif Require Import Base CheckpointModel.
Import ListNotations.

Section Crash.
  Context {W O : Type}.
  (** What was saved: weights, optimizer values, epoch, batch. *)
  Definition history := list (W * O * nat * nat).
  Definition actions_of (h : history) : list (action W O) :=
    flat_map (fun s => let '(w, o, e, b) := s in save_actions w (Some o) e b) h.
  Definition after (h : history) (k : nat) : disk W O := fold_left perform (firstn k (actions_of h)) empty_disk.

End Crash.
Arguments history : clear implicits.

(** Clock readings of an event, and a clock that does not go back. *)
Definition readings (e : event) : list Z := match e with EpochBegin _ => [] | BatchEnd now _ t => [now; t] | TrainEnd t => [t] end.
Definition clock (start : Z) (es : list event) : Prop := StronglySorted Z.le (start :: flat_map readings es).
(** Start and end of a periodic save. *)
Definition interval (s : event * save) : option (Z * Z) := match fst s with BatchEnd now _ t => Some (now, t) | _ => None end.
Definition intervals (ss : list (event * save)) : list (Z * Z) := flat_map (fun s => match interval s with Some i => [i] | None => [] end) ss.

(** The keys a path asks for. *)
Definition fields (path : list piece) : list string := flat_map (fun p => match p with Text _ => [] | Field k => [k] end) path.
