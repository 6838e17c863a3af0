(** Notions for the statements about callbacks and evaluation. *)
From Coq Require Import List ZArith Reals Bool Arith String.
From Verif Require Import Base Cplx TrainingModel CheckpointModel CallbackModel.
Import ListNotations.

(** The dicts that the steps of an evaluation fill. *)
Fixpoint logged (cs : list callback) (steps i : nat) (w : world) : res (list logs) :=
  match steps with
  | O => Ok []
  | S k => do r <- call_all (both i) cs (advance_train w) [] ; do t <- logged cs k (S i) (fst r) ; Ok (snd r :: t)
  end.
Definition has (key : string) (l : logs) : Prop := exists v, lookup key l = Some v.
Definition value (key : string) (l : logs) : R := match lookup key l with Some v => v | None => 0%R end.
Definition average (f : nat -> R) (n : nat) : R := (Rsum f (seq 0 n) / INR n)%R.

(** A generator that has just been made, with full batches or with mini batches of size m. *)
Definition fresh (B : nat) (mini : option nat) (v : vmc) : Prop := new_generator B mini = Ok (served v).
(** The number of epochs in [e, e + n) divisible by the period. *)
Definition validations (p e n : nat) : nat := List.length (filter (fun k => k mod p =? 0) (seq e n)).
