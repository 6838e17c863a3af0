(** What the TensorBoard callback should write; used in the statements of C74. *)
From Coq Require Import String List ZArith Arith Bool.
From Verif Require Import Base OrderingModel TensorModel TensorboardModel.
Import ListNotations.
Local Open Scope nat_scope.

(** The rows of an array; a number has none. *)
Definition rows_of {V} (e : entry V) : list V := match e with Rows l => l | Number _ => [] end.
(** Number of batches needed for [n] samples. *)
Definition batches_needed (n batch_size : nat) : nat := (n + batch_size - 1) / batch_size.

(** The axes of a weight that are not of size one. *)
Definition dims (shape : list nat) : list nat := filter (fun n => negb (n =? 1)) shape.
(** A location without the coordinates that belong to axes of size one. *)
Fixpoint without_units (shape l : list nat) : list nat :=
  match shape, l with
  | n :: sh, i :: t => if n =? 1 then without_units sh t else i :: without_units sh t
  | _, _ => []
  end.
(** Where the entry of a weight is drawn: number of the picture, line, column, channel. *)
Definition pixel (channels_last : bool) (ns l : list nat) : list nat :=
  match ns, l with
  | [_], [i] => [0; i; 0; 0]
  | [a; b], [i; j] => if a <=? b then [0; i; j; 0] else [0; j; i; 0]
  | [_; _; _], [i; j; k] => if channels_last then [k; i; j; 0] else [i; j; k; 0]
  | _, _ => []
  end.
Definition drawn_shape (channels_last : bool) (ns : list nat) : list nat :=
  match ns with
  | [a] => [1; a; 1; 1]
  | [a; b] => [1; Nat.min a b; Nat.max a b; 1]
  | [a; b; c] => if channels_last then [c; a; b; 1] else [a; b; c; 1]
  | _ => []
  end.

(** The log entries that are written. *)
Definition wanted {V} (e : string * log_value V) : bool := negb (String.eqb (fst e) "batch") && negb (String.eqb (fst e) "size").
(** A value that is one real number, alone or in an array. *)
Definition one_real {V} (v : log_value V) (x : V) : Prop := v = RealValue x \/ v = RealArray [x].

(** The weights, gradients, images and outputs among a list of summaries. *)
Definition weights_in (l : list summary) : list weight :=
  flat_map (fun s => match s with Histogram _ (WeightValues w) => [w] | _ => [] end) l.
Definition gradients_in (l : list summary) : list (string * list (list nat)) :=
  flat_map (fun s => match s with Histogram tag (GradientValues shapes) => [(tag, shapes)] | _ => [] end) l.
Definition images_in (l : list summary) : list (weight * list nat) :=
  flat_map (fun s => match s with Image _ w shape => [(w, shape)] | _ => [] end) l.
Definition outputs_in (l : list summary) : list (string * nat) :=
  flat_map (fun s => match s with Histogram _ (OutputValues n i) => [(n, i)] | _ => [] end) l.
(** Which tensors are the outputs of a layer: is output number [i] complex? *)
Definition output_is (l : layer) (i : nat) (is_complex : bool) : Prop :=
  match layer_output l with
  | NoOutput => False
  | OneOutput c => i = 0 /\ c = is_complex
  | ManyOutputs cs => nth_error cs i = Some is_complex
  end.

(** The number that a string of digits stands for. *)
Fixpoint read_digits (acc : nat) (s : string) : nat :=
  match s with
  | EmptyString => acc
  | String c t => read_digits (10 * acc + (Ascii.nat_of_ascii c - 48)) t
  end.
