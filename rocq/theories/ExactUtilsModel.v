(** Model of src/flowket/exact/utils.py: the integer <-> spin string codec, the tabulation of a model over
    the whole Hilbert space and the lookup machine built from such a table.
    Python integers are [Z]; numpy rows are lists. *)
From Coq Require Import List ZArith Lia Arith Bool.
From Verif Require Import Base.
Import ListNotations.
Local Open Scope Z_scope.

(** exact/utils.py:18-26 [decimal_to_binary]. One loop iteration per bit: append the low digit, halve. *)
Fixpoint decimal_to_binary (decimal : Z) (num_of_bits : nat) (zero_one_base : bool) : list Z :=
  match num_of_bits with
  | O => []
  | S k =>
      (if zero_one_base then decimal mod 2 else 2 * (decimal mod 2) - 1)
        :: decimal_to_binary (decimal / 2) k zero_one_base
  end.

(** exact/utils.py:29-36 [binary_to_decimal]: the loop with accumulator [res] and weight [power]. *)
Fixpoint binary_to_decimal_loop (digits : list Z) (res power : Z) : Z :=
  match digits with
  | [] => res
  | d :: t => binary_to_decimal_loop t (if d =? 1 then res + power else res) (power * 2)
  end.
Definition binary_to_decimal (digits : list Z) : Z := binary_to_decimal_loop digits 0 1.

(** Two's complement 32 bit wrap of numpy's [int32] in-place addition (line 44 with the buffer of line 41). *)
Definition wrap32 (z : Z) : Z := (z + 2 ^ 31) mod 2 ^ 32 - 2 ^ 31.

(** exact/utils.py:42-46, the column loop: in step [i] the weight of bit [i] is added to every row's
    accumulator. [cols] is [range(binary_digits.shape[-1])] not yet processed. The product of the boolean
    column with the python integer [power] is taken exactly (numpy uses int64 for it; weights beyond 2^62
    are outside this model). Missing digits cannot occur in a rectangular array; [nth] default is unused
    for well-formed input. *)
Fixpoint b2d_columns (rows : list (list Z)) (cols : list nat) (out : list Z) (power : Z) : list Z :=
  match cols with
  | [] => out
  | i :: t =>
      b2d_columns rows t
        (map2 (fun o row => wrap32 (o + (if nth i row 0 =? 1 then power else 0))) out rows) (power * 2)
  end.

(** exact/utils.py:39-46 [binary_array_to_decimal_array] on a (rows x ncols) array. [out = None] allocates
    zeros (lines 40-41); a supplied int32 buffer is used as it is. *)
Definition binary_array_to_decimal_array (ncols : nat) (rows : list (list Z)) (out : option (list Z)) : list Z :=
  b2d_columns rows (range ncols)
    (match out with None => repeat 0 (length rows) | Some o => o end) 1.

(** exact/utils.py:52-57, column loop of [decimal_array_to_binary_array]: [out[:, i] = ...;
    decimal = decimal // 2]. *)
Fixpoint d2b_columns (decimal : list Z) (cols : list nat) (zero_one_base : bool) (out : list (list Z))
  : list (list Z) :=
  match cols with
  | [] => out
  | i :: t =>
      d2b_columns (map (fun d => d / 2) decimal) t zero_one_base
        (map2 (fun row d => upd row i (if zero_one_base then d mod 2 else 2 * (d mod 2) - 1)) out decimal)
  end.

(** exact/utils.py:49-58 [decimal_array_to_binary_array]; without buffer a zero array is allocated. *)
Definition decimal_array_to_binary_array (decimal : list Z) (num_of_bits : nat) (zero_one_base : bool)
  (out : option (list (list Z))) : list (list Z) :=
  d2b_columns decimal (range num_of_bits) zero_one_base
    (match out with None => repeat (repeat 0 num_of_bits) (length decimal) | Some o => o end).

(** numpy.arange(a, a + k) *)
Definition arange (a : Z) (k : nat) : list Z := map (fun i => a + Z.of_nat i) (range k).

(** Slice assignment [out[i:i+b] = vals] (line 71): numpy clamps the slice at the end of [out] and raises
    when the number of values differs from the slice length (a single value would be broadcast). *)
Definition assign_slice {A} (out : list A) (i b : nat) (vals : list A) : res (list A) :=
  let m := (Nat.min (i + b) (length out) - i)%nat in
  if (length vals =? m)%nat then Ok (firstn i out ++ vals ++ skipn (i + m) out)
  else match vals with
       | [v] => Ok (firstn i out ++ repeat v m ++ skipn (i + m) out)
       | _ => Err ShapeError
       end.

(** exact/utils.py:68-71, the loop [for i in range(0, num_of_states, batch_size)]; [steps] is the number of
    remaining values of the range. [model] is the Keras model as a function of one configuration:
    [predict] evaluates each row of the batch on its own. The reshape to [model.input_shape] keeps the
    row-major order of the spins and is the identity on flat configurations. *)
Fixpoint tabulate_loop {A} (model : list Z -> A) (n_spins batch_size : nat) (steps : nat) (i : nat)
  (out : list A) : res (list A) :=
  match steps with
  | O => Ok out
  | S k =>
      let batch := decimal_array_to_binary_array (arange (Z.of_nat i) batch_size) n_spins false None in
      do out' <- assign_slice out i batch_size (map model batch);
      tabulate_loop model n_spins batch_size k (i + batch_size)%nat out'
  end.

(** Number of elements of python's [range(0, n, step)] for step > 0. *)
Definition range_steps (n step : nat) : nat := ((n + step - 1) / step)%nat.

(** exact/utils.py:61-72 [to_log_wave_function_vector] (with [out = None]; [zero] is numpy's initial 0).
    Batch size 0 makes python's [range] raise ValueError. *)
Definition to_log_wave_function_vector {A} (zero : A) (model : list Z -> A) (n_spins batch_size : nat)
  : res (list A) :=
  let num_of_states := (2 ^ n_spins)%nat in
  let batch_size := if (num_of_states <? batch_size)%nat then num_of_states else batch_size in
  if (batch_size =? 0)%nat then Err ValueError
  else tabulate_loop model n_spins batch_size (range_steps num_of_states batch_size) 0
         (repeat zero num_of_states).

(** Indexing [vector[idx]] of a numpy vector by an integer: negative indices count from the end. *)
Definition np_index {A} (l : list A) (idx : Z) : res A :=
  let k := if idx <? 0 then idx + Z.of_nat (length l) else idx in
  if k <? 0 then Err IndexError
  else match nth_error l (Z.to_nat k) with Some v => Ok v | None => Err IndexError end.

(** exact/utils.py:95-99 [vector_to_machine]: value for one configuration (the code handles a whole batch
    row by row; the trailing axis of length one is dropped). *)
Definition vector_to_machine {A} (vector : list A) (spins : list Z) : res A :=
  match binary_array_to_decimal_array (length spins) [spins] None with
  | [idx] => np_index vector idx
  | _ => Err ShapeError
  end.
