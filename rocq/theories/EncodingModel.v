(** Model of layers/complex/casting.py [VectorToComplexNumber], deepar/layers/one_hot.py and
    deepar/layers/autoregressive.py [combine_autoregressive_conditionals] on whole tensors: axis 0 is the batch. Floating
    point numbers are real numbers. *)
From Coq Require Import List ZArith Arith Bool Reals.
From Verif Require Import Base Cplx OrderingModel OrderingSpec TensorModel AutoregressiveModel.
Import ListNotations.
Local Open Scope nat_scope.

(** K.int_shape: the static shape; None where the size is known only at run time. *)
Definition static_shape := list (option nat).

(** tensorflow.reshape(x, [-1] + sizes): the first size is inferred from the number of entries; with a zero among the
    other sizes, or if the division leaves a remainder, it is an error. *)
Definition reshape_infer {V} (sizes : list nat) (x : tensor V) : res (tensor V) :=
  let others := volume sizes in
  if others =? 0 then Err ValueError else
  if negb (volume (tshape x) mod others =? 0) then Err ValueError else
  Ok (reshape (volume (tshape x) / others :: sizes) x).

(** [real, imag = tensorflow.unstack(x, axis)]: ValueError unless there are exactly two slices. *)
Definition unstack_pair {V} (x : tensor V) (axis : nat) : res (tensor V * tensor V) :=
  match unstack x axis with [a; b] => Ok (a, b) | _ => Err ValueError end.

(** tensorflow.complex. *)
Definition tf_complex (re im : tensor R) : tensor C :=
  {| tshape := tshape re; tval := fun l => (tval re l, tval im l) |}.

(** A list of sizes that goes into reshape: None cannot be converted to a tensor. *)
Fixpoint all_known (l : static_shape) : res (list nat) :=
  match l with
  | [] => Ok []
  | None :: _ => Err TypeError
  | Some n :: t => do r <- all_known t; Ok (n :: r)
  end.

(** casting.py:16-24 VectorToComplexNumber.call. [self_axis] is the constructor argument, a python index; [static] the
    static shape of [x]. An index a of python stands for a + len; the slices of line 20 use the same index. Line 23
    unstacks a tensor with one more axis, there a negative index counts from the new end. *)
Definition vector_to_complex_number (self_axis : Z) (static : static_shape) (x : tensor R) : res (tensor C) :=
  let rank := length static in
  let axis := if (self_axis =? -1)%Z then (Z.of_nat rank - 1)%Z else self_axis in
  let a := if (axis <? 0)%Z then (axis + Z.of_nat rank)%Z else axis in
  if ((a <? 0) || (Z.of_nat rank <=? a))%Z then Err IndexError else
  let p := Z.to_nat a in
  match nth p static None with
  | None => Err TypeError                              (* None % 2 *)
  | Some n =>
      if negb (n mod 2 =? 0) then Err AssertionError else
      let new_shape := firstn p static ++ [Some 2; Some (n / 2)] ++ skipn (S p) static in
      do sizes <- all_known (tl new_shape);            (* new_shape[0] = -1 *)
      do y <- reshape_infer sizes x;
      do pair <- unstack_pair y (if (axis <? 0)%Z then S p else p);
      Ok (tf_complex (fst pair) (snd pair))
  end.

(** one_hot.py:7-14 on a tensor: a new last axis of size [depth]. The cast to int32 is the identity on integers; [//] is
    floor division; an index outside 0 .. depth-1 gives a row of zeros. *)
Definition one_hot_tensor (depth : nat) (index : tensor Z) : tensor R :=
  {| tshape := tshape index ++ [depth]; tval := fun l => nth (last l 0) (tf_one_hot (tval index (removelast l)) depth) 0%R |}.
Definition plus_minus_one_to_one_hot_tensor (x : tensor Z) : tensor R :=
  one_hot_tensor 2 {| tshape := tshape x; tval := fun l => ((1 - tval x l) / 2)%Z |}.
Definition to_one_hot_tensor (num_of_categories : nat) (x : tensor Z) : tensor R := one_hot_tensor num_of_categories x.

(** CastingLayer('complex64'). *)
Definition to_complex (x : tensor R) : tensor C := {| tshape := tshape x; tval := fun l => RtoC (tval x l) |}.

(** autoregressive.py:18-22 [combine_autoregressive_conditionals]: the product, the sum over all axes but the first, a
    column of shape (batch, 1). Tensors of different shapes are an error here (numpy broadcasting of sizes one is left
    out). *)
Definition combine_autoregressive_conditionals (x x_input : tensor C) : res (tensor C) :=
  if list_eq_dec Nat.eq_dec (tshape x) (tshape x_input) then
    match tshape x_input with
    | [] => Err ValueError
    | batch :: rest =>
        Ok {| tshape := [batch; 1];
              tval := fun l => match l with
                               | b :: _ => Csum (fun i => (tval x (b :: i) * tval x_input (b :: i))%C) (raster rest)
                               | [] => C0
                               end |}
    end
  else Err ShapeError.
