(** Model of the layers that reduce an axis and are registered with OneToOneTopology (one_to_one_topology.py:63-80): LayerNormalization,
    NormalizeInLogSpace and the Softmax layer of Keras, on whole tensors (batch, spatial axes, features). Floating point numbers are real numbers. *)
From Coq Require Import List ZArith Arith Bool Reals.
From Verif Require Import Base Cplx OrderingModel TensorModel AutoregressiveModel.
Import ListNotations.
Local Open Scope nat_scope.

(** A python axis: a negative one counts from the end. *)
Definition axis_index (axis : Z) (rank : nat) : res nat :=
  let a := if (axis <? 0)%Z then (axis + Z.of_nat rank)%Z else axis in
  if ((a <? 0) || (Z.of_nat rank <=? a))%Z then Err ValueError else Ok (Z.to_nat a).

(** The entries along axis [k] through location [l]. *)
Definition fiber {V} (k : nat) (x : tensor V) (l : loc) : list V := map (fun i => tval x (upd l k i)) (range (nth k (tshape x) 0)).

(** tf.reduce_*(x, axis, keepdims=True) for a reduction [f]. *)
Definition reduce_keepdims {V} (axis : Z) (f : list V -> V) (x : tensor V) : res (tensor V) :=
  do k <- axis_index axis (length (tshape x));
  Ok {| tshape := upd (tshape x) k 1; tval := fun l => f (fiber k x l) |}.

(** An elementwise function, and an elementwise operation whose second argument has axes of size one where it differs in shape. *)
Definition elementwise {V W} (f : V -> W) (x : tensor V) : tensor W := {| tshape := tshape x; tval := fun l => f (tval x l) |}.
Definition broadcast_op {V} (f : V -> V -> V) (x y : tensor V) : tensor V :=
  {| tshape := tshape x; tval := fun l => f (tval x l) (tval y (broadcast_loc (tshape y) l)) |}.

(** tf.reduce_mean, reduce_max (of a non empty list), reduce_sum of a list; tf.math.rsqrt. *)
Definition mean (x : list R) : R := (Rsum (fun v => v) x / INR (length x))%R.
Definition reduce_max (x : list R) : R := match x with [] => 0%R | h :: t => fold_left Rmax t h end.
Definition reduce_sum (x : list R) : R := Rsum (fun v => v) x.
Definition rsqrt (v : R) : R := (/ sqrt v)%R.

(** layer_normalization.py:11-19: gamma is a vector of ones and beta of zeros, of the size of the last axis (add_weight accepts the number in place of a tuple). *)
Definition initial_gamma (shape : list nat) : list R := repeat 1%R (last shape 0).
Definition initial_beta (shape : list nat) : list R := repeat 0%R (last shape 0).

(** layer_normalization.py:22-27 [LayerNormalization.call]; axis is -1 (line 7). The vectors gamma and beta meet the last axis. *)
Definition layer_normalization (epsilon : R) (gamma beta : list R) (x : tensor R) : res (tensor R) :=
  do u <- reduce_keepdims (-1) mean x;
  do s <- reduce_keepdims (-1) mean (elementwise (fun v => v * v)%R (broadcast_op Rminus x u));
  let y := broadcast_op Rmult (broadcast_op Rminus x u) (elementwise (fun v => rsqrt (v + epsilon)) s) in
  Ok {| tshape := tshape y; tval := fun l => (tval y l * nth (last l 0%nat) gamma 0 + nth (last l 0%nat) beta 0)%R |}.

(** autoregressive.py:7,13-15 [normalize_in_log_space], real branch, on a tensor. *)
Definition normalize_in_log_space (norm_type : R) (x : tensor R) : res (tensor R) :=
  do n <- reduce_keepdims (-1) reduce_logsumexp (elementwise (fun v => v * norm_type)%R x);
  Ok (broadcast_op Rminus x (elementwise (fun v => (1 / norm_type) * v)%R n)).

(** Softmax(axis) of Keras (activations.softmax): a tensor with two axes is normalised along its last axis whatever [axis] is. *)
Definition softmax_along (axis : Z) (x : tensor R) : res (tensor R) :=
  do m <- reduce_keepdims axis reduce_max x;
  let e := elementwise exp (broadcast_op Rminus x m) in
  do s <- reduce_keepdims axis reduce_sum e;
  Ok (broadcast_op Rdiv e s).
Definition keras_softmax (axis : Z) (x : tensor R) : res (tensor R) :=
  match length (tshape x) with
  | 0 | 1 => Err ValueError
  | 2 => softmax_along (-1) x
  | _ => softmax_along axis x
  end.

(** fast_autoregressive.py:51-56 and one_to_one_topology.py:31-35: the fast sampler calls the layer on the value at one location, of shape (batch, features). *)
Definition at_location {V} (x : tensor V) (l : loc) : tensor V :=
  {| tshape := [hd 0 (tshape x); last (tshape x) 0];
     tval := fun i => match i with [b; c] => tval x (b :: l ++ [c]) | _ => tval x i end |}.
