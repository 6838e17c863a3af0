(** Model of machines/simple_conv_net_autoregressive_1D.py, machines/complex_values_simple_conv_net_autoregressive_1D.py,
    machines/conv_net_autoregressive_2D.py and machines/simple_custom_autoregressive_ordering.py: the unnormalised
    conditional log wave functions as functions of the input, for arbitrary weights and activation functions.
    The machines are assembled from the layers of TensorModel.v. *)
From Coq Require Import List ZArith Arith Bool Reals.
From Verif Require Import Base Cplx OrderingModel TensorModel.
Import ListNotations.

(** A Keras tensor: spatial part and number of features (the last axis). *)
Record ktensor (T : Type) := { kt : tensor (list T); features : nat }.
Arguments kt {T}. Arguments features {T}.

(** The number type of a network. *)
Record numbers (T : Type) := { zero : T; plus : T -> T -> T; times : T -> T -> T }.
Arguments zero {T}. Arguments plus {T}. Arguments times {T}.
Definition real_numbers : numbers R := {| zero := 0%R; plus := Rplus; times := Rmult |}.
Definition complex_numbers : numbers C := {| zero := C0; plus := Cplus; times := Cmult |}.

(** The values of the weights of one convolution: kernel (row-major index) and bias. The wrapper
    WeightNormalization computes the kernel from other variables, so arbitrary kernel values cover it. *)
Record weights (T : Type) := { kernel_at : nat -> T; bias_at : nat -> T }.
Arguments kernel_at {T}. Arguments bias_at {T}.

(** ZeroPadding1D / ZeroPadding2D. *)
Definition zero_pad {T} (N : numbers T) (padding : list (nat * nat)) (x : ktensor T) : ktensor T :=
  {| kt := zero_padding (repeat (zero N) (features x)) padding (kt x); features := features x |}.

(** Conv1D / Conv2D / ComplexConv1D, strides 1, padding 'valid', with bias, without activation. A kernel larger than
    the input makes Keras raise (negative dimension). *)
Definition conv_of {T} (w : weights T) (ksize dilation : list nat) (ch f : nat) : conv T :=
  {| kernel_size := ksize; strides := map (fun _ => 1) ksize; dilation_rate := dilation; channels := ch; filters := f;
     kernel := map (kernel_at w) (range (fold_right Nat.mul 1 (ksize ++ [ch; f])));
     bias := Some (map (bias_at w) (range f)); activation := fun v => v |}.
Definition conv_layer {T} (N : numbers T) (w : weights T) (f : nat) (ksize dilation : list nat) (x : ktensor T) :
    res (ktensor T) :=
  let out := conv_output (zero N) (plus N) (times N) (conv_of w ksize dilation (features x) f) (kt x) in
  if existsb (Nat.eqb 0) (tshape out) then Err ValueError else Ok {| kt := out; features := f |}.

(** Activation(name) or Activation(function): acts on the features of a location. *)
Definition activate {T} (act : list T -> list T) (x : ktensor T) : ktensor T :=
  {| kt := {| tshape := tshape (kt x); tval := fun l => act (tval (kt x) l) |}; features := features x |}.

(** Add()([x, y]): element-wise; inputs whose shapes differ are treated as an error (Keras would broadcast an axis of
    size 1, which does not occur in these machines). *)
Definition same_shape (a b : list nat) : bool := if list_eq_dec Nat.eq_dec a b then true else false.
Definition add_layer {T} (N : numbers T) (x y : ktensor T) : res (ktensor T) :=
  if (same_shape (tshape (kt x)) (tshape (kt y)) && (features x =? features y))%bool then
    Ok {| kt := {| tshape := tshape (kt x);
                   tval := fun l => map2 (plus N) (tval (kt x) l) (tval (kt y) l) |}; features := features x |}
  else Err ValueError.

(** Concatenate(axis=-1)([x, y]): the other axes have to be equal. *)
Definition concatenate_features {T} (x y : ktensor T) : res (ktensor T) :=
  if same_shape (tshape (kt x)) (tshape (kt y)) then
    Ok {| kt := {| tshape := tshape (kt x); tval := fun l => tval (kt x) l ++ tval (kt y) l |};
          features := features x + features y |}
  else Err ValueError.

(** DownShiftLayer (d = 0), RightShiftLayer (d = 1). *)
Definition shift_layer {T} (N : numbers T) (d : nat) (x : ktensor T) : ktensor T :=
  {| kt := shift (repeat (zero N) (features x)) d (kt x); features := features x |}.

(** ExpandInputDim followed by a cast (ToFloat32, ToComplex64, ToComplex128): one feature per location. *)
Definition expand_and_cast {T} (of_Z : Z -> T) (x : tensor Z) : ktensor T :=
  {| kt := {| tshape := tshape x; tval := fun l => [of_Z (tval x l)] |}; features := 1 |}.

(** layers/complex/casting.py:16-24 VectorToComplexNumber on the last axis, one location: reshape (2, n/2), the first
    half are real parts, the second half imaginary parts. *)
Definition vector_to_complex (v : list R) : list C :=
  map2 (fun re im => (re, im)) (firstn (length v / 2) v) (skipn (length v / 2) v).
(** The layer; casting.py:18 asserts an even number of features. *)
Definition vector_to_complex_layer (x : ktensor R) : res (tensor (list C)) :=
  if features x mod 2 =? 0 then
    Ok {| tshape := tshape (kt x); tval := fun l => vector_to_complex (tval (kt x) l) |}
  else Err AssertionError.

(** * One dimension *)

(** simple_conv_net_autoregressive_1D.py:8-20 [causal_conv_1d]; the complex version
    (complex_values_simple_conv_net_autoregressive_1D.py:11-18) is the case without skip connection. *)
Definition causal_conv_1d {T} (N : numbers T) (w : weights T) (x : ktensor T) (f ksize dilation : nat)
    (act : option (list T -> list T)) (skip : option (ktensor T)) : res (ktensor T) :=
  let padding := ksize + (ksize - 1) * (dilation - 1) - 1 in
  let x := if 0 <? padding then zero_pad N [(padding, 0)] x else x in
  do x <- conv_layer N w f [ksize] [dilation] x;
  do x <- match skip with None => Ok x | Some s => add_layer N x s end;
  Ok (match act with None => x | Some a => activate a x end).

(** Constructor arguments used by the 1D machines. *)
Record params_1d := {
  depth : nat; num_of_channels : nat; ksize : nat;
  use_dilation : bool; add_skip_connections : bool; max_dilation_rate : option nat
}.

(** simple_conv_net_autoregressive_1D.py:58-60: the dilation rate of the next layer. *)
Definition next_dilation (p : params_1d) (dilation : nat) : nat :=
  if use_dilation p then
    match max_dilation_rate p with
    | Some m => if dilation <? m then dilation * 2 else dilation
    | None => dilation
    end
  else dilation.

(** simple_conv_net_autoregressive_1D.py:51-60 the loop; [i] is the loop variable, [n] the number of iterations left. *)
Fixpoint conv_stack {T} (N : numbers T) (p : params_1d) (W : nat -> weights T) (act : option (list T -> list T))
    (skips : bool) (n i dilation : nat) (x : ktensor T) : res (ktensor T) :=
  match n with
  | 0 => Ok x
  | S n' =>
      let skip := if (skips && (0 <? i))%bool then Some x else None in
      do x <- causal_conv_1d N (W i) x (num_of_channels p) (ksize p) dilation act skip;
      conv_stack N p W act skips n' (S i) (next_dilation p dilation) x
  end.

(** simple_conv_net_autoregressive_1D.py:49-64 after the cast. [W i] are the weights of layer number i. *)
Definition conv_net_1d (p : params_1d) (W : nat -> weights R) (act : option (list R -> list R)) (x : ktensor R) :
    res (tensor (list C)) :=
  do x <- conv_stack real_numbers p W act (add_skip_connections p) (depth p - 2) 0 1 x;
  do x <- causal_conv_1d real_numbers (W (depth p - 2)) (shift_layer real_numbers 0 x) 4 1 1 None None;
  vector_to_complex_layer x.

(** SimpleConvNetAutoregressive1D with should_expand_input_dim=True. *)
Definition simple_conv_net_1d (p : params_1d) (W : nat -> weights R) (act : option (list R -> list R)) (x : tensor Z) :
    res (tensor (list C)) := conv_net_1d p W act (expand_and_cast IZR x).

(** complex_values_simple_conv_net_autoregressive_1D.py:43-59: depth - 1 complex convolutions, then a 1x1 convolution
    with two filters whose outputs are the conditionals. *)
Definition complex_conv_net_1d (p : params_1d) (W : nat -> weights C) (act : option (list C -> list C)) (x : tensor Z) :
    res (tensor (list C)) :=
  do x <- conv_stack complex_numbers p W act false (depth p - 1) 0 1 (expand_and_cast (fun z => RtoC (IZR z)) x);
  do x <- causal_conv_1d complex_numbers (W (depth p - 1)) (shift_layer complex_numbers 0 x) 2 1 1 None None;
  Ok (kt x).

(** * Custom ordering *)

(** simple_custom_autoregressive_ordering.py:15-34: ExpandInputDim, Reshape((prod, 1)), GatherLayer(flat ordering),
    the 1D net (which casts), GatherLayer(flat inverse ordering), Reshape(input_shape + (2,)). [ordering] is the list
    made at line 16. *)
Definition custom_ordering_net (ordering : list loc) (p : params_1d) (W : nat -> weights R)
    (act : option (list R -> list R)) (x : tensor Z) : res (tensor (list C)) :=
  let input_shape := tshape x in
  let flat := reshape [fold_right Nat.mul 1 input_shape] x in
  do gathered <- gather_axis 0 (to_flat_ordering ordering input_shape) flat;
  do out <- conv_net_1d p W act (expand_and_cast IZR gathered);
  do inverse <- to_flat_inverse_ordering (OList ordering) input_shape;
  do out <- gather_axis 0 inverse out;
  if fold_right Nat.mul 1 (tshape out) =? fold_right Nat.mul 1 input_shape then Ok (reshape input_shape out)
  else Err ValueError.

(** * Two dimensions *)

(** Constructor arguments of ConvNetAutoregressive2D. *)
Record params_2d := { depth2 : nat; channels2 : nat; ksize2 : nat }.

(** conv_net_autoregressive_2D.py:33-51 [_causal_conv_2d]; [W 0] .. [W 4] are the weights of its five convolutions in
    the order of creation. *)
Definition causal_conv_2d (p : params_2d) (W : nat -> weights R) (act : list R -> list R) (use_horizontal_mask : bool)
    (vertical_x horizontal_x : ktensor R) : res (ktensor R * ktensor R) :=
  let N := real_numbers in
  let f := channels2 p in
  let k := ksize2 p in
  let padding := k - 1 in
  let pad sizes x := if 0 <? padding then zero_pad N sizes x else x in
  let vertical_x := pad [(padding, 0); (padding / 2, padding / 2)] vertical_x in
  let horizontal_x := pad [(0, 0); (padding, 0)] horizontal_x in
  do vertical_x <- conv_layer N (W 0) f [k; k] [1; 1] vertical_x;
  do x <- conv_layer N (W 1) f [1; k] [1; 1] horizontal_x;
  let x := activate act x in
  let x := if use_horizontal_mask then shift_layer N 1 x else x in
  do x <- conv_layer N (W 2) (f / 2) [1; 1] [1; 1] x;
  let y := shift_layer N 0 (activate act vertical_x) in
  do y <- conv_layer N (W 3) (f / 2) [1; 1] [1; 1] y;
  do x <- concatenate_features (activate act x) (activate act y);
  let x := pad [(padding, 0); (padding, 0)] x in
  do horizontal_x <- conv_layer N (W 4) f [k; k] [1; 1] x;
  Ok (vertical_x, horizontal_x).

(** conv_net_autoregressive_2D.py:53-62 [_resiual_block] with num_of_layers = 2. [W] numbers the blocks of five. *)
Definition residual_block (p : params_2d) (W : nat -> nat -> weights R) (act : list R -> list R)
    (vertical_x horizontal_x : ktensor R) : res (ktensor R * ktensor R) :=
  do vh <- causal_conv_2d p (W 0) act false vertical_x horizontal_x;
  do vh <- causal_conv_2d p (W 1) act false (activate act (fst vh)) (activate act (snd vh));
  do v <- add_layer real_numbers vertical_x (fst vh);
  do h <- add_layer real_numbers horizontal_x (snd vh);
  Ok (activate act v, activate act h).

(** conv_net_autoregressive_2D.py:70-71, the loop over residual blocks. *)
Fixpoint residual_blocks (p : params_2d) (W : nat -> nat -> weights R) (act : list R -> list R) (n i : nat)
    (vertical_x horizontal_x : ktensor R) : res (ktensor R * ktensor R) :=
  match n with
  | 0 => Ok (vertical_x, horizontal_x)
  | S n' =>
      do vh <- residual_block p (fun j => W (2 * i + j + 1)) act vertical_x horizontal_x;
      residual_blocks p W act n' (S i) (fst vh) (snd vh)
  end.

(** conv_net_autoregressive_2D.py:64-74 [_build_unnormalized_conditional_log_wave_function]. [W b j] are the weights of
    convolution j of the b-th call of [_causal_conv_2d], [w_last] those of the last 1x1 convolution. *)
Definition conv_net_2d (p : params_2d) (W : nat -> nat -> weights R) (w_last : weights R) (act : list R -> list R)
    (x : tensor Z) : res (tensor (list C)) :=
  let x := expand_and_cast IZR x in
  do vh <- causal_conv_2d p (W 0) act false x x;
  do vh <- residual_blocks p W act (depth2 p - 2) 0 (activate act (fst vh)) (activate act (snd vh));
  do vh <- causal_conv_2d p (W (2 * (depth2 p - 2) + 1)) act true (fst vh) (snd vh);
  do x <- conv_layer real_numbers w_last 4 [1; 1] [1; 1] (activate act (snd vh));
  vector_to_complex_layer x.
