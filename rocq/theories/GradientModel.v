(** Model of the derivatives of the machines with respect to their weights: accumulate_gradient_optimizer.py:60, where
    orig_get_gradients(loss, params) asks TensorFlow for the gradients of the loss (optimization/loss.py) of a machine.
    TensorFlow applies the chain rule backwards through the layers; here the same rules are applied forwards, along one direction in the space of weights, which gives
    the same numbers. Every layer is run on numbers that carry their slope. *)
From Coq Require Import List ZArith Arith Bool Reals.
From Verif Require Import Base Cplx OrderingModel TensorModel AutoregressiveModel MachinesModel MachinesSpec ComplexModel WeightNormModel.
Import ListNotations.

(** A number, its slope along the direction, and whether no activation function was at a point without a derivative on the way. *)
Record dual (T : Type) := { value : T; slope : T; smooth : bool }.
Arguments value {T}. Arguments slope {T}. Arguments smooth {T}.

(** The rules of sums and products. *)
Definition constant {T} (N : numbers T) (a : T) : dual T := {| value := a; slope := zero N; smooth := true |}.
Definition dual_numbers {T} (N : numbers T) : numbers (dual T) := {|
  zero := constant N (zero N);
  plus := fun a b => {| value := plus N (value a) (value b); slope := plus N (slope a) (slope b); smooth := smooth a && smooth b |};
  times := fun a b => {| value := times N (value a) (value b);
                         slope := plus N (times N (value a) (slope b)) (times N (slope a) (value b)); smooth := smooth a && smooth b |} |}.

(** Activation('relu') of Keras and its gradient in TensorFlow: the slope passes where the input is positive, and is zero where it is not. At an input of zero there
    is a derivative only if the slope is zero. *)
Definition relu_row (v : list R) : list R := map (Rmax 0) v.
Definition relu_dual (a : dual R) : dual R := {|
  value := Rmax 0 (value a);
  slope := if Rlt_dec 0 (value a) then slope a else 0%R;
  smooth := smooth a && (if Req_EM_T (value a) 0 then (if Req_EM_T (slope a) 0 then true else false) else true) |}.
Definition relu_dual_row (v : list (dual R)) : list (dual R) := map relu_dual v.

(** tensorflow_ops.py:51-54 [crelu] and its gradient: both parts. *)
Definition crelu_row (v : list C) : list C := map crelu v.
Definition crelu_dual (a : dual C) : dual C :=
  let re := relu_dual {| value := Re (value a); slope := Re (slope a); smooth := smooth a |} in
  let im := relu_dual {| value := Im (value a); slope := Im (slope a); smooth := smooth a |} in
  {| value := (value re, value im); slope := (slope re, slope im); smooth := smooth re && smooth im |}.
Definition crelu_dual_row (v : list (dual C)) : list (dual C) := map crelu_dual v.

(** tensorflow_ops.py:79-85 [lncosh]: its slope is tanh, as the two occurrences of |Re z| cancel. There is no derivative where the logarithm jumps, which is where
    exp z + exp (- z) is a negative number or zero. *)
Definition twice_cosh (z : C) : C := (Cexp z + Cexp (- z))%C.
Definition complex_tanh (z : C) : C := ((Cexp z - Cexp (- z)) / twice_cosh z)%C.
Definition lncosh_row (v : list C) : list C := map lncosh v.
Definition lncosh_dual (a : dual C) : dual C := {|
  value := lncosh (value a);
  slope := (slope a * complex_tanh (value a))%C;
  smooth := smooth a && (if Rlt_dec 0 (Re (twice_cosh (value a))) then true else if Req_EM_T (Im (twice_cosh (value a))) 0 then false else true) |}.
Definition lncosh_dual_row (v : list (dual C)) : list (dual C) := map lncosh_dual v.

(** simple_conv_net_autoregressive_1D.py:49-63 after the cast and complex_values_simple_conv_net_autoregressive_1D.py:46-59, with any kind of numbers: MachinesModel.v up to the
    last convolution. [filters] is 4 for the real machine and 2 for the complex one, [convs] is depth - 2 or depth - 1. *)
Definition conv_net_1d_features {T} (N : numbers T) (p : params_1d) (W : nat -> weights T) (act : option (list T -> list T)) (skips : bool) (convs filters : nat)
    (x : ktensor T) : res (ktensor T) :=
  do x <- conv_stack N p W act skips convs 0 1 x;
  causal_conv_1d N (W convs) (shift_layer N 0 x) filters 1 1 None None.

(** conv_net_autoregressive_2D.py:33-73 likewise. *)
Definition causal_conv_2d_over {T} (N : numbers T) (p : params_2d) (W : nat -> weights T) (act : list T -> list T) (use_horizontal_mask : bool)
    (vertical_x horizontal_x : ktensor T) : res (ktensor T * ktensor T) :=
  let f := channels2 p in
  let k := ksize2 p in
  let padding := k - 1 in
  let pad sizes x := if 0 <? padding then zero_pad N sizes x else x in
  let vertical_x := pad [(padding, 0); (padding / 2, padding / 2)] vertical_x in
  let horizontal_x := pad [(0, 0); (padding, 0)] horizontal_x in
  do vertical_x <- conv_layer N (W 0) f [k; k] [1; 1] vertical_x;
  do x <- conv_layer N (W 1) f [1; k] [1; 1] horizontal_x;
  let x := activate act x in
  let x := if use_horizontal_mask then shift_layer N 1 x else x in
  do x <- conv_layer N (W 2) (f / 2) [1; 1] [1; 1] x;
  let y := shift_layer N 0 (activate act vertical_x) in
  do y <- conv_layer N (W 3) (f / 2) [1; 1] [1; 1] y;
  do x <- concatenate_features (activate act x) (activate act y);
  let x := pad [(padding, 0); (padding, 0)] x in
  do horizontal_x <- conv_layer N (W 4) f [k; k] [1; 1] x;
  Ok (vertical_x, horizontal_x).
Definition residual_block_over {T} (N : numbers T) (p : params_2d) (W : nat -> nat -> weights T) (act : list T -> list T)
    (vertical_x horizontal_x : ktensor T) : res (ktensor T * ktensor T) :=
  do vh <- causal_conv_2d_over N p (W 0) act false vertical_x horizontal_x;
  do vh <- causal_conv_2d_over N p (W 1) act false (activate act (fst vh)) (activate act (snd vh));
  do v <- add_layer N vertical_x (fst vh);
  do h <- add_layer N horizontal_x (snd vh);
  Ok (activate act v, activate act h).
Fixpoint residual_blocks_over {T} (N : numbers T) (p : params_2d) (W : nat -> nat -> weights T) (act : list T -> list T) (n i : nat)
    (vertical_x horizontal_x : ktensor T) : res (ktensor T * ktensor T) :=
  match n with
  | 0 => Ok (vertical_x, horizontal_x)
  | S n' =>
      do vh <- residual_block_over N p (fun j => W (2 * i + j + 1)) act vertical_x horizontal_x;
      residual_blocks_over N p W act n' (S i) (fst vh) (snd vh)
  end.
Definition conv_net_2d_features {T} (N : numbers T) (p : params_2d) (W : nat -> nat -> weights T) (w_last : weights T) (act : list T -> list T) (x : ktensor T) :
    res (ktensor T) :=
  do vh <- causal_conv_2d_over N p (W 0) act false x x;
  do vh <- residual_blocks_over N p W act (depth2 p - 2) 0 (activate act (fst vh)) (activate act (snd vh));
  do vh <- causal_conv_2d_over N p (W (2 * (depth2 p - 2) + 1)) act true (fst vh) (snd vh);
  conv_layer N w_last 4 [1; 1] [1; 1] (activate act (snd vh)).

(** The weights of a layer together with their slopes. *)
Definition weights_with_slope {T} (w v : weights T) : weights (dual T) := {|
  kernel_at := fun j => {| value := kernel_at w j; slope := kernel_at v j; smooth := true |};
  bias_at := fun j => {| value := bias_at w j; slope := bias_at v j; smooth := true |} |}.

(** The input does not depend on the weights. *)
Definition constant_input {T} (N : numbers T) (of_Z : Z -> T) (shape : list nat) (s : list Z) : ktensor (dual T) :=
  expand_and_cast (fun z => constant N (of_Z z)) (input_array shape s).

(** autoregressive.py:7-12 and abstract_machine.py:49-54: the slope of the normalised conditionals of one site, from the row and its slopes. *)
Definition normalize_slope (z dz : list C) : list C :=
  let m := (Rsum (fun p => exp (2 * Re (fst p)) * Re (snd p)) (combine z dz) / Rsum (fun a => exp (2 * Re a)) z)%R in
  map (fun d => (d - RtoC m)%C) dz.

(** abstract_machine.py:31-38: the slope of the log wave function. *)
Definition predictions_slope (net dnet : nat -> list C) (s : list Z) : C :=
  combine_complex (map (fun i => normalize_slope (net i) (dnet i)) (range (length s))) (map plus_minus_one_to_one_hot s).

(** The slope of the log wave function of a machine, from the features that its layers give on dual numbers; [read] is VectorToComplexNumber or nothing. *)
Definition log_psi_slope {T} (read : list T -> list C) (out : res (ktensor (dual T))) (shape : list nat) (s : list Z) : C :=
  match out with
  | Ok y => let row i := tval (kt y) (location shape i) in
            predictions_slope (fun i => read (map value (row i))) (fun i => read (map slope (row i))) s
  | Err _ => C0
  end.

(** No activation function was at a point without a derivative. *)
Definition all_smooth {T} (out : res (ktensor (dual T))) (shape : list nat) (n : nat) : bool :=
  match out with
  | Ok y => forallb (fun i => forallb smooth (tval (kt y) (location shape i))) (range n)
  | Err _ => true
  end.

(** Where the weights of a layer are in the vector of all weights. Two entries may share a place; a place outside the vector holds a constant zero. *)
Record layout := { kernel_place : nat -> nat; bias_place : nat -> nat }.
Definition layer_weights (a : layout) (w : list R) : weights R :=
  {| kernel_at := fun j => nth (kernel_place a j) w 0%R; bias_at := fun j => nth (bias_place a j) w 0%R |}.
(** The weights of a complex layer are pairs of real weights (layers/complex/base_layer.py). *)
Definition complex_layer_weights (re im : layout) (w : list R) : weights C :=
  {| kernel_at := fun j => (nth (kernel_place re j) w 0%R, nth (kernel_place im j) w 0%R);
     bias_at := fun j => (nth (bias_place re j) w 0%R, nth (bias_place im j) w 0%R) |}.
(** The direction of weight number [i]. *)
Definition unit_vector (d i : nat) : list R := map (fun k => if k =? i then 1%R else 0%R) (range d).

(** The gradient of the loss of one sample (optimization/loss.py) with respect to all weights, machine by machine: accumulate_gradient_optimizer.py:60. *)
Definition sample_loss_slope (d : nat) (log_psi_slope_along : list R -> list Z -> C) (x : list Z * C) : list R :=
  map (fun i => 2 * Re (log_psi_slope_along (unit_vector d i) (fst x) * snd x)%C)%R (range d).
Definition real_1d_out (p : params_1d) (dact : option (list (dual R) -> list (dual R))) (places : nat -> layout) (n : nat) (w v : list R) (s : list Z) :=
  conv_net_1d_features (dual_numbers real_numbers) p (fun l => weights_with_slope (layer_weights (places l) w) (layer_weights (places l) v)) dact
    (add_skip_connections p) (depth p - 2) 4 (constant_input real_numbers IZR [n] s).
Definition real_1d_gradient (p : params_1d) (dact : option (list (dual R) -> list (dual R))) (places : nat -> layout) (n : nat) (w : list R) : list Z * C -> list R :=
  sample_loss_slope (length w) (fun v s => log_psi_slope vector_to_complex (real_1d_out p dact places n w v s) [n] s).
Definition complex_1d_out (p : params_1d) (dact : option (list (dual C) -> list (dual C))) (re im : nat -> layout) (n : nat) (w v : list R) (s : list Z) :=
  conv_net_1d_features (dual_numbers complex_numbers) p
    (fun l => weights_with_slope (complex_layer_weights (re l) (im l) w) (complex_layer_weights (re l) (im l) v)) dact false (depth p - 1) 2
    (constant_input complex_numbers (fun z => RtoC (IZR z)) [n] s).
Definition complex_1d_gradient (p : params_1d) (dact : option (list (dual C) -> list (dual C))) (re im : nat -> layout) (n : nat) (w : list R) : list Z * C -> list R :=
  sample_loss_slope (length w) (fun v s => log_psi_slope (fun v => v) (complex_1d_out p dact re im n w v s) [n] s).
Definition real_2d_out (p : params_2d) (places : nat -> nat -> layout) (last : layout) (h w : nat) (ws v : list R) (s : list Z) :=
  conv_net_2d_features (dual_numbers real_numbers) p (fun b j => weights_with_slope (layer_weights (places b j) ws) (layer_weights (places b j) v))
    (weights_with_slope (layer_weights last ws) (layer_weights last v)) relu_dual_row (constant_input real_numbers IZR [h; w] s).
Definition real_2d_gradient (p : params_2d) (places : nat -> nat -> layout) (last : layout) (h w : nat) (ws : list R) : list Z * C -> list R :=
  sample_loss_slope (length ws) (fun v s => log_psi_slope vector_to_complex (real_2d_out p places last h w ws v s) [h; w] s).

(** wrappers.py:123-134 [_compute_weights]: the slope of an entry of the normalised kernel, from the slopes of [v] and [g]. tensorflow.maximum passes the slope to the
    sum of squares if that is the larger one. *)
Definition l2_normalize_slope (axes : list nat) (x dx : tensor R) (l : loc) : R :=
  let square_slope := (2 * Rsum (fun l' => tval x l' * tval dx l') (filter (same_group axes l) (raster (tshape x))))%R in
  let m := Rmax (square_sum axes x l) l2_epsilon in
  let dm := if Rle_dec l2_epsilon (square_sum axes x l) then square_slope else 0%R in
  (tval dx l * / sqrt m - tval x l * dm / (2 * m * sqrt m))%R.
Definition normalized_kernel_slope (w : wrapper) (dv : tensor R) (dg : list R) (l : loc) : R :=
  let at_l (a : list R) := nth (if length (g w) =? 1 then 0 else last l 0) a 0%R in
  let size := if exponential_norm w then exp (at_l (g w)) else at_l (g w) in
  let dsize := if exponential_norm w then (exp (at_l (g w)) * at_l dg)%R else at_l dg in
  (l2_normalize_slope (kernel_norm_axes w) (v w) dv l * size + tval (v w) l * / sqrt (Rmax (square_sum (kernel_norm_axes w) (v w) l) l2_epsilon) * dsize)%R.
