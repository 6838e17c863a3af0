(** The layer graphs of the built-in machines, as the fast sampler sees them: what Keras records when
    machines/simple_conv_net_autoregressive_1D.py, complex_values_simple_conv_net_autoregressive_1D.py, conv_net_autoregressive_2D.py,
    simple_custom_autoregressive_ordering.py and abstract_machine.py:50-57 call their layers one after the other, with the topology of
    every layer (deepar/graph_analysis/*_topology.py).
    MachinesModel.v describes the same networks as functions; here they are lists of layers in the order of creation. *)
From Coq Require Import List ZArith Arith Bool Reals.
From Verif Require Import Base Cplx OrderingModel TensorModel TopologyModel AutoregressiveModel MachinesModel GraphModel.
Import ListNotations.

(** The value of a layer at one location (for one example): a vector of integers, real or complex numbers. *)
Inductive value := VInts (v : list Z) | VReals (v : list R) | VComplex (v : list C).
Inductive dtype := TInt | TReal | TComplex.

(** A number type of layers: its arithmetic and its vectors among the values. *)
Record number_type (T : Type) := { arithmetic : numbers T; wrap : list T -> value; unwrap : value -> list T; tag : dtype }.
Arguments arithmetic {T}. Arguments wrap {T}. Arguments unwrap {T}. Arguments tag {T}.
Definition unreal (v : value) : list R := match v with VReals l => l | _ => [] end.
Definition uncomplex (v : value) : list C := match v with VComplex l => l | _ => [] end.
Definition unint (v : value) : list Z := match v with VInts l => l | _ => [] end.
Definition real_type : number_type R := {| arithmetic := real_numbers; wrap := VReals; unwrap := unreal; tag := TReal |}.
Definition complex_type : number_type C := {| arithmetic := complex_numbers; wrap := VComplex; unwrap := uncomplex; tag := TComplex |}.

(** A layer with the number of features and the type of its output. *)
Record klayer := { body : layer value; lfeatures : nat; ldtype : dtype }.

(** layer_topology.py:26-34 [get_zeros]: zeros of the type and number of features of the layer. *)
Definition zeros_of (d : dtype) (f : nat) : value :=
  match d with TInt => VInts (repeat 0%Z f) | TReal => VReals (repeat 0%R f) | TComplex => VComplex (repeat C0 f) end.

(** The layers created so far; a Keras tensor is the number of the layer whose output it is. *)
Definition graph := list klayer.
Definition info (S : graph) (x : nat) : res klayer := match nth_error S x with Some L => Ok L | None => Err IndexError end.
Definition call_layer (S : graph) (L : klayer) : res (graph * nat) := Ok (S ++ [L], length S).

Definition no_tensor : tensor value := {| tshape := []; tval := fun _ => VInts [] |}.
Definition run1 (f : tensor value -> tensor value) (ts : list (tensor value)) : tensor value := match ts with t :: _ => f t | [] => no_tensor end.
Definition run2 (f : tensor value -> tensor value -> tensor value) (ts : list (tensor value)) : tensor value :=
  match ts with t :: u :: _ => f t u | _ => no_tensor end.
Definition on_values {V W} (f : V -> W) (t : tensor V) : tensor W := {| tshape := tshape t; tval := fun l => f (tval t l) |}.

(** Input(shape=shape, dtype='int8'): the network input; its topology is replaced by sampling. *)
Definition input_klayer (shape : list nat) : klayer :=
  {| body := {| inbound := []; out_shape := shape; get_spatial_dependency := fun _ => Ok []; apply_single := fun _ vs => first_value vs;
                run := run1 (fun t => t) |};
     lfeatures := 1; ldtype := TInt |}.

(** one_to_one_topology.py:46-53,83: ExpandInputDim. *)
Definition expand_input_dim (S : graph) (x : nat) : res (graph * nat) :=
  do L <- info S x;
  let shape := out_shape (body L) in
  call_layer S {| body := {| inbound := [x]; out_shape := shape;
                             get_spatial_dependency := one_to_one_dependencies [stored_input_size true shape];
                             apply_single := fun _ vs => first_value vs; run := run1 (fun t => t) |};
                  lfeatures := 1; ldtype := ldtype L |}.

(** one_to_one_topology.py:31-35 with one input: the layer is called on the value at the same location. *)
Definition one_to_one (S : graph) (x : nat) (f : value -> value) (features : nat) (d : dtype) : res (graph * nat) :=
  do L <- info S x;
  let shape := out_shape (body L) in
  call_layer S {| body := {| inbound := [x]; out_shape := shape;
                             get_spatial_dependency := one_to_one_dependencies [stored_input_size false (shape ++ [lfeatures L])];
                             apply_single := fun _ vs => do v <- first_value vs; Ok (f v); run := run1 (on_values f) |};
                  lfeatures := features; ldtype := d |}.

(** CastingLayer (ToFloat32, ToComplex64, ToComplex128) on integers. *)
Definition cast {T} (N : number_type T) (of_Z : Z -> T) (S : graph) (x : nat) : res (graph * nat) :=
  do L <- info S x; one_to_one S x (fun v => wrap N (map of_Z (unint v))) (lfeatures L) (tag N).
(** Activation. *)
Definition activation_layer {T} (N : number_type T) (act : list T -> list T) (S : graph) (x : nat) : res (graph * nat) :=
  do L <- info S x; one_to_one S x (fun v => wrap N (act (unwrap N v))) (lfeatures L) (tag N).
(** VectorToComplexNumber on the last axis; casting.py:18. *)
Definition to_complex_layer (S : graph) (x : nat) : res (graph * nat) :=
  do L <- info S x;
  if lfeatures L mod 2 =? 0 then one_to_one S x (fun v => VComplex (vector_to_complex (unreal v))) (lfeatures L / 2) TComplex else Err AssertionError.
(** NormalizeInLogSpace(norm_type=2) and LambdaWithOneToOneTopology(lambda x: real(x) * 2.0): abstract_machine.py:54-57. *)
Definition normalize_layer (S : graph) (x : nat) : res (graph * nat) :=
  do L <- info S x; one_to_one S x (fun v => VComplex (normalize_complex 2 (uncomplex v))) (lfeatures L) TComplex.
Definition log_probs_layer (S : graph) (x : nat) : res (graph * nat) :=
  do L <- info S x; one_to_one S x (fun v => VReals (map (fun z => (Re z * 2)%R) (uncomplex v))) (lfeatures L) TReal.

(** Add()([x, y]): one_to_one_topology.py with two inputs. Inputs of different shapes are an error as in MachinesModel.v. *)
Definition add_klayer {T} (N : number_type T) (S : graph) (x y : nat) : res (graph * nat) :=
  do L <- info S x; do J <- info S y;
  let shape := out_shape (body L) in
  let add v w := wrap N (map2 (plus (arithmetic N)) (unwrap N v) (unwrap N w)) in
  if (same_shape shape (out_shape (body J)) && (lfeatures L =? lfeatures J))%bool then
    call_layer S {| body := {| inbound := [x; y]; out_shape := shape;
                               get_spatial_dependency := one_to_one_dependencies
                                 [stored_input_size false (shape ++ [lfeatures L]); stored_input_size false (out_shape (body J) ++ [lfeatures J])];
                               apply_single := fun _ vs => match vs with [v; w] => Ok (add v w) | _ => Err ValueError end;
                               run := run2 (fun t u => {| tshape := tshape t; tval := fun l => add (tval t l) (tval u l) |}) |};
                    lfeatures := lfeatures L; ldtype := tag N |}
  else Err ValueError.

(** Concatenate(axis=-1)([x, y]): concatenate_topology.py; only used on real features. *)
Definition concatenate_klayer (S : graph) (x y : nat) : res (graph * nat) :=
  do L <- info S x; do J <- info S y;
  let shape := out_shape (body L) in
  if same_shape shape (out_shape (body J)) then
    call_layer S {| body := {| inbound := [x; y]; out_shape := shape;
                               get_spatial_dependency := concat_dependencies (-1) [shape; out_shape (body J)] [lfeatures L; lfeatures J];
                               apply_single := fun _ vs => do v <- concat_apply (-1) (2 + length shape) (map unreal vs); Ok (VReals v);
                               run := run2 (fun t u => {| tshape := tshape t; tval := fun l => VReals (unreal (tval t l) ++ unreal (tval u l)) |}) |};
                    lfeatures := lfeatures L + lfeatures J; ldtype := TReal |}
  else Err ValueError.

(** ZeroPadding1D / ZeroPadding2D: padding_topology.py. *)
Definition padding_layer (p : zero_pad_arg) (S : graph) (x : nat) : res (graph * nat) :=
  do L <- info S x;
  let shape := out_shape (body L) in
  let zero := zeros_of (ldtype L) (lfeatures L) in
  call_layer S {| body := {| inbound := [x]; out_shape := map2 (fun q n => fst q + n + snd q) (zero_pad_tuples p) shape;
                             get_spatial_dependency := fun l => Ok (padding_dependencies p shape l);
                             apply_single := fun _ vs => padding_apply zero vs; run := run1 (zero_padding zero (zero_pad_tuples p)) |};
                  lfeatures := lfeatures L; ldtype := ldtype L |}.

(** DownShiftLayer (d = 0), RightShiftLayer (d = 1): masking_topology.py. *)
Definition shift_klayer (d : nat) (S : graph) (x : nat) : res (graph * nat) :=
  do L <- info S x;
  let zero := zeros_of (ldtype L) (lfeatures L) in
  call_layer S {| body := {| inbound := [x]; out_shape := out_shape (body L); get_spatial_dependency := shift_dependencies d;
                             apply_single := shift_apply zero d; run := run1 (shift zero d) |};
                  lfeatures := lfeatures L; ldtype := ldtype L |}.

(** Conv1D / Conv2D / ComplexConv1D, possibly inside WeightNormalization (topology_manager.py:19-20 looks through wrappers):
    convolutional_topology.py. *)
Definition conv_klayer {T} (N : number_type T) (w : weights T) (f : nat) (ksize dilation : list nat) (S : graph) (x : nat) : res (graph * nat) :=
  do L <- info S x;
  let A := arithmetic N in
  let c := conv_of w ksize dilation (lfeatures L) f in
  let shape := conv_shape (out_shape (body L)) (kernel_size c) (strides c) (dilation_rate c) in
  if existsb (Nat.eqb 0) shape then Err ValueError else
  call_layer S {| body := {| inbound := [x]; out_shape := shape; get_spatial_dependency := fun l => Ok (conv_dependencies c l);
                             apply_single := fun _ vs => Ok (wrap N (conv_apply (zero A) (plus A) (times A) c (map (unwrap N) vs)));
                             run := run1 (fun t => on_values (wrap N) (conv_output (zero A) (plus A) (times A) c (on_values (unwrap N) t))) |};
                  lfeatures := f; ldtype := tag N |}.

(** abstract_machine.py:52-53 EqualUpDownSpins()([x, keras_input_layer]): a subclass of Lambda for which no topology is registered
    (topology_manager.py:21-26 looks up the exact class). What it computes is irrelevant here; [run] keeps its first input. *)
Definition equal_up_down_spins_layer (S : graph) (x input : nat) : res (graph * nat) :=
  do L <- info S x;
  call_layer S {| body := {| inbound := [x; input]; out_shape := out_shape (body L); get_spatial_dependency := fun _ => Err UnsupportedLayer;
                             apply_single := fun _ _ => Err UnsupportedLayer; run := run1 (fun t => t) |};
                  lfeatures := lfeatures L; ldtype := ldtype L |}.

(** Reshape in a graph: reshape_topology.py (TypeError because of the keyword, see TopologyModel.v). *)
Definition reshape_klayer (target : list nat) (S : graph) (x : nat) : res (graph * nat) :=
  do L <- info S x;
  let shape := out_shape (body L) in
  if fold_right Nat.mul 1 shape =? fold_right Nat.mul 1 target then
    call_layer S {| body := {| inbound := [x]; out_shape := target;
                               get_spatial_dependency := reshape_dependencies_in_graph (shape ++ [lfeatures L]) (map Z.of_nat (target ++ [lfeatures L]));
                               apply_single := fun _ vs => first_value vs; run := run1 (reshape target) |};
                    lfeatures := lfeatures L; ldtype := ldtype L |}
  else Err ValueError.
(** GatherLayer(indices, axis=1): gathering_topology.py. *)
Definition gather_klayer (indices : list nat) (S : graph) (x : nat) : res (graph * nat) :=
  do L <- info S x;
  let shape := out_shape (body L) in
  call_layer S {| body := {| inbound := [x]; out_shape := upd shape 0 (length indices);
                             get_spatial_dependency := gather_dependencies 1 indices (2 + length shape);
                             apply_single := fun _ vs => first_value vs;
                             run := run1 (fun t => match gather_axis 0 indices t with Ok out => out | Err _ => no_tensor end) |};
                  lfeatures := lfeatures L; ldtype := ldtype L |}.

(** * One dimension *)

(** simple_conv_net_autoregressive_1D.py:8-20, complex_values_simple_conv_net_autoregressive_1D.py:11-18 [causal_conv_1d]. *)
Definition causal_conv_1d_graph {T} (N : number_type T) (w : weights T) (S : graph) (x f ksize dilation : nat)
    (act : option (list T -> list T)) (skip : option nat) : res (graph * nat) :=
  let padding := ksize + (ksize - 1) * (dilation - 1) - 1 in
  do Sx <- (if 0 <? padding then padding_layer (Pad1D (padding, 0)) S x else Ok (S, x));
  do Sx <- conv_klayer N w f [ksize] [dilation] (fst Sx) (snd Sx);
  do Sx <- match skip with None => Ok Sx | Some s => add_klayer N (fst Sx) (snd Sx) s end;
  match act with None => Ok Sx | Some a => activation_layer N a (fst Sx) (snd Sx) end.

(** simple_conv_net_autoregressive_1D.py:51-60, complex_values_simple_conv_net_autoregressive_1D.py:51-57: the loop. *)
Fixpoint conv_stack_graph {T} (N : number_type T) (p : params_1d) (W : nat -> weights T) (act : option (list T -> list T))
    (skips : bool) (n i dilation : nat) (S : graph) (x : nat) : res (graph * nat) :=
  match n with
  | 0 => Ok (S, x)
  | Datatypes.S n' =>
      let skip := if (skips && (0 <? i))%bool then Some x else None in
      do Sx <- causal_conv_1d_graph N (W i) S x (num_of_channels p) (ksize p) dilation act skip;
      conv_stack_graph N p W act skips n' (Datatypes.S i) (next_dilation p dilation) (fst Sx) (snd Sx)
  end.

(** simple_conv_net_autoregressive_1D.py:49-64, after ToFloat32. *)
Definition conv_net_1d_graph (p : params_1d) (W : nat -> weights R) (act : option (list R -> list R)) (S : graph) (x : nat) : res (graph * nat) :=
  do Sx <- conv_stack_graph real_type p W act (add_skip_connections p) (depth p - 2) 0 1 S x;
  do Sx <- shift_klayer 0 (fst Sx) (snd Sx);
  do Sx <- causal_conv_1d_graph real_type (W (depth p - 2)) (fst Sx) (snd Sx) 4 1 1 None None;
  to_complex_layer (fst Sx) (snd Sx).
Definition simple_conv_net_1d_graph (p : params_1d) (W : nat -> weights R) (act : option (list R -> list R)) (S : graph) (x : nat) :
    res (graph * nat) :=
  do Sx <- expand_input_dim S x;
  do Sx <- cast real_type IZR (fst Sx) (snd Sx);
  conv_net_1d_graph p W act (fst Sx) (snd Sx).

(** complex_values_simple_conv_net_autoregressive_1D.py:43-59. *)
Definition complex_conv_net_1d_graph (p : params_1d) (W : nat -> weights C) (act : option (list C -> list C)) (S : graph) (x : nat) :
    res (graph * nat) :=
  do Sx <- expand_input_dim S x;
  do Sx <- cast complex_type (fun z => RtoC (IZR z)) (fst Sx) (snd Sx);
  do Sx <- conv_stack_graph complex_type p W act false (depth p - 1) 0 1 (fst Sx) (snd Sx);
  do Sx <- shift_klayer 0 (fst Sx) (snd Sx);
  causal_conv_1d_graph complex_type (W (depth p - 1)) (fst Sx) (snd Sx) 2 1 1 None None.

(** simple_custom_autoregressive_ordering.py:15-34. *)
Definition custom_ordering_graph (ordering : list loc) (p : params_1d) (W : nat -> weights R) (act : option (list R -> list R))
    (S : graph) (x : nat) : res (graph * nat) :=
  do L <- info S x;
  let input_shape := out_shape (body L) in
  do Sx <- expand_input_dim S x;
  do Sx <- reshape_klayer [fold_right Nat.mul 1 input_shape] (fst Sx) (snd Sx);
  do Sx <- gather_klayer (to_flat_ordering ordering input_shape) (fst Sx) (snd Sx);
  do Sx <- cast real_type IZR (fst Sx) (snd Sx);
  do Sx <- conv_net_1d_graph p W act (fst Sx) (snd Sx);
  do inverse <- to_flat_inverse_ordering (OList ordering) input_shape;
  do Sx <- gather_klayer inverse (fst Sx) (snd Sx);
  reshape_klayer input_shape (fst Sx) (snd Sx).

(** * Two dimensions *)

(** conv_net_autoregressive_2D.py:33-51 [_causal_conv_2d]; the result is the graph and the two tensors. *)
Definition causal_conv_2d_graph (p : params_2d) (W : nat -> weights R) (act : list R -> list R) (use_horizontal_mask : bool)
    (S : graph) (vertical_x horizontal_x : nat) : res (graph * (nat * nat)) :=
  let N := real_type in
  let f := channels2 p in
  let k := ksize2 p in
  let padding := k - 1 in
  let pad sizes S x := if 0 <? padding then padding_layer (PadND sizes) S x else Ok (S, x) in
  do Sv <- pad [(padding, 0); (padding / 2, padding / 2)] S vertical_x;
  do Sh <- pad [(0, 0); (padding, 0)] (fst Sv) horizontal_x;
  do Svertical <- conv_klayer N (W 0) f [k; k] [1; 1] (fst Sh) (snd Sv);
  do Sx <- conv_klayer N (W 1) f [1; k] [1; 1] (fst Svertical) (snd Sh);
  do Sx <- activation_layer N act (fst Sx) (snd Sx);
  do Sx <- (if use_horizontal_mask then shift_klayer 1 (fst Sx) (snd Sx) else Ok Sx);
  do Sx <- conv_klayer N (W 2) (f / 2) [1; 1] [1; 1] (fst Sx) (snd Sx);
  do Sy <- activation_layer N act (fst Sx) (snd Svertical);
  do Sy <- shift_klayer 0 (fst Sy) (snd Sy);
  do Sy <- conv_klayer N (W 3) (f / 2) [1; 1] [1; 1] (fst Sy) (snd Sy);
  do Sx <- activation_layer N act (fst Sy) (snd Sx);
  do Sy <- activation_layer N act (fst Sx) (snd Sy);
  do Sx <- concatenate_klayer (fst Sy) (snd Sx) (snd Sy);
  do Sx <- pad [(padding, 0); (padding, 0)] (fst Sx) (snd Sx);
  do Shorizontal <- conv_klayer N (W 4) f [k; k] [1; 1] (fst Sx) (snd Sx);
  Ok (fst Shorizontal, (snd Svertical, snd Shorizontal)).

(** The pair of activations after a call of [_causal_conv_2d]. *)
Definition activations_2d (act : list R -> list R) (S : graph) (vertical_x horizontal_x : nat) : res (graph * (nat * nat)) :=
  do Sv <- activation_layer real_type act S vertical_x;
  do Sh <- activation_layer real_type act (fst Sv) horizontal_x;
  Ok (fst Sh, (snd Sv, snd Sh)).

(** conv_net_autoregressive_2D.py:53-62 [_resiual_block] with num_of_layers = 2. *)
Definition residual_block_graph (p : params_2d) (W : nat -> nat -> weights R) (act : list R -> list R)
    (S : graph) (vertical_x horizontal_x : nat) : res (graph * (nat * nat)) :=
  do R1 <- causal_conv_2d_graph p (W 0) act false S vertical_x horizontal_x;
  do R2 <- activations_2d act (fst R1) (fst (snd R1)) (snd (snd R1));
  do R3 <- causal_conv_2d_graph p (W 1) act false (fst R2) (fst (snd R2)) (snd (snd R2));
  do Sv <- add_klayer real_type (fst R3) vertical_x (fst (snd R3));
  do Sh <- add_klayer real_type (fst Sv) horizontal_x (snd (snd R3));
  activations_2d act (fst Sh) (snd Sv) (snd Sh).

(** conv_net_autoregressive_2D.py:70-71. *)
Fixpoint residual_blocks_graph (p : params_2d) (W : nat -> nat -> weights R) (act : list R -> list R) (n i : nat)
    (S : graph) (vertical_x horizontal_x : nat) : res (graph * (nat * nat)) :=
  match n with
  | 0 => Ok (S, (vertical_x, horizontal_x))
  | Datatypes.S n' =>
      do G <- residual_block_graph p (fun j => W (2 * i + j + 1)) act S vertical_x horizontal_x;
      residual_blocks_graph p W act n' (Datatypes.S i) (fst G) (fst (snd G)) (snd (snd G))
  end.

(** conv_net_autoregressive_2D.py:64-74 [_build_unnormalized_conditional_log_wave_function]. *)
Definition conv_net_2d_graph (p : params_2d) (W : nat -> nat -> weights R) (w_last : weights R) (act : list R -> list R)
    (S : graph) (x : nat) : res (graph * nat) :=
  do Sx <- expand_input_dim S x;
  do Sx <- cast real_type IZR (fst Sx) (snd Sx);
  do G <- causal_conv_2d_graph p (W 0) act false (fst Sx) (snd Sx) (snd Sx);
  do G <- activations_2d act (fst G) (fst (snd G)) (snd (snd G));
  do G <- residual_blocks_graph p W act (depth2 p - 2) 0 (fst G) (fst (snd G)) (snd (snd G));
  do G <- causal_conv_2d_graph p (W (2 * (depth2 p - 2) + 1)) act true (fst G) (fst (snd G)) (snd (snd G));
  do Sx <- activation_layer real_type act (fst G) (snd (snd G));
  do Sx <- conv_klayer real_type w_last 4 [1; 1] [1; 1] (fst Sx) (snd Sx);
  to_complex_layer (fst Sx) (snd Sx).

(** * The model handed to the sampler *)

(** abstract_machine.py:50-57: the layers up to machine.conditional_log_probs, on a network input of the given shape. *)
Definition conditional_log_probs_graph (machine : graph -> nat -> res (graph * nat)) (equal_up_down_spins : bool) (shape : list nat) :
    res (graph * nat) :=
  do Sx <- machine [input_klayer shape] 0;
  do Sx <- (if equal_up_down_spins then equal_up_down_spins_layer (fst Sx) (snd Sx) 0 else Ok Sx);
  do Sx <- normalize_layer (fst Sx) (snd Sx);
  log_probs_layer (fst Sx) (snd Sx).

(** Model(inputs=inputs, outputs=machine.conditional_log_probs). *)
Definition keras_model (Sx : graph * nat) : kmodel value := {| klayers := map body (fst Sx); output := snd Sx |}.

(** The zeros of the activation arrays (fast_autoregressive.py:38, layer_topology.py:26-34). *)
Definition graph_zeros (S : graph) (k : nat) : value :=
  match nth_error S k with Some L => zeros_of (ldtype L) (lfeatures L) | None => VInts [] end.

(** FastAutoregressiveSampler(Model(...)): one sample; [u] are the uniform random numbers of the sites. The network input is an integer
    per site, log probabilities are read from the values of the output layer. *)
Definition site_value (z : Z) : value := VInts [z].
Definition category_0 (v : value) : R := nth 0 (unreal v) 0%R.
