(** Model of the configurations of the layers: the get_config methods of deepar/layers and layers, the constructors which receive them back, the layers of
    the machines, and the whole model saved by callbacks/checkpoint.py when save_weights_only is False.
    Model.save of Keras calls get_config on each layer, writes the result as JSON, and load_model calls from_config, by default [cls( **config)]. *)
From Coq Require Import Ascii String List ZArith Bool Arith Reals.
From Verif Require Import Base IsingModel TensorModel.
Import ListNotations.
Local Open Scope string_scope.
Local Open Scope list_scope.
Local Open Scope nat_scope.

(** * Python values which occur in configurations. [VTensor]: any object that JSON cannot write. *)
Inductive pyval :=
| VNone | VBool (b : bool) | VInt (z : Z) | VFloat (x : R) | VStr (s : string)
| VTuple (l : list pyval) | VList (l : list pyval) | VDict (l : list (string * pyval))
| VArray (l : list Z) | VTensor.

Definition config := list (string * pyval).
Definition get (key : string) (c : config) : option pyval :=
  option_map snd (find (fun kv => String.eqb (fst kv) key) c).
Definition without (keys : list string) (c : config) : config :=
  filter (fun kv => negb (existsb (String.eqb (fst kv)) keys)) c.
Definition only (keys : list string) (c : config) : config :=
  filter (fun kv => existsb (String.eqb (fst kv)) keys) c.

(** json.dumps with the Keras default function, then json.loads: tuples and numpy arrays come back as lists; an object which JSON cannot write raises
    TypeError. *)
Fixpoint json (v : pyval) : res pyval :=
  match v with
  | VTuple l | VList l =>
      do r <- (fix go l := match l with [] => Ok [] | x :: t => do y <- json x ; do r <- go t ; Ok (y :: r) end) l ;
      Ok (VList r)
  | VDict l =>
      do r <- (fix go l := match l with [] => Ok [] | (k, x) :: t => do y <- json x ; do r <- go t ; Ok ((k, y) :: r) end) l ;
      Ok (VDict r)
  | VArray l => Ok (VList (map VInt l))
  | VTensor => Err TypeError
  | v => Ok v
  end.
Definition json_config (c : config) : res config := do v <- json (VDict c) ; match v with VDict r => Ok r | _ => Err TypeError end.

(** * Layers *)

(** The arguments of tensorflow.keras.layers.Layer that its get_config returns. A name chosen by Keras is not distinguished from a given one. *)
Record base_config := { bname : string; btrainable : bool; bdtype : option string }.
Definition auto : base_config := {| bname := ""; btrainable := true; bdtype := None |}.
Definition named (n : string) : base_config := {| bname := n; btrainable := true; bdtype := None |}.

(** A function given to a Lambda layer: a python function or lambda expression (the text of its code and the values it captured), or a functools.partial
    object. *)
Inductive pyfun := Function (code : string) (closure : list pyval) | PartialObject (code : string).

(** Subclasses of Lambda: keras Lambda itself; deepar/layers/lambda_with_one_to_one_topology.py:4; one_hot.py:17 and 22; autoregressive.py:25 and 31;
    layers/spins_invariants.py:25 and 30. *)
Inductive lambda_class :=
| PlainLambda | OneToOne | ToOneHot | PlusMinusOneToOneHot | NormalizeInLogSpace | CombineConditionals | EqualUpDown | FlipSpins.
(** Layers of layers/complex with arguments: dense.py:11 and 53; conv.py:110, 120 and 130. *)
Inductive complex_class := Dense | TranslationInvariantDense | Conv (rank : nat).
(** Classes, as named in a saved model. [Builtin]: a layer class of Keras. *)
Inductive class :=
| Casting | Gather | Padding | Rolling | Rotation | FlipLeftRight | ExpandInputDim | DownShift | RightShift | ToComplexNumber | Histograms
| LayerNorm | WeightNorm | LambdaLayer (c : lambda_class) | ComplexLayer (c : complex_class) | Builtin (name : string).

(** The attributes of a layer which its methods read. The layer wrapped by WeightNormalization is a layer of Keras, as in every machine. *)
Inductive attributes :=
| ACasting (to_type : pyval)
| AGather (indices axis : pyval)
| APadding (padding : pyval)
| ARoll (roll_for_axis axes_to_roll : pyval)
| ARot90 (num_of_rotations : pyval)
| APlain (c : class)
| AToComplex (axis : pyval)
| ALayerNorm (epsilon : pyval)
| AWeightNorm (inner : string) (inner_config : config) (normalize_per_output_channel exponential_norm : pyval)
| ALambda (c : lambda_class) (function : pyfun)
| AComplex (c : complex_class) (arguments : config)
| ABuiltin (name : string) (arguments : config).
Record layer := { base : base_config; attrs : attributes }.

Definition class_of (a : attributes) : class :=
  match a with
  | ACasting _ => Casting | AGather _ _ => Gather | APadding _ => Padding | ARoll _ _ => Rolling | ARot90 _ => Rotation
  | APlain c => c | AToComplex _ => ToComplexNumber | ALayerNorm _ => LayerNorm | AWeightNorm _ _ _ _ => WeightNorm
  | ALambda c _ => LambdaLayer c | AComplex c _ => ComplexLayer c | ABuiltin n _ => Builtin n
  end.

(** * get_config *)

Definition base_items (b : base_config) : config :=
  [("name", VStr (bname b)); ("trainable", VBool (btrainable b)); ("dtype", match bdtype b with None => VNone | Some s => VStr s end)].
(** [Layer.get_config]. Newer releases of tensorflow ([strict]) refuse a layer whose constructor has arguments and which does not override get_config. *)
Definition default_config (strict : bool) (arguments : list string) (b : base_config) : res config :=
  if strict && negb (Nat.eqb (List.length arguments) 0) then Err NotImplementedError else Ok (base_items b).

(** The named arguments of the constructors: layers/complex/dense.py:12-14 and 54, conv.py:116, 126 and 136; and the keyword arguments they pass on, conv.py:59-61. *)
Definition complex_arguments (c : complex_class) : list string :=
  match c with
  | Dense => ["units"; "activation"; "use_bias"; "kernel_initializer"; "bias_initializer"; "multiply_units_by_input_dim"]
  | TranslationInvariantDense => ["units"]
  | Conv _ => ["filters"; "kernel_size"]
  end.
Definition complex_required (c : complex_class) : list string :=
  match c with Dense | TranslationInvariantDense => ["units"] | Conv _ => ["filters"; "kernel_size"] end.
Definition complex_passed_on (c : complex_class) : list string :=
  match c with
  | Dense => []
  | TranslationInvariantDense => ["activation"; "use_bias"; "kernel_initializer"; "bias_initializer"]
  | Conv _ => ["strides"; "padding"; "dilation_rate"; "kernel_initializer"; "bias_initializer"; "activation"; "use_bias"]
  end.

(** [Lambda.get_config] of Keras: the code, the default values (none in this repository) and the captured values of a function; a partial object has no
    __name__ and no __module__. The entries output_shape, mask and arguments, which no caller gives, and the name of the module are left out. *)
Definition function_config (f : pyfun) : res pyval :=
  match f with
  | Function code closure => Ok (VTuple [VStr code; VNone; VTuple closure])
  | PartialObject _ => Err AttributeError
  end.

(** get_config of each class: casting.py:15-18, gathering.py:14-17, padding.py:38-43, transition_invariants.py:18-22, dihedral_4_invariants.py:16-19,
    layers/complex/casting.py:26-29, wrappers.py:136-140 (which extends the configuration of the Keras class Wrapper, with the wrapped layer). The others
    inherit: padding.py:7-9, masking.py:22-29, dihedral_4_invariants.py:22-24, histograms.py:7-9 have no arguments; layer_normalization.py:5-8 and the
    complex layers have. *)
Definition get_config (strict : bool) (l : layer) : res config :=
  let b := base l in
  match attrs l with
  | ACasting t => Ok (base_items b ++ [("to_type", t)])
  | AGather i a => Ok (base_items b ++ [("indices", i); ("axis", a)])
  | APadding p => Ok (base_items b ++ [("padding", p)])
  | ARoll r a => Ok (base_items b ++ [("roll_for_axis", r); ("axes_to_roll", a)])
  | ARot90 n => Ok (base_items b ++ [("num_of_rotations", n)])
  | APlain _ => default_config strict [] b
  | AToComplex a => Ok (base_items b ++ [("axis", a)])
  | ALayerNorm _ => default_config strict ["epsilon"] b
  | AWeightNorm n c p e =>
      Ok (base_items b ++ [("layer", VDict [("class_name", VStr n); ("config", VDict c)]);
                           ("normalize_per_output_channel", p); ("exponential_norm", e)])
  | ALambda _ f => do v <- function_config f ; Ok (base_items b ++ [("function", v)])
  | AComplex c _ => default_config strict (complex_arguments c) b
  | ABuiltin _ args => Ok (base_items b ++ args)
  end.

(** * Constructors called with keyword arguments *)

(** [Layer.__init__( **kwargs)]: a keyword that Keras does not know raises TypeError. *)
Definition make_base (kw : config) : res base_config :=
  if forallb (fun kv => existsb (String.eqb (fst kv)) ["name"; "trainable"; "dtype"]) kw then
    Ok {| bname := match get "name" kw with Some (VStr s) => s | _ => "" end;
          btrainable := match get "trainable" kw with Some (VBool b) => b | _ => true end;
          bdtype := match get "dtype" kw with Some (VStr s) => Some s | _ => None end |}
  else Err TypeError.
Definition required (key : string) (kw : config) : res pyval :=
  match get key kw with Some v => Ok v | None => Err TypeError end.
Definition optional (key : string) (default : pyval) (kw : config) : pyval :=
  match get key kw with Some v => v | None => default end.
Definition make (a : attributes) (rest : config) : res layer := do b <- make_base rest ; Ok {| base := b; attrs := a |}.

(** [len(x)] *)
Definition py_len (v : pyval) : res nat :=
  match v with
  | VTuple l | VList l => Ok (List.length l)
  | VArray l => Ok (List.length l)
  | VStr s => Ok (String.length s)
  | VDict l => Ok (List.length l)
  | _ => Err TypeError
  end.

(** The function given to Lambda by the constructors of the subclasses: a partial object, one_hot.py:19 and autoregressive.py:27-28; a function, one_hot.py:24,
    autoregressive.py:33, spins_invariants.py:27 and 32. *)
Definition own_function (c : lambda_class) : option pyfun :=
  match c with
  | PlainLambda | OneToOne => None
  | ToOneHot => Some (PartialObject "to_one_hot")
  | PlusMinusOneToOneHot => Some (Function "plus_minus_one_to_one_hot" [])
  | NormalizeInLogSpace => Some (PartialObject "normalize_in_log_space")
  | CombineConditionals => Some (Function "combine_autoregressive_conditionals" [])
  | EqualUpDown => Some (Function "equal_up_down_spins_function" [])
  | FlipSpins => Some (Function "lambda x: x * tensorflow.cast(-1, dtype=x.dtype)" [])
  end.
(** The arguments of those constructors besides the keyword arguments. *)
Definition own_arguments (c : lambda_class) : list string :=
  match c with ToOneHot => ["num_of_categories"] | NormalizeInLogSpace => ["norm_type"] | _ => [] end.
(** Calling the constructor of a Lambda layer with a function among the keyword arguments, or without. A subclass which passes its own function on receives
    a second value for the argument function of Lambda: TypeError. *)
Definition make_lambda (c : lambda_class) (function : option pyfun) (kw : config) : res layer :=
  match own_function c, function with
  | None, None => Err TypeError
  | None, Some f => make (ALambda c f) kw
  | Some f, None => make (ALambda c f) (without (own_arguments c) kw)
  | Some _, Some _ => Err TypeError
  end.

(** [cls( **kw)] for the classes of this repository other than the Lambda layers and the wrapper. transition_invariants.py:7-13 checks the lengths. *)
Definition construct (c : class) (kw : config) : res layer :=
  match c with
  | Casting => do t <- required "to_type" kw ; make (ACasting t) (without ["to_type"] kw)
  | Gather => do i <- required "indices" kw ; make (AGather i (optional "axis" (VInt 1) kw)) (without ["indices"; "axis"] kw)
  | Padding => do p <- required "padding" kw ; make (APadding p) (without ["padding"] kw)
  | Rolling =>
      do r <- required "roll_for_axis" kw ;
      do b <- make_base (without ["roll_for_axis"; "axes_to_roll"] kw) ;
      do n <- py_len r ;
      let a := match optional "axes_to_roll" VNone kw with
               | VNone => VList (map (fun i => VInt (Z.of_nat i)) (seq 1 n))
               | v => v
               end in
      do m <- py_len a ;
      if m =? n then Ok {| base := b; attrs := ARoll r a |} else Err AssertionError
  | Rotation => make (ARot90 (optional "num_of_rotations" (VInt 1) kw)) (without ["num_of_rotations"] kw)
  | ToComplexNumber => make (AToComplex (optional "axis" (VInt (-1)) kw)) (without ["axis"] kw)
  | LayerNorm => make (ALayerNorm (optional "epsilon" (VFloat (1 / 100000)) kw)) (without ["epsilon"] kw)
  | ComplexLayer cc =>
      if forallb (fun k => existsb (fun kv => String.eqb (fst kv) k) kw) (complex_required cc) then
        let keys := complex_arguments cc ++ complex_passed_on cc in
        make (AComplex cc (only keys kw)) (without keys kw)
      else Err TypeError
  | Builtin n => let keys := ["name"; "trainable"; "dtype"] in make (ABuiltin n (without keys kw)) (only keys kw)
  | WeightNorm | LambdaLayer _ => Err TypeError
  | c => make (APlain c) kw
  end.

(** func_load of Keras on the dumped function. A list entry replaces the tuple after JSON; both are accepted. *)
Definition load_function (v : pyval) : res pyfun :=
  match v with
  | VTuple [VStr code; _; VTuple closure] | VTuple [VStr code; _; VList closure]
  | VList [VStr code; _; VTuple closure] | VList [VStr code; _; VList closure] => Ok (Function code closure)
  | _ => Err TypeError
  end.
(** [cls.from_config(config)]: Lambda.from_config makes the function; Wrapper.from_config makes the wrapped layer; otherwise Layer.from_config. *)
Definition from_config (c : class) (kw : config) : res layer :=
  match c with
  | LambdaLayer lc =>
      match get "function" kw with
      | None => Err KeyError
      | Some v => do f <- load_function v ; make_lambda lc (Some f) (without ["function"] kw)
      end
  | WeightNorm =>
      match get "layer" kw with
      | Some (VDict [(_, VStr n); (_, VDict inner)]) =>
          make (AWeightNorm n inner (optional "normalize_per_output_channel" (VBool true) kw)
                                    (optional "exponential_norm" (VBool false) kw))
               (without ["layer"; "normalize_per_output_channel"; "exponential_norm"] kw)
      | Some _ => Err TypeError
      | None => Err KeyError
      end
  | c => construct c kw
  end.

(** * What a layer does with its attributes when it is called *)

Fixpoint plain (v : pyval) : pyval :=
  match v with
  | VTuple l | VList l => VList (map plain l)
  | VDict l => VDict (map (fun kv => (fst kv, plain (snd kv))) l)
  | VArray l => VList (map VInt l)
  | v => v
  end.
(** Conversion to a tensor of integers: tuples, lists and arrays are the same. *)
Definition as_int (v : pyval) : res Z := match v with VInt z => Ok z | _ => Err TypeError end.
Definition as_ints (v : pyval) : res (list Z) :=
  match v with
  | VTuple l | VList l => mapM as_int l
  | VArray l => Ok l
  | _ => Err TypeError
  end.

(** An entry of the padding, padding.py:21-34. Only a tuple is unpacked; anything else is compared with 0 as it is, which raises TypeError for a list.
    Booleans and floats are not distinguished from other unsuitable values. *)
Definition padding_entry (v : pyval) : res (Z * Z) :=
  match v with
  | VInt z => Ok (z, z)
  | VTuple [b; a] => do b <- as_int b ; do a <- as_int a ; Ok (b, a)
  | VTuple _ => Err ValueError
  | _ => Err TypeError
  end.
Definition padding_entries (v : pyval) : res (list (Z * Z)) :=
  match v with
  | VTuple l | VList l => mapM padding_entry l
  | VArray l => Ok (map (fun z => (z, z)) l)
  | _ => Err TypeError
  end.
(** padding.py:17-36 on a tensor (C36 and C47 describe the padding itself). Negative widths add nothing. The attribute is read before the tensor is touched. *)
Definition padding_call {V} (padding : pyval) (x : tensor V) : res (tensor V) :=
  do ps <- padding_entries padding ;
  periodic_padding (map (fun ba => PPair (Z.to_nat (fst ba)) (Z.to_nat (snd ba))) ps) x.

(** The result of [call] as a function of the attributes; two layers with the same action give the same outputs from the same weights. Layers of Keras accept
    lists for tuples. *)
Inductive action :=
| DoesCast (to_type : pyval) | DoesGather (indices : list Z) (axis : pyval) | DoesPad (widths : list (Z * Z)) | DoesRoll (shifts axes : list Z)
| DoesRotate (k : pyval) | DoesPlain (c : class) | DoesComplex (axis : pyval) | DoesLayerNorm (epsilon : pyval)
| DoesWeightNorm (inner : string) (inner_config per_channel exponential : pyval)
| DoesFunction (f : pyfun) | DoesComplexLayer (c : complex_class) (arguments : pyval) | DoesBuiltin (name : string) (arguments : pyval).
Definition action_of (l : layer) : res action :=
  match attrs l with
  | ACasting t => Ok (DoesCast t)
  | AGather i a => do i <- as_ints i ; Ok (DoesGather i a)
  | APadding p => do w <- padding_entries p ; Ok (DoesPad w)
  | ARoll r a => do r <- as_ints r ; do a <- as_ints a ; Ok (DoesRoll r a)
  | ARot90 k => Ok (DoesRotate k)
  | APlain c => Ok (DoesPlain c)
  | AToComplex a => Ok (DoesComplex a)
  | ALayerNorm e => Ok (DoesLayerNorm e)
  | AWeightNorm n c p e => Ok (DoesWeightNorm n (plain (VDict c)) p e)
  | ALambda _ f => Ok (DoesFunction f)
  | AComplex c args => Ok (DoesComplexLayer c (plain (VDict args)))
  | ABuiltin n args => Ok (DoesBuiltin n (plain (VDict args)))
  end.

(** * Whole models. The connections between the layers and the weights are left out, the optimizer is in [save_compiled] only; load_model is given every class of the repository as a
    custom object. *)

Definition save_model (strict : bool) (ls : list layer) : res (list (class * config)) :=
  do cs <- mapM (get_config strict) ls ;
  do js <- mapM json_config cs ;
  Ok (combine (map (fun l => class_of (attrs l)) ls) js).
Definition load_model (saved : list (class * config)) : res (list layer) :=
  mapM (fun cc => from_config (fst cc) (snd cc)) saved.

(** get_config of the optimizers: complex_values_optimizer.py:45-46 (also for the subclass of stochastic_reconfiguration/optimizer.py) asks the builtin type
    [super] instead of [super()] for get_config, which it does not have. Optimizers of Keras return their arguments, also after
    convert_to_accumulate_gradient_optimizer (accumulate_gradient_optimizer.py, which replaces other methods). *)
Inductive optimizer_class := KerasOptimizer (arguments : config) | ComplexValuesOptimizer.
Definition optimizer_get_config (o : optimizer_class) : res config :=
  match o with KerasOptimizer arguments => Ok arguments | ComplexValuesOptimizer => Err AttributeError end.
(** Model.save of a compiled model (include_optimizer, the default): first the layers, then the optimizer. *)
Definition save_compiled (strict : bool) (ls : list layer) (o : optimizer_class) : res (list (class * config) * config) :=
  do s <- save_model strict ls ;
  do c <- optimizer_get_config o ;
  Ok (s, c).

(** callbacks/checkpoint.py:54-58: what is written; [None] stands for the weights alone. *)
Definition checkpoint_save (strict save_weights_only : bool) (ls : list layer) : res (option (list (class * config))) :=
  if save_weights_only then Ok None else do s <- save_model strict ls ; Ok (Some s).
(** checkpoint.py:44: the default of save_weights_only. *)
Definition default_save_weights_only : bool := false.

(** * The layers of the machines, in the order in which they are made *)

Definition mk (a : attributes) : layer := {| base := auto; attrs := a |}.
Definition builtin (n : string) (args : config) : layer := mk (ABuiltin n args).
Definition lambda_layer (c : lambda_class) (n : string) : layer :=
  {| base := named n; attrs := ALambda c match own_function c with Some f => f | None => Function "" [] end |}.

Section Machines.
  (** The shape of the input layer, the activation (a name, or the name of a function), the width of the kernels. *)
  Context (shape : list Z) (activation : string) (kernel_size : nat).
  Definition input_layer : layer := builtin "InputLayer" [("batch_input_shape", VTuple (VNone :: map VInt shape))].
  Definition activation_layer : layer := builtin "Activation" [("activation", VStr activation)].
  Definition convolution (rank : string) (filters : nat) (size : pyval) (dilation : nat) : attributes :=
    ABuiltin rank [("filters", VInt (Z.of_nat filters)); ("kernel_size", size); ("dilation_rate", VInt (Z.of_nat dilation))].
  (** A convolution, wrapped if weights_normalization: simple_conv_net_autoregressive_1D.py:12-14, conv_net_autoregressive_2D.py:24-28. *)
  Definition maybe_normalized (weights_normalization exponential_norm : bool) (a : attributes) : layer :=
    match a with
    | ABuiltin n args =>
        if weights_normalization
        then mk (AWeightNorm n (base_items auto ++ args) (VBool true) (VBool exponential_norm))
        else builtin n args
    | a => mk a
    end.

  (** abstract_machine.py:34-37 and 50-57: the layers between the unnormalised conditionals and the predictions. The layer of line 56 is part of the
      conditional probabilities model only. *)
  Definition final_layers (equal_up_down_spins : bool) : list layer :=
    (if equal_up_down_spins then [lambda_layer EqualUpDown ""] else []) ++
    [lambda_layer NormalizeInLogSpace "conditional_log_wave_function"; lambda_layer PlusMinusOneToOneHot "";
     mk (ACasting (VStr "complex64")); lambda_layer CombineConditionals "wave_function"].

  (** simple_conv_net_autoregressive_1D.py:8-20 [causal_conv_1d] *)
  Definition causal_conv_1d (filters size : nat) (wn : bool) (dilation : nat) (act skip : bool) : list layer :=
    let padding := size + (size - 1) * (dilation - 1) - 1 in
    (if 0 <? padding then [builtin "ZeroPadding1D" [("padding", VTuple [VInt (Z.of_nat padding); VInt 0])]] else []) ++
    [maybe_normalized wn false (convolution "Conv1D" filters (VInt (Z.of_nat size)) dilation)] ++
    (if skip then [builtin "Add" []] else []) ++
    (if act then [activation_layer] else []).
  (** 51-60, with max_dilation_rate; [todo] layers are left and [i] are done. *)
  Fixpoint conv_stack_1d (todo i filters : nat) (wn use_dilation skips : bool) (max_dilation : option nat) (dilation : nat) : list layer :=
    match todo with
    | 0 => []
    | Datatypes.S t =>
        let next := match max_dilation with
                    | Some m => if use_dilation && (dilation <? m) then dilation * 2 else dilation
                    | None => dilation
                    end in
        causal_conv_1d filters kernel_size wn dilation true (skips && (0 <? i)) ++
        conv_stack_1d t (Datatypes.S i) filters wn use_dilation skips max_dilation next
    end.
  (** 45-64 *)
  Definition simple_conv_body (depth filters : nat) (wn use_dilation skips : bool) (max_dilation : option nat) (expand : bool) : list layer :=
    (if expand then [mk (APlain ExpandInputDim)] else []) ++ [mk (ACasting (VStr "float32"))] ++
    conv_stack_1d (depth - 2) 0 filters wn use_dilation skips max_dilation 1 ++
    [mk (APlain DownShift)] ++ causal_conv_1d 4 1 wn 1 false false ++ [mk (AToComplex (VInt (-1)))].
  Definition simple_conv_layers depth filters wn use_dilation skips max_dilation (equal : bool) : list layer :=
    input_layer :: simple_conv_body depth filters wn use_dilation skips max_dilation true ++ final_layers equal.
  (** simple_custom_autoregressive_ordering.py:15-34; [order] and [inverse]: the flat orderings, C04. *)
  Definition custom_ordering_layers (order inverse : list Z) depth filters wn use_dilation skips max_dilation : list layer :=
    input_layer :: mk (APlain ExpandInputDim) ::
    builtin "Reshape" [("target_shape", VTuple [VInt (fold_right Z.mul 1%Z shape); VInt 1])] ::
    mk (AGather (VList (map VInt order)) (VInt 1)) ::
    simple_conv_body depth filters wn use_dilation skips max_dilation false ++
    [mk (AGather (VList (map VInt inverse)) (VInt 1)); builtin "Reshape" [("target_shape", VTuple (map VInt shape ++ [VInt 2]))]] ++
    final_layers false.

  (** conv_net_autoregressive_2D.py:33-51 [_causal_conv_2d] *)
  Definition zero_padding_2d (a b c d : nat) : layer :=
    builtin "ZeroPadding2D" [("padding", VTuple [VTuple [VInt (Z.of_nat a); VInt (Z.of_nat b)]; VTuple [VInt (Z.of_nat c); VInt (Z.of_nat d)]])].
  Definition causal_conv_2d (filters : nat) (wn exponential mask : bool) : list layer :=
    let padding := kernel_size - 1 in
    let conv f size := maybe_normalized wn exponential (convolution "Conv2D" f size 1) in
    let k := VInt (Z.of_nat kernel_size) in
    (if 0 <? padding then [zero_padding_2d padding 0 (padding / 2) (padding / 2); zero_padding_2d 0 0 padding 0] else []) ++
    [conv filters k; conv filters (VTuple [VInt 1; k]); activation_layer] ++
    (if mask then [mk (APlain RightShift)] else []) ++
    [conv (filters / 2) (VInt 1); activation_layer; mk (APlain DownShift); conv (filters / 2) (VInt 1); activation_layer; activation_layer;
     builtin "Concatenate" [("axis", VInt (-1))]] ++
    (if 0 <? padding then [zero_padding_2d padding 0 padding 0] else []) ++ [conv filters k].
  (** 53-62 [_resiual_block] with two layers *)
  Definition residual_block (filters : nat) (wn exponential : bool) : list layer :=
    causal_conv_2d filters wn exponential false ++ [activation_layer; activation_layer] ++
    causal_conv_2d filters wn exponential false ++ [builtin "Add" []; builtin "Add" []; activation_layer; activation_layer].
  (** 64-74 *)
  Definition conv_net_2d_layers (depth filters : nat) (wn exponential equal : bool) : list layer :=
    input_layer :: [mk (APlain ExpandInputDim); mk (ACasting (VStr "float32"))] ++
    causal_conv_2d filters wn exponential false ++ [activation_layer; activation_layer] ++
    flat_map (fun _ => residual_block filters wn exponential) (seq 0 (depth - 2)) ++
    causal_conv_2d filters wn exponential true ++
    [activation_layer; mk (convolution "Conv2D" 4 (VInt 1) 1); mk (AToComplex (VInt (-1)))] ++
    final_layers equal.

  (** complex_values_simple_conv_net_autoregressive_1D.py:11-19 and 48-66 (the dilation rates as above) *)
  Definition complex_conv_1d (filters size dilation : nat) (act : bool) : list layer :=
    let padding := size + (size - 1) * (dilation - 1) - 1 in
    (if 0 <? padding then [builtin "ZeroPadding1D" [("padding", VTuple [VInt (Z.of_nat padding); VInt 0])]] else []) ++
    [mk (AComplex (Conv 1) [("filters", VInt (Z.of_nat filters)); ("kernel_size", VInt (Z.of_nat size)); ("strides", VInt 1);
                            ("dilation_rate", VInt (Z.of_nat dilation))])] ++
    (if act then [activation_layer] else []).
  Fixpoint complex_stack_1d (todo filters : nat) (use_dilation : bool) (max_dilation : option nat) (dilation : nat) : list layer :=
    match todo with
    | 0 => []
    | Datatypes.S t =>
        let next := match max_dilation with
                    | Some m => if use_dilation && (dilation <? m) then dilation * 2 else dilation
                    | None => dilation
                    end in
        complex_conv_1d filters kernel_size dilation true ++ complex_stack_1d t filters use_dilation max_dilation next
    end.
  Definition complex_conv_layers (depth filters : nat) (use_dilation : bool) (max_dilation : option nat) (float64 equal : bool) : list layer :=
    input_layer :: [mk (APlain ExpandInputDim); mk (ACasting (VStr (if float64 then "complex128" else "complex64")))] ++
    complex_stack_1d (depth - 1) filters use_dilation max_dilation 1 ++
    [mk (APlain DownShift)] ++ complex_conv_1d 2 1 1 false ++ final_layers equal.

  (** rbm.py:13-22 and 35-48 [RBM], 51-65 [RBMSym]. The functions and initialisers given to the layers are named only. *)
  Definition sum_layer : layer := mk (ALambda PlainLambda (Function "lambda t: tensorflow.math.reduce_sum(t, axis=-1, keepdims=True)" [])).
  Definition hidden_layer (c : complex_class) (alpha : nat) : layer :=
    mk (AComplex c [("units", VInt (Z.of_nat alpha)); ("activation", VStr "lncosh"); ("kernel_initializer", VStr "random_normal");
                    ("bias_initializer", VStr "random_normal")]).
  Definition visible_layer : layer :=
    mk (AComplex Dense [("units", VInt 1); ("use_bias", VBool false); ("kernel_initializer", VStr "random_normal")]).
  Definition to_complex (float64 : bool) : layer := mk (ACasting (VStr (if float64 then "complex128" else "complex64"))).
  Definition rbm_layers (alpha : nat) (float64 : bool) : list layer :=
    [input_layer; to_complex float64; builtin "Flatten" []; hidden_layer Dense alpha; visible_layer; sum_layer; builtin "Add" []].
  Definition rbm_sym_layers (alpha : nat) (float64 : bool) : list layer :=
    [input_layer; to_complex float64; hidden_layer TranslationInvariantDense alpha; builtin "Flatten" []; sum_layer; visible_layer; sum_layer;
     builtin "Add" []].
End Machines.

(** * Ensembles, machines/ensemble.py:27-69: the layers added around the predictions of a model, without that model, which
    is itself one layer of the new network. *)
Section Ensembles.
  Context (shape : list Z).
  (** 29-31 and 39-41 *)
  Definition ensemble_lambda (probabilistic : bool) : layer :=
    mk (ALambda PlainLambda (if probabilistic then PartialObject "probabilistic_ensemble_op" else Function "average_ensemble_op" [])).
  (** 44-52 [make_2d_obc_invariants] *)
  Definition obc_layers (probabilistic : bool) : list layer :=
    input_layer shape :: map (fun k => mk (ARot90 (VInt k))) [1; 2; 3]%Z ++
    repeat (mk (APlain FlipLeftRight)) 4 ++ [builtin "Concatenate" [("axis", VInt (-1))]; ensemble_lambda probabilistic].
  (** 34-41 [build_symmetrization_ensemble]: the lambda expressions capture the shape and the list of input tensors. *)
  Definition symmetrization_lambdas (probabilistic : bool) : list layer :=
    [mk (ALambda PlainLambda (Function "lambda x:tensorflow.reshape(tensorflow.stack(x, axis=1), (-1, ) + shape)" [VTuple (map VInt shape)]));
     mk (ALambda PlainLambda (Function "lambda x:tensorflow.reshape(x, (-1, len(symmetrization_inputs)))" [VList [VTensor]]));
     ensemble_lambda probabilistic].
  (** 55-62 [make_pbc_invariants], without the inner model, for a list of shifts *)
  Definition pbc_layers (shifts : list (list Z)) (probabilistic : bool) : list layer :=
    input_layer shape ::
    map (fun s => mk (ARoll (VList (map VInt s)) (VList (map (fun i => VInt (Z.of_nat i)) (seq 1 (List.length s)))))) shifts ++
    symmetrization_lambdas probabilistic.
  (** 65-69 [make_up_down_invariant] *)
  Definition up_down_layers (probabilistic : bool) : list layer :=
    input_layer shape :: mk (ALambda PlainLambda (Function "lambda x:x * -1" [])) :: symmetrization_lambdas probabilistic.
End Ensembles.
