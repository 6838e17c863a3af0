(** Random initial values of complex weights: layers/complex/initializers.py with layers/complex/base_layer.py.
    Floating point numbers are exact real numbers; the draws of tensorflow are arguments. *)
From Coq Require Import String List ZArith Arith Bool Reals.
From Verif Require Import Base Cplx ComplexModel.
Import ListNotations.
Local Open Scope R_scope.
Local Open Scope string_scope.

(** The floating point type of a tensor or variable (layers/complex/base_layer.py:16 [params_dtype]). *)
Inductive float_type := Float32 | Float64.
Definition same_float (a b : float_type) : bool :=
  match a, b with Float32, Float32 => true | Float64, Float64 => true | _, _ => false end.
(** base_layer.py:11-16: [params_dtype] for the dtype of the layer, here whether it is complex128. *)
Definition params_dtype (is_complex128 : bool) : float_type := if is_complex128 then Float64 else Float32.

(** What tensorflow draws for one call of [random_modulus_and_phase]: standard normal numbers for [x] and [y], numbers in [0,1) for the phase;
    as many as the tensor has entries. *)
Record noise := { normal_x : list R; normal_y : list R; uniform : list R }.
(** initializers.py:89-90 [tensorflow.random_normal(shape, stddev=...)]: standard normal numbers times [stddev]; mean 0, dtype float32. *)
Definition random_normal (stddev : R) (z : list R) : list R := map (Rmult stddev) z.
(** initializers.py:119 [tensorflow.random_uniform(shape, minval, maxval)], dtype float32. *)
Definition random_uniform (minval maxval : R) (u : list R) : list R := map (fun a => a * (maxval - minval) + minval) u.

(** initializers.py:87-91 [random_rayleigh]. *)
Definition random_rayleigh (scale : R) (d : noise) : list R :=
  let scale_squared := scale * scale in
  let x := random_normal scale_squared (normal_x d) in
  let y := random_normal scale_squared (normal_y d) in
  map2 (fun a b => sqrt (a * a + b * b)) x y.

(** tensorflow.python.ops.init_ops._compute_fans (imported in initializers.py:7). *)
Definition product (l : list nat) : nat := fold_left Nat.mul l 1%nat.
Definition compute_fans (shape : list nat) : nat * nat :=
  match shape with
  | [] => (1, 1)%nat
  | [n] => (n, n)
  | [n; m] => (n, m)
  | _ => let receptive_field_size := product (firstn (length shape - 2) shape) in
         (nth (length shape - 2) shape 0%nat * receptive_field_size, nth (length shape - 1) shape 0%nat * receptive_field_size)%nat
  end.

(** Python's [1. / n] for an integer [n]. *)
Definition one_over (n : nat) : res R := if Nat.eqb n 0 then Err ZeroDivisionError else Ok (1 / INR n).

(** initializers.py:107-119 [_random_modulus_and_phase] (modulus, phase). *)
Definition random_modulus_and_phase (criterion : string) (shape : list nat) (d : noise) : res (list R * list R) :=
  let (fan_in, fan_out) := compute_fans shape in
  do scale <- (if criterion =? "glorot" then one_over (fan_in + fan_out)
               else if criterion =? "he" then one_over fan_in
               else Err ValueError) ;
  Ok (random_rayleigh scale d, random_uniform (- PI) PI (uniform d)).

(** tensorflow.keras initializers: the values they give at a call for a shape, in the dtype asked for. The calls of one weight are numbered,
    0 for the real and 1 for the imaginary part, since a random initializer draws again at every call. *)
Definition keras_initializer := nat -> list nat -> list R.
(** The arguments of tensorflow.keras.initializers.get: a name, None, an initializer (callable), anything else. *)
Inductive real_identifier := RName (s : string) | RNone | RCallable (f : keras_initializer) | ROther.

(** The complex initializers: initializers.py:50-62 [FromRealValueInitializers] (a part can be None) and 100-134
    [StandartComplexValueInitializer] with its counter and last draw. Other subclasses of [ComplexValueInitializer] are not modelled. *)
Inductive complex_value_initializer :=
| FromReal (re im : option keras_initializer)
| Standard (criterion : string) (s : standard_state).

(** The arguments of initializers.py:137 [get]: an instance, a tuple, or what goes to Keras. *)
Inductive identifier := Instance (i : complex_value_initializer) | Tuple (l : list real_identifier) | Single (r : real_identifier).

Section Keras.
(** The initializers that Keras knows by name, and the one that Keras' [add_weight] takes for None (glorot_uniform). *)
Context (keras_names : string -> option keras_initializer) (keras_default : keras_initializer).

(** tensorflow.keras.initializers.get. *)
Definition keras_get (r : real_identifier) : res (option keras_initializer) :=
  match r with
  | RName s => match keras_names s with Some f => Ok (Some f) | None => Err ValueError end
  | RNone => Ok None
  | RCallable f => Ok (Some f)
  | ROther => Err ValueError
  end.

(** initializers.py:59-62 [FromRealValueInitializers.__init__]. *)
Definition from_real_value_initializers (re im : real_identifier) : res complex_value_initializer :=
  do a <- keras_get re ; do b <- keras_get im ; Ok (FromReal a b).

(** initializers.py:137-145 [get]. A tuple whose length is not 2 goes to Keras, which cannot interpret it. *)
Definition get (id : identifier) : res complex_value_initializer :=
  match id with
  | Instance i => Ok i
  | Tuple [re; im] => from_real_value_initializers re im
  | Tuple _ => from_real_value_initializers ROther ROther
  | Single (RName s) =>
      if existsb (String.eqb s) ["complex_glorot"; "complex_he"]
      then Ok (Standard (substring 8 (String.length s - 8) s) new_standard)
      else from_real_value_initializers (RName s) (RName s)
  | Single r => from_real_value_initializers r r
  end.

(** initializers.py:72-74, 84-86 with 121-127: the draw happens at the first call only; later calls use the stored one (or raise). *)
Definition draw (criterion : string) (shape : list nat) (d : noise) (s : standard_state) : res (list R * list R) :=
  if Nat.eqb (counter s) 0 then random_modulus_and_phase criterion shape d else Ok ([], []).

(** A variable of type [dtype] that starts at a tensor: tensorflow does not convert between float32 and float64 and raises ValueError. *)
Definition variable (dtype : float_type) (t : float_type * list R) : res (list R) :=
  if same_float dtype (fst t) then Ok (snd t) else Err ValueError.

(** Calling the two part initializers of an initializer. The parts of [StandartComplexValueInitializer] ignore [dtype]: float32. *)
Definition call_real (dtype : float_type) (shape : list nat) (d : noise) (i : complex_value_initializer)
  : res (complex_value_initializer * (float_type * list R)) :=
  match i with
  | FromReal re im => Ok (i, (dtype, match re with Some f => f 0%nat shape | None => keras_default 0%nat shape end))
  | Standard criterion s =>
      do m <- draw criterion shape d s ; do a <- real_part_initializer m s ; Ok (Standard criterion (fst a), (Float32, snd a))
  end.
(** initializers.py:25-34 [NegateDecorator]: for None, [None.__call__] raises AttributeError. *)
Definition call_negated_imag (dtype : float_type) (shape : list nat) (d : noise) (i : complex_value_initializer)
  : res (complex_value_initializer * (float_type * list R)) :=
  match i with
  | FromReal re (Some f) => Ok (i, (dtype, negate_decorator (f 1%nat shape)))
  | FromReal re None => Err AttributeError
  | Standard criterion s =>
      do m <- draw criterion shape d s ; do a <- imag_part_initializer m s ;
      Ok (Standard criterion (fst a), (Float32, negate_decorator (snd a)))
  end.

(** base_layer.py:18-35 [add_complex_weight]: the initializer afterwards and the two variables created. [d0], [d1]: what tensorflow would draw
    at either call. Both variables are initialised in one run of the session, so that they see one draw. *)
Definition add_complex_weight (id : identifier) (dtype : float_type) (shape : list nat) (d0 d1 : noise)
  : res (complex_value_initializer * (list R * list R)) :=
  do i <- get id ;
  do a <- call_real dtype shape d0 i ;
  do re <- variable dtype (snd a) ;
  do b <- call_negated_imag dtype shape d1 (fst a) ;
  do im <- variable dtype (snd b) ;
  Ok (fst b, (re, im)).

End Keras.

(** layers/complex/dense.py:43-45 [ComplexDense.call] before bias and activation, for one input row [x] and a kernel of shape
    (number of inputs, [units]) in row-major order. *)
Definition dense_output (units : nat) (kernel x : list C) (j : nat) : C :=
  Csum (fun k => (nth k x C0 * nth (k * units + j) kernel C0)%C) (range (length x)).
