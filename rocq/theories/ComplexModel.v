(** Complex valued layers: layers/complex/tensorflow_ops.py, base_layer.py, initializers.py.
    Floating point numbers are exact real numbers. *)
From Coq Require Import List ZArith Arith Bool Reals.
From Verif Require Import Base Cplx.
Import ListNotations.
Local Open Scope R_scope.

(** tensorflow.math.atan2 (C library atan2); signed zeros do not exist, [atan2 0 0 = 0]. *)
Definition atan2 (y x : R) : R :=
  if Rlt_dec 0 x then atan (y / x)
  else if Rlt_dec x 0 then (if Rle_dec 0 y then atan (y / x) + PI else atan (y / x) - PI)
  else if Rlt_dec 0 y then PI / 2 else if Rlt_dec y 0 then - (PI / 2) else 0.

(** layers/complex/tensorflow_ops.py:69-72 [angle]. *)
Definition angle (number : C) : R := atan2 (Im number) (Re number).

(** tensorflow_ops.py:75-76 [complex_log]. [ln 0] is an unspecified real here, minus infinity in tensorflow. *)
Definition complex_log (z : C) : C := (ln (Cmod z), angle z).

(** tensorflow_ops.py:79-85 [lncosh]; the constant [log(2.0)] is exact (tensorflow rounds it to binary32). *)
Definition lncosh (z : C) : C :=
  let complex_abs_z := RtoC (Rabs (Re z)) in
  (complex_abs_z - RtoC (ln 2) + complex_log (Cexp (z - complex_abs_z) + Cexp (- z - complex_abs_z)))%C.

(** tensorflow_ops.py:51-54 [crelu]. *)
Definition relu (x : R) : R := Rmax x 0.
Definition crelu (z : C) : C := (relu (Re z), relu (Im z)).

(** tensorflow_ops.py:7-13 [keras_conv_to_complex_conv] and the branch [general_conv2d] of [conv2d_complex] (16-33): [keras_conv] acts on
    whole real tensors (flat lists of numbers), tensorflow.math.real/imag and tensorflow.complex act entry by entry. *)
Definition keras_conv_to_complex_conv (keras_conv : list R -> list R -> list R) (x kernel : list C) : list C :=
  let ac := keras_conv (map Re x) (map Re kernel) in
  let bd := keras_conv (map Im x) (map Im kernel) in
  let ad := keras_conv (map Re x) (map Im kernel) in
  let bc := keras_conv (map Im x) (map Re kernel) in
  map2 (fun re im => (re, im)) (map2 Rminus ac bd) (map2 Rplus ad bc).

(** An initializer of a complex weight: the tensors (flat) that its two parts ask for.
    layers/complex/initializers.py:25-47 [NegateDecorator], [ConjugateDecorator]. *)
Record complex_initializer := { real_part : list R; imag_part : list R }.
Definition negate_decorator (l : list R) : list R := map (Rmult (-1)) l.
Definition conjugate_decorator (i : complex_initializer) : complex_initializer :=
  {| real_part := real_part i; imag_part := negate_decorator (imag_part i) |}.

(** layers/complex/base_layer.py:18-35 [add_complex_weight]: the two variables created, *)
Definition add_complex_weight_variables (i : complex_initializer) : list R * list R :=
  (real_part (conjugate_decorator i), imag_part (conjugate_decorator i)).
(** and the tensor returned, [complex(real, imag * -1)], as a function of the present values of the variables. *)
Definition complex_weight_value (variables : list R * list R) : list C :=
  map2 (fun re im => (re, im)) (fst variables) (map (fun x => x * -1) (snd variables)).
(** base_layer.py:33-34: the tensors with respect to which the gradient is taken. *)
Definition weights_for_gradient_conjugate (variables : list R * list R) : list R * list R :=
  (fst variables, map (fun x => x * -1) (snd variables)).

(** initializers.py:100-134 [StandartComplexValueInitializer] (with 65-86): the first of the two part initializers that is called draws
    modulus and phase, the second uses the same draw and a third call raises. The state is the counter and the last draw. *)
Record standard_state := { counter : nat; drawn : list R * list R }.
Definition next_complex_number (draw : list R * list R) (s : standard_state) : res standard_state :=
  let c := S (counter s) in
  if Nat.eqb c 2 then Ok {| counter := c; drawn := drawn s |}
  else if Nat.ltb 2 c then Err GenericException
  else Ok {| counter := c; drawn := draw |}.
Definition real_part_initializer (draw : list R * list R) (s : standard_state) : res (standard_state * list R) :=
  do s' <- next_complex_number draw s ;
  Ok (s', map2 (fun phase modulus => cos phase * modulus) (snd (drawn s')) (fst (drawn s'))).
Definition imag_part_initializer (draw : list R * list R) (s : standard_state) : res (standard_state * list R) :=
  do s' <- next_complex_number draw s ;
  Ok (s', map2 (fun phase modulus => sin phase * modulus) (snd (drawn s')) (fst (drawn s'))).
Definition new_standard : standard_state := {| counter := 0; drawn := ([], []) |}.
(** Building one complex weight: real variable first, then the (negated) imaginary one. [draw1], [draw2]: what a fresh draw of modulus and
    phase would give at either call. *)
Definition standard_complex_weight (draw1 draw2 : list R * list R) (s : standard_state) : res (standard_state * (list R * list R)) :=
  do a <- real_part_initializer draw1 s ;
  do b <- imag_part_initializer draw2 (fst a) ;
  Ok (fst b, add_complex_weight_variables {| real_part := snd a; imag_part := snd b |}).
