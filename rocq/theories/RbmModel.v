(** The restricted Boltzmann machines with the optimizer of stochastic reconfiguration: the weights that the layers create, what back propagation through the machine gives, and one step
    of a training run (machines/rbm.py, layers/complex/dense.py, layers/complex/tensorflow_ops.py, machines/abstract_machine.py, examples/rbm_heisenberg_1d_sr.py). The values of the
    machines are in SymmetryModel.v. Floating point numbers are exact. *)
From Coq Require Import List ZArith Arith Bool Reals.
From Verif Require Import Base OrderingModel Cplx IsingModel ObservableModel ComplexModel SymmetryModel ReconfigurationModel SolverModel.
Import ListNotations.
Local Open Scope nat_scope.

(** * The weights *)

(** layers/complex/dense.py:24-42 [ComplexDense.build]: the shapes of the kernel and of the bias. [input_shape] has the batch axis in front; unknown sizes are [None], and int() of an
    unknown size raises TypeError. *)
Definition dense_build (units : nat) (use_bias multiply_units_by_input_dim : bool) (input_shape : list (option nat)) : res (list nat * option (list nat)) :=
  if negb (length input_shape =? 2) then Err AssertionError else
  match last input_shape None with
  | None => Err TypeError
  | Some input_dim =>
      let units := if multiply_units_by_input_dim then units * input_dim else units in
      Ok ([input_dim; units], if use_bias then Some [units] else None)
  end.
(** dense.py:58-82 [TranslationInvariantComplexDense.build]: the shapes of the bare kernel and bias. *)
Definition translation_dense_build (units : nat) (use_bias : bool) (input_shape : list (option nat)) : res (list nat * option (list nat)) :=
  if negb (2 <=? length input_shape) then Err AssertionError else
  do input_dims <- mapM (fun s => match s with None => Err TypeError | Some d => Ok d end) (tl input_shape) ;
  Ok (input_dims ++ [units], if use_bias then Some [units] else None).
(** keras Flatten: (batch, product of the other sizes), unknown if one of these is. *)
Definition flatten_shape (input_shape : list (option nat)) : list (option nat) :=
  [hd None input_shape; fold_right (fun s p => match s, p with Some a, Some b => Some (a * b) | _, _ => None end) (Some 1) (tl input_shape)].

(** dense.py:30-41, 61-79: the weights of a layer in the order in which they are added. *)
Definition weight_shapes (layer : list nat * option (list nat)) : list (list nat) := fst layer :: match snd layer with Some b => [b] | None => [] end.

(** machines/rbm.py:35-65: [symmetric] is RBMSym. *)
Record machine := { symmetric : bool; input_dims : list nat; alpha : nat }.
(** The shapes of the complex weights, in the order of model.layers: keras sorts the layers by their distance from the output, and the layer of the hidden units is farther away than
    that of the visible ones in both machines (RBM: Add, 1: ComplexDense_1 and Lambda, 2: ComplexDense; RBMSym: Add, 1: ComplexDense and Lambda_1,
    2: TranslationInvariantComplexDense and Lambda). *)
Definition machine_build (m : machine) : res (list (list nat)) :=
  let input_shape := None :: map Some (input_dims m) in
  if symmetric m then
    do hidden <- translation_dense_build (alpha m) true input_shape ;
    do visible <- dense_build 1 false false [None; Some 1] ;
    Ok (weight_shapes hidden ++ weight_shapes visible)
  else
    do hidden <- dense_build (alpha m) true true (flatten_shape input_shape) ;
    do visible <- dense_build 1 false false (flatten_shape input_shape) ;
    Ok (weight_shapes hidden ++ weight_shapes visible).

(** The prediction for one example; [ws]: kernel and bias of the hidden units, kernel of the visible ones. *)
Definition prediction (m : machine) (ws : list (list C)) (s : list Z) : C :=
  let kernel := nth 0 ws [] in let bias := nth 1 ws [] in let visible := nth 2 ws [] in
  if symmetric m then rbm_sym (input_dims m) (alpha m) kernel bias visible s else rbm (alpha m) kernel bias visible s.

(** * Back propagation *)

(** The operations of tensorflow multiply the incoming gradient by the conjugate of their derivative. layers/complex/tensorflow_ops.py:79-85 [lncosh] with 69-76, operation by operation:
    [w] is the argument of complex_log. The gradient of complex(a, b) goes to a with its real part and to b with its imaginary part; that of log(abs(w)) is g / |w| * w / |w|; that of
    atan2(imag, real) is g * real / |w|^2 for imag and - g * imag / |w|^2 for real; tensorflow.cast of a real number to a complex one takes the real part on the way back; the gradient of abs is the
    sign, which is 0 at 0. *)
Definition real_sign (x : R) : R := if Rlt_dec 0 x then 1%R else if Rlt_dec x 0 then (-1)%R else 0%R.
Definition lncosh_gradient (z g : C) : C :=
  let abs_z := RtoC (Rabs (Re z)) in
  let e1 := Cexp (z - abs_z) in
  let e2 := Cexp (- z - abs_z) in
  let w := (e1 + e2)%C in
  let from_log := Cscale (Re g / Cmod w / Cmod w) w in
  let from_angle := (- (Im g * Im w) / Cnorm2 w, Im g * Re w / Cnorm2 w)%R in
  let g_w := (from_log + from_angle)%C in
  let g1 := (g_w * Cconj e1)%C in
  let g2 := (g_w * Cconj e2)%C in
  let g_abs := Re (g - g1 - g2)%C in
  (g1 - g2 + RtoC (g_abs * real_sign (Re z)))%C.

(** tensorflow.matmul: the gradient for the second factor, the adjoint of the first times the gradient. One example: a column times a row. *)
Definition dot_gradient (x g : list C) : list C := flat_map (fun a => map (fun b => (Cconj a * b)%C) g) x.
(** dense.py:79, 84: tensorflow.stack is undone along the last axis and the copies are added. *)
Definition translation_bias_gradient (input_dims : list nat) (units : nat) (g : list C) : list C :=
  let copies := number_of_visible input_dims in
  map (fun u => Csum (fun t => nth (u * copies + t) g C0) (range copies)) (range units).
(** dense.py:69-72: likewise, and every translation is rolled back. *)
Definition translation_kernel_gradient (input_dims : list nat) (units : nat) (g : list C) : list C :=
  let places := raster input_dims in
  let size := number_of_visible input_dims * units in
  let unstacked := map (fun k => map (fun b => nth (b * length places + k) g C0) (range size)) (range (length places)) in
  let rolled := map2 (fun i p => snd (tf_roll C0 (map (fun c => - Z.of_nat c)%Z i) (input_dims ++ [units], p))) places unstacked in
  map (fun b => Csum (fun p => nth b p C0) rolled) (range size).
(** rbm.py:35-65 backwards, from the real part of the prediction (tensorflow.math.real has the gradient complex(g, 0)): the gradients of the complex weights. Add and reduce_sum hand the
    gradient on. *)
Definition weight_gradients (m : machine) (ws : list (list C)) (s : list Z) : list (list C) :=
  let kernel := nth 0 ws [] in let bias := nth 1 ws [] in
  let x := to_complex s in
  if symmetric m then
    let thetas := translation_dense_call (input_dims m) (alpha m) kernel (Some bias) None x in
    let g := map (fun z => lncosh_gradient z C1) thetas in
    [translation_kernel_gradient (input_dims m) (alpha m) (dot_gradient x g); translation_bias_gradient (input_dims m) (alpha m) g; dot_gradient [Csum (fun z => z) x] [C1]]
  else
    let thetas := dense_call (alpha m * length x) kernel (Some bias) None x in
    let g := map (fun z => lncosh_gradient z C1) thetas in
    [dot_gradient x g; g; dot_gradient x [C1]].
(** layers/complex/base_layer.py:29-35: a weight is complex(real, imag * -1); the gradients of the variables real and imag. *)
Definition variable_gradients (g : list C) : list (list R) := [map Re g; map (fun z => Im z * -1)%R g].
(** machines/abstract_machine.py:24-28 [predictions_jacobian] for model.weights: for every variable the number of examples and the gradients of the real parts of the predictions, one
    example after the other. *)
Definition predictions_jacobian (m : machine) (ws : list (list C)) (samples : list (list Z)) : list (nat * list R) :=
  let rows := map (fun s => flat_map variable_gradients (weight_gradients m ws s)) samples in
  map (fun i => (length samples, flat_map (fun row => nth i row []) rows)) (range 6).

(** * One step *)

(** examples/rbm_heisenberg_1d_sr.py:24-26, 40-42: one step of fit_generator with the optimizer, given the samples and their local energies (variational_monte_carlo.py:38-50).
    [reals], [imags]: the variables with their shapes. [fuel]: for the loop of the iterative solver. use_energy_loss is not used here and its gradient is left out. *)
Definition reconfiguration_step (fuel : nat) (o : options) (lr : R) (m : machine) (reals imags : list (list nat * list R)) (samples : list (list Z)) (local : list C)
    : res (option (list (list nat * list R) * list (list nat * list R))) :=
  let ws := map2 (fun r i => complex_weight_value (snd r, snd i)) reals imags in
  let targets := loss_coefficients (length samples) (Cmean local) local in
  let O := map (fun s => map Cconj (concat (weight_gradients m ws s))) samples in
  do x <- direction fuel o true (map fst reals) (Some (predictions_jacobian m ws samples)) O [] targets ;
  match x with
  | None => Ok None
  | Some x => do r <- get_updates lr reals imags x ; Ok (Some r)
  end.
