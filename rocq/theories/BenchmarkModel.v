(** The network of examples/benchmark.py: complex convolutions on a ring and a sum over all sites and channels. *)
From Coq Require Import List ZArith Arith Bool Reals.
From Verif Require Import Base Cplx OrderingModel TensorModel ComplexModel ComplexConvModel.
Import ListNotations.
Local Open Scope nat_scope.

(** benchmark.py:31 [PeriodicPadding(padding)] with benchmark.py:27 [padding = ((0, kernel_size - 1),)]; kernel_size is positive here. Batch and channels are
    carried along (padding.py:21-35 only moves slices of the site axis). *)
Definition wrap (kernel_size : nat) (x : image C) : res (image C) :=
  do t <- periodic_padding [PPair 0 (kernel_size - 1)] {| tshape := sizes x; tval := fun l => fun b c => pixel x b l c |};
  Ok {| batch := batch x; sizes := tshape t; channels := channels x; pixel := fun b l c => tval t l b c |}.
(** benchmark.py:31-33, one round of the loop: padding, ComplexConv1D(width, kernel_size, use_bias=False), Activation(lncosh). *)
Definition ring_layer (kernel_size width : nat) (kernel : loc -> nat -> nat -> C) (x : image C) : res (image C) :=
  do y <- wrap kernel_size x;
  do L <- complex_conv_1d width (Single (Int (Z.of_nat kernel_size))) default_strides default_padding default_dilation_rate false None;
  do z <- call L kernel (fun _ => C0) y;
  Ok (map_image lncosh z).
Fixpoint ring_layers (kernel_size width : nat) (kernels : list (loc -> nat -> nat -> C)) (x : image C) : res (image C) :=
  match kernels with
  | [] => Ok x
  | w :: t => do y <- ring_layer kernel_size width w x; ring_layers kernel_size width t y
  end.
(** benchmark.py:28-29: rows of spins as an image with one channel, cast to complex numbers. All rows have [input_size] spins. *)
Definition spins_image (input_size : nat) (rows : list (list Z)) : image C :=
  {| batch := length rows; sizes := [input_size]; channels := 1; pixel := fun b l _ => RtoC (IZR (nth (nth 0 l 0) (nth b rows []) 0%Z)) |}.
(** benchmark.py:34-36: Flatten (sites first, then channels) and tensorflow.reduce_sum over the second axis. One number for each row. *)
Definition flatten (x : image C) (b : nat) : list C := flat_map (fun l => map (pixel x b l) (range (channels x))) (raster (sizes x)).
Definition benchmark_predictions (input_size kernel_size width : nat) (kernels : list (loc -> nat -> nat -> C)) (rows : list (list Z)) : res (list C) :=
  do y <- ring_layers kernel_size width kernels (spins_image input_size rows);
  Ok (map (fun b => Csum (fun v => v) (flatten y b)) (range (batch y))).
