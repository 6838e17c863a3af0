(** Model of deepar/layers/wrappers.py: the weight normalisation wrapper. Floating point numbers are real numbers. *)
From Coq Require Import List ZArith Arith Bool Reals.
From Verif Require Import Base Cplx OrderingModel OrderingSpec TensorModel.
Import ListNotations.
Local Open Scope R_scope.

(** tensorflow.reduce_sum(tensorflow.square(x), axis=axes, keepdims=True) seen from location [l]: the sum over the
    locations that agree with [l] on every axis that is not reduced. *)
Definition same_group (axes : list nat) (l l' : loc) : bool :=
  forallb (fun a => existsb (Nat.eqb a) axes || (nth a l 0 =? nth a l' 0)%nat)%bool (range (length l)).
Definition square_sum (axes : list nat) (x : tensor R) (l : loc) : R :=
  Rsum (fun l' => tval x l' * tval x l') (filter (same_group axes l) (raster (tshape x))).

(** tensorflow.nn.l2_normalize(x, axis, epsilon=1e-12): x * rsqrt(maximum(square_sum, epsilon)). *)
Definition l2_epsilon : R := / 10 ^ 12.
Definition l2_normalize (axes : list nat) (x : tensor R) : tensor R :=
  {| tshape := tshape x; tval := fun l => tval x l * / sqrt (Rmax (square_sum axes x l) l2_epsilon) |}.

(** Multiplication with a vector of shape (n,): numpy broadcasting along the last axis, a vector of length one is used
    everywhere. *)
Definition times_vector (x : tensor R) (g : list R) : tensor R :=
  {| tshape := tshape x; tval := fun l => tval x l * nth (if length g =? 1 then 0 else last l 0)%nat g 0 |}.

(** wrappers.py:36-40 CopyNormaInitializer.__call__ with shape (n,): reshape to rows of length n, the norm of every
    column, its logarithm for the exponential parametrisation. [initial_value] of the variable is the value the kernel is
    initialised with (both are computed in the same run of the initialisers). A reshape to [-1, 0] is an error. *)
Definition copy_norma_initializer (variable : tensor R) (exponential_norm : bool) (n : nat) : res (list R) :=
  if (n =? 0)%nat then Err ValueError else
  if negb (volume (tshape variable) mod n =? 0)%nat then Err ValueError else
  let rows := (volume (tshape variable) / n)%nat in
  let flat := reshape [rows; n] variable in
  let norm := map (fun j => sqrt (Rsum (fun r => tval flat [r; j] * tval flat [r; j]) (range rows))) (range n) in
  Ok (if exponential_norm then map (fun x => ln (x + / 10 ^ 10)) norm else norm).

(** The wrapped layer: whether it was built before it was wrapped, and the kernel it has (or gets in [build]). *)
Record layer := { built : bool; kernel : option (tensor R) }.
(** The attributes of the wrapper that matter: [v] and [g] exist only after lines 103 and 110. *)
Record wrapper := {
  normalize_per_output_channel : bool; exponential_norm : bool; kernel_norm_axes : list nat; v : tensor R; g : list R
}.

(** wrappers.py:82-112 [build]: an already built layer is left alone, the wrapper gets no [v] and [g]. *)
Definition build (per_channel exponential : bool) (l : layer) : res (option wrapper) :=
  if built l then Ok None else
  match kernel l with
  | None => Err ValueError
  | Some k =>
      let rank := length (tshape k) in
      do depth_axes <- (if per_channel
                        then match rank with
                             | O => Err IndexError
                             | S r => Ok (nth r (tshape k) 0%nat, range r)
                             end
                        else Ok (1%nat, range rank));
      do g <- copy_norma_initializer k exponential (fst depth_axes);
      Ok (Some {| normalize_per_output_channel := per_channel; exponential_norm := exponential;
                  kernel_norm_axes := snd depth_axes; v := k; g := g |})
  end.

(** wrappers.py:123-134 [_compute_weights]: the kernel the wrapped layer works with in every call. Without [g] the
    attribute read of line 130 fails. *)
Definition compute_weights (w : option wrapper) : res (tensor R) :=
  match w with
  | None => Err AttributeError
  | Some w =>
      let g := if exponential_norm w then map exp (g w) else g w in
      Ok (times_vector (l2_normalize (kernel_norm_axes w) (v w)) g)
  end.

(** The kernel after construction: build, then the weights of the first call. *)
Definition initial_kernel (per_channel exponential : bool) (l : layer) : res (tensor R) :=
  do w <- build per_channel exponential l; compute_weights w.

(** The trainable variables [v] and [g] after some training: any values of the same shapes. *)
Definition with_variables (w : wrapper) (v' : tensor R) (g' : list R) : wrapper :=
  {| normalize_per_output_channel := normalize_per_output_channel w; exponential_norm := exponential_norm w;
     kernel_norm_axes := kernel_norm_axes w; v := v'; g := g' |}.
