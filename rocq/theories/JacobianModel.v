(** Model of utils/jacobian.py: gradients of every example with respect to the weights of dense and convolution layers. Tensors are nested lists and
    the batch axis is left out (every operation of the file acts on each example alone). Floating point numbers are real or complex numbers. *)
From Coq Require Import List ZArith Reals Bool Arith.
From Verif Require Import Base Cplx.
Import ListNotations.

(** Exact layer types: the manager looks up [type(layer)] (jacobian.py:97-100, 130-135), subclasses are not found. *)
Inductive layer_type := Dense | ComplexDense | Conv1D | ComplexConv1D | Conv2D | ComplexConv2D | OtherLayer.
Inductive activation := NoActivation | Linear | OtherActivation.
Inductive padding := Valid | Same.
(** The attributes that are read. [dilation_rate] and [strides] have one entry for a 1D and two for a 2D layer; dense layers ignore them. *)
Record layer_config := { kind : layer_type; act : activation; pad : padding; strides : list nat; dilation_rate : list nat; use_bias : bool }.
Definition linear_activation (a : activation) : bool := match a with OtherActivation => false | _ => true end.

(** jacobian.py:97-102 [get_layer_jacobian] with the constructors, 27-29 and 50-57: the checks made before a jacobian is computed. *)
Definition check_layer (l : layer_config) : res unit :=
  match kind l with
  | OtherLayer => Err GenericException
  | Dense | ComplexDense => if linear_activation (act l) then Ok tt else Err AssertionError
  | _ =>
      if linear_activation (act l) then
        match pad l with
        | Same => Err AssertionError
        | Valid => if forallb (fun s => s =? 1) (strides l) then Ok tt else Err AssertionError
        end
      else Err AssertionError
  end.

Section Entries.
  (** The entries: real or complex numbers. *)
  Context {A : Type} (zero : A) (add mul : A -> A -> A).

  Definition total (l : list A) : A := fold_right add zero l.

  (** jacobian.py:31-37 [DenseJacobian.jacobian]: column times row, and the gradient itself for the bias. *)
  Definition dense_kernel_jacobian (input activations_grad : list A) : list (list A) := map (fun x => map (mul x) activations_grad) input.
  Definition dense_bias_jacobian (activations_grad : list A) : list A := activations_grad.

  (** tf.extract_image_patches of an image with one channel, padding VALID, strides one, patches of size (oh, ow) with rates (dh, dw). *)
  Definition extract_image_patches (oh ow dh dw : nat) (image : list (list A)) : list (list (list A)) :=
    map (fun x => map (fun y =>
        flat_map (fun a => map (fun b => nth (y + b * dw) (nth (x + a * dh) image []) zero) (range ow)) (range oh))
      (range (length (hd [] image) - (ow - 1) * dw)))
      (range (length image - (oh - 1) * dh)).

  (** jacobian.py:59-79 [ConvJacobian.jacobian] for a 2D layer: the kernel part. The patches have the size of the output, with the dilation of the layer
      as rates; one image per input channel (65-66); einsum 'bso,bixys->bxyio' (76). *)
  Definition conv2d_kernel_jacobian (dh dw filters : nat) (input activations_grad : list (list (list A))) : list (list (list (list A))) :=
    let oh := length activations_grad in
    let ow := length (hd [] activations_grad) in
    let channels := length (hd [] (hd [] input)) in
    let images := map (fun c => map (map (fun px => nth c px zero)) input) (range channels) in
    let patches := map (extract_image_patches oh ow dh dw) images in
    let grads := concat activations_grad in
    map (fun x => map (fun y => map (fun i => map (fun o =>
        total (map2 (fun g p => mul (nth o g zero) p) grads (nth y (nth x (nth i patches []) []) [])))
      (range filters)) (range channels))
      (range (length (hd [] (hd [] patches)))))
      (range (length (hd [] patches))).
  (** 80-81: the bias part, the sum over the spatial axes. *)
  Definition conv2d_bias_jacobian (filters : nat) (activations_grad : list (list (list A))) : list A :=
    map (fun o => total (map (fun g => nth o g zero) (concat activations_grad))) (range filters).

  (** jacobian.py:61-63, 77-78 and 39-42 [to_4d_shape]: a 1D layer is a 2D layer of width one. *)
  Definition conv1d_kernel_jacobian (d filters : nat) (input activations_grad : list (list A)) : list (list (list A)) :=
    map (fun row => nth 0 row []) (conv2d_kernel_jacobian d 1 filters (map (fun px => [px]) input) (map (fun g => [g]) activations_grad)).
  Definition conv1d_bias_jacobian (filters : nat) (activations_grad : list (list A)) : list A :=
    map (fun o => total (map (fun g => nth o g zero) activations_grad)) (range filters).
End Entries.

(** jacobian.py:105-111 [complex_values_jacobians_to_real_parts]: for every jacobian (here flat) its real and its imaginary part after conjugation. *)
Definition complex_values_jacobians_to_real_parts (jacobians : list (list C)) : list (list R) :=
  flat_map (fun j => [map Re (map Cconj j); map Im (map Cconj j)]) jacobians.

(** jacobian.py:114-123 [gradient_per_example]: the loop over the layers with parameters. [jac] gives, for a complex layer the flattened complex
    jacobians, for a real one the flattened real ones (kernel, and bias when used). The added axis is left out. *)
Inductive jacobians := RealJacobians (j : list (list R)) | ComplexJacobians (j : list (list C)).
Fixpoint gradient_per_example (layers : list (layer_config * jacobians)) : res (list (list R)) :=
  match layers with
  | [] => Ok []
  | (l, j) :: t =>
      do _ <- check_layer l ;
      do rest <- gradient_per_example t ;
      Ok (match j with
          | ComplexJacobians j => complex_values_jacobians_to_real_parts j
          | RealJacobians j => j
          end ++ rest)
  end.
(** The list a layer returns, 34-37 and 82-85. *)
Definition kernel_and_bias {A} (l : layer_config) (kernel bias : list A) : list (list A) := if use_bias l then [kernel; bias] else [kernel].
