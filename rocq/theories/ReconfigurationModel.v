(** Model of optimizers/complex_values_optimizer.py, optimizers/utils.py, optimizers/stochastic_reconfiguration/linear_equations.py and
    optimizers/stochastic_reconfiguration/optimizer.py. Floating point numbers are exact real and complex numbers. What automatic differentiation
    gives is described by the matrix O of logarithmic derivatives (one row per example, one column per complex weight): forward mode multiplies by O,
    backward mode by the adjoint of O. *)
From Coq Require Import List ZArith Reals Bool Arith.
From Verif Require Import Base Cplx ComplexModel.
Import ListNotations.

(** * optimizers/utils.py *)

Definition size_of (shape : list nat) : nat := fold_right Nat.mul 1 shape.

(** utils.py:35-62 [column_to_tensors] for a list of templates, given by their shapes. Tensors are flat lists in row-major order together with their
    shape; the slice is cut at the end of the column and tf.reshape raises when the number of entries is wrong. *)
Fixpoint column_to_tensors_from {A} (offset : nat) (templates : list (list nat)) (colvec : list A) : res (list (list nat * list A)) :=
  match templates with
  | [] => Ok []
  | shape :: t =>
      let sz := size_of shape in
      let piece := slice colvec offset (offset + sz) in
      if length piece =? sz
      then do rest <- column_to_tensors_from (offset + sz) t colvec ; Ok ((shape, piece) :: rest)
      else Err ValueError
  end.
Definition column_to_tensors {A} (templates : list (list nat)) (colvec : list A) : res (list (list nat * list A)) :=
  column_to_tensors_from 0 templates colvec.

(** utils.py:65-76 [tensors_to_column]: every tensor reshaped to one column, put on top of each other. *)
Definition tensors_to_column {A} (tensors : list (list nat * list A)) : list A := concat (map snd tensors).

(** * optimizers/complex_values_optimizer.py *)

(** A Keras layer as the optimizer sees it: number of parameters and, for complex layers only, the lists of weight tensors they registered
    (layers/complex/base_layer.py:13-15). Other layers do not have these attributes. *)
Record layer := { params : nat; complex_weights : option (list (list nat * list R) * list (list nat * list R)) }.

(** complex_values_optimizer.py:18-25 [get_model_real_weights] and [get_model_imag_weights]. *)
Fixpoint get_model_weights (part : list (list nat * list R) * list (list nat * list R) -> list (list nat * list R)) (layers : list layer)
    : res (list (list nat * list R)) :=
  match layers with
  | [] => Ok []
  | l :: t =>
      if 0 <? params l then
        match complex_weights l with
        | Some w => do rest <- get_model_weights part t ; Ok (part w ++ rest)
        | None => Err AttributeError
        end
      else get_model_weights part t
  end.

(** complex_values_optimizer.py:8-9 [to_complex_tensors]: consecutive pairs; an odd one at the end is dropped. *)
Fixpoint to_complex_tensors (tensors : list (list R)) : list (list C) :=
  match tensors with
  | r :: i :: t => map2 (fun a b => (a, b)) r i :: to_complex_tensors t
  | _ => []
  end.

(** complex_values_optimizer.py:48-58 [apply_complex_gradient]: the new values of the real and of the imaginary variables. No constraint is set on
    the weights of the complex layers. *)
Definition apply_update (lr : R) (p g : list nat * list R) : list nat * list R := (fst p, map2 (fun a b => (a + lr * b)%R) (snd p) (snd g)).
Definition apply_complex_gradient (lr : R) (real_weights imag_weights : list (list nat * list R)) (flat_gradient : list C)
    : res (list (list nat * list R) * list (list nat * list R)) :=
  let conj_flat_gradient := map Cconj flat_gradient in
  do real_gradients <- column_to_tensors (map fst real_weights) (map Re conj_flat_gradient) ;
  do imag_gradients <- column_to_tensors (map fst imag_weights) (map Im conj_flat_gradient) ;
  let updated := map2 (apply_update lr) (real_weights ++ imag_weights) (real_gradients ++ imag_gradients) in
  Ok (firstn (length real_weights) updated, skipn (length real_weights) updated).

(** complex_values_optimizer.py:78-82 [from_complex_vector_to_tensors] followed by [tensors_to_column]: for every weight the real parts and then the
    imaginary parts (concatenation along the first axis of a row-major tensor). *)
Definition from_complex_vector_to_tensors (real_weights : list (list nat)) (v : list C) : res (list R) :=
  do r <- column_to_tensors real_weights (map Re v) ;
  do i <- column_to_tensors real_weights (map Im v) ;
  Ok (concat (map2 (fun a b => snd a ++ snd b) r i)).

(** * Vectors *)

Definition cadd (a b : list C) : list C := map2 Cplus a b.
Definition csub (a b : list C) : list C := map2 Cminus a b.
Definition cscale (c : C) (a : list C) : list C := map (Cmult c) a.
(** tensorflow.contrib.solvers util.dot: reduce_sum(conj(x) * y). *)
Definition dot (x y : list C) : C := Csum (fun z => z) (map2 (fun a b => (Cconj a * b)%C) x y).
(** linear_equations.py:92-93 [float_norm]: the norm of a complex vector (the cast to float32 is the identity here). *)
Definition float_norm (v : list C) : R := sqrt (Re (dot v v)).
(** tf.matmul of a matrix, given by its rows, with a column, *)
Definition matvec (m : list (list C)) (v : list C) : list C := map (fun row => Csum (fun z => z) (map2 Cmult row v)) m.
(** and with adjoint_a=True; [n] is the number of columns. *)
Definition adjoint_matvec (n : nat) (m : list (list C)) (v : list C) : list C :=
  map (fun k => Csum (fun z => z) (map2 (fun row x => (Cconj (nth k row C0) * x)%C) m v)) (range n).

(** * linear_equations.py *)

Record cg_state := { cg_i : nat; cg_x : list C; cg_r : list C; cg_p : list C; cg_gamma : C }.

Section CG.
  (** Arguments of [conjugate_gradient]: operator.apply, the preconditioner (linear_equations.py:38) and the iteration limit. *)
  Context (apply : list C -> list C) (preconditioner : option (list C -> list C)) (max_iter : option nat).

  (** linear_equations.py:87-90 [stopping_criterion] (true: go on); [tol] is already multiplied with the norm of r0. *)
  Definition stopping_criterion (tol : R) (i : nat) (state : cg_state) : bool :=
    let above := if Rlt_dec tol (float_norm (cg_r state)) then true else false in
    match max_iter with
    | None => above
    | Some m => (i <? m) && above
    end.

  (** linear_equations.py:95-110 [cg_step]. A division by zero gives nan or inf in the code; Cinv C0 is zero here, no theorem relies on it. *)
  Definition cg_step (i : nat) (state : cg_state) : cg_state :=
    let z := apply (cg_p state) in
    let alpha := (cg_gamma state / dot (cg_p state) z)%C in
    let x := cadd (cg_x state) (cscale alpha (cg_p state)) in
    let r := csub (cg_r state) (cscale alpha z) in
    match preconditioner with
    | None =>
        let gamma := dot r r in
        let beta := (gamma / cg_gamma state)%C in
        {| cg_i := i + 1; cg_x := x; cg_r := r; cg_p := cadd r (cscale beta (cg_p state)); cg_gamma := gamma |}
    | Some m =>
        let q := m r in
        let gamma := dot r q in
        let beta := (gamma / cg_gamma state)%C in
        {| cg_i := i + 1; cg_x := x; cg_r := r; cg_p := cadd q (cscale beta (cg_p state)); cg_gamma := gamma |}
    end.

  (** The while loop, 124-125; [None]: not finished after [fuel] tests of the criterion. *)
  Fixpoint cg_loop (fuel : nat) (tol : R) (i : nat) (state : cg_state) : option cg_state :=
    match fuel with
    | O => None
    | S f => if stopping_criterion tol i state then cg_loop f tol (i + 1) (cg_step i state) else Some state
    end.

  (** linear_equations.py:112-136: the start and the call of the loop. [x]: the initial guess. (The squeezes and reshapes turn columns into vectors and
      back.) *)
  Definition cg_start (rhs : list C) (x : option (list C)) : cg_state :=
    let x0 := match x with None => repeat C0 (length rhs) | Some x => x end in
    let r0 := match x with None => rhs | Some x => csub rhs (apply x) end in
    let p0 := match preconditioner with None => r0 | Some m => m r0 end in
    {| cg_i := 0; cg_x := x0; cg_r := r0; cg_p := p0; cg_gamma := dot r0 p0 |}.
  Definition conjugate_gradient (fuel : nat) (rhs : list C) (x : option (list C)) (tol : R) : option cg_state :=
    let state := cg_start rhs x in
    cg_loop fuel (tol * float_norm (cg_r state))%R 0 state.
End CG.

(** * stochastic_reconfiguration/optimizer.py *)

(** optimizer.py:111-114 [get_wave_function_jacobian_minus_mean]; [n]: number of complex weights. *)
Definition mean_grad (n : nat) (O : list (list C)) : list C :=
  map (fun k => (Csum (fun row => nth k row C0) O / RtoC (INR (length O)))%C) (range n).
Definition jacobian_minus_mean (n : nat) (O : list (list C)) : list (list C) := map (fun row => csub row (mean_grad n O)) O.

(** optimizer.py:60-63: the explicit matrix, from the centred jacobian [J]. *)
Definition s_matrix (n : nat) (diag_shift : C) (J : list (list C)) : list (list C) :=
  map (fun k => map (fun l =>
    (Csum (fun z => z) (map2 (fun a b => (Cconj (nth k a C0) * nth l b C0)%C) J J) / RtoC (INR (length J)) +
     (if k =? l then C1 else C0) * diag_shift)%C) (range n)) (range n).

(** optimizer.py:81-84: the product used by the iterative solver. *)
Definition covariance_vector_product (n : nat) (diag_shift : C) (J : list (list C)) (v : list C) : list C :=
  cadd (map (fun z => (z / RtoC (INR (length J)))%C) (adjoint_matvec n J (matvec J v))) (cscale diag_shift v).

(** optimizer.py:116-124: the product computed from forward and backward mode derivatives of the raw jacobian [O]. *)
Definition product_via_jvp (n : nat) (diag_shift : C) (O : list (list C)) (v : list C) : list C :=
  let jvp := matvec O v in
  let ok_remainder := Csum (fun z => z) (map2 Cmult v (mean_grad n O)) in
  let ok_v := map (fun z => (z - ok_remainder)%C) jvp in
  cadd (map (fun z => (z / RtoC (INR (length O)))%C) (adjoint_matvec n O ok_v)) (map (fun z => (z * diag_shift)%C) v).

(** optimizer.py:93-109 [get_energy_grad] without [use_energy_loss]: with the full jacobian, *)
Definition energy_grad (n : nat) (O : list (list C)) (targets : list C) : list C :=
  adjoint_matvec n (jacobian_minus_mean n O) (map Cconj targets).
(** and with compute_jvp_instead_of_full_jacobian: the vector of targets goes through [from_complex_vector_to_tensors], which cuts it into
    pieces of the sizes of the weights, and then through the forward mode product. *)
Definition jvp_energy_grad (weights : list (list nat)) (O : list (list C)) (targets : list C) : res (list C) :=
  do _ <- from_complex_vector_to_tensors weights (map Cconj targets) ;
  Ok (matvec O (firstn (fold_right (fun w k => size_of w + k) 0 weights) (map Cconj targets))).

(** optimizer.py:72-91: the iterative solver. tf.squeeze turns the gradient of a model with a single weight into a scalar, which tf.matmul
    rejects. Afterwards the solution, number of iterations and norm of the residual. *)
Definition solve_iteratively (fuel n : nat) (diag_shift : C) (tol : R) (max_iter : option nat) (J : list (list C)) (vector : list C)
    : res (option (list C * nat * R)) :=
  if n =? 1 then Err ValueError
  else Ok (match conjugate_gradient (covariance_vector_product n diag_shift J) None max_iter fuel vector None tol with
           | None => None
           | Some s => Some (cg_x s, cg_i s, float_norm (cg_r s))
           end).

(** optimizer.py:33-43 [get_updates]: the gradient is divided by the matrix, negated and given to [apply_complex_gradient]. [solution]: what the solver
    returned. *)
Definition get_updates (lr : R) (real_weights imag_weights : list (list nat * list R)) (solution : list C) :=
  apply_complex_gradient lr real_weights imag_weights (map (fun z => (z * (-1, 0)%R)%C) solution).
