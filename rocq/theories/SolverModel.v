(** One step of ComplexValuesStochasticReconfiguration with any of its options: the explicit jacobian, the direct solvers, the statistics of the matrix, the metrics and the
    choice between the branches. Continues ReconfigurationModel.v; floating point numbers are exact. *)
From Coq Require Import String List ZArith Reals Bool Arith.
From Verif Require Import Base Cplx IsingModel ReconfigurationModel.
Import ListNotations.
Local Open Scope nat_scope.

(** * The explicit jacobian *)

(** tf.reshape(tensor, [first_dim, -1]) of a flat tensor. With no examples the size of -1 is not determined and tensorflow raises InvalidArgumentError. The errors of tensorflow
    kernels are [GenericException]. *)
Definition reshape_rows {A} (first_dim : nat) (t : list A) : res (list (list A)) :=
  if (first_dim =? 0) || negb (length t mod first_dim =? 0) then Err GenericException
  else let width := length t / first_dim in Ok (map (fun b => slice t (b * width) ((b + 1) * width)) (range first_dim)).
(** utils.py:81-92 [tensors_to_matrix] for a list; tf.concat of nothing raises. *)
Definition tensors_to_matrix {A} (tensors : list (list A)) (first_dim : nat) : res (list (list A)) :=
  match tensors with
  | [] => Err ValueError
  | _ => do parts <- mapM (reshape_rows first_dim) tensors ; Ok (map (fun b => concat (map (fun p => nth b p []) parts)) (range first_dim))
  end.
(** complex_values_optimizer.py:72-76 [get_predictions_jacobian]. [jacobian_real]: what the function predictions_jacobian returns, one tensor (number of examples, flat data) for each
    weight; [None]: no function was given. *)
Definition get_predictions_jacobian (jacobian_real : option (list (nat * list R))) : res (list (list C)) :=
  match jacobian_real with
  | None => Err AssertionError
  | Some [] => Err IndexError
  | Some ((first_dim, t) :: rest) => tensors_to_matrix (to_complex_tensors (map snd ((first_dim, t) :: rest))) first_dim
  end.

(** * The direct solvers *)

(** tensorflow.linalg.cholesky, by its algorithm (Eigen's LLT): it reads the real parts of the diagonal and the lower triangle, and raises when a pivot is not positive. Matrices
    are given by their entries. *)
Fixpoint cholesky (n : nat) (A : nat -> nat -> C) : option (nat -> nat -> C) :=
  match n with
  | O => Some (fun _ _ => C0)
  | S m =>
      if Rlt_dec 0 (Re (A 0 0)) then
        let d := RtoC (sqrt (Re (A 0 0))) in
        let c := fun i => (A (S i) 0 / d)%C in
        match cholesky m (fun i j => (A (S i) (S j) - c i * Cconj (c j))%C) with
        | None => None
        | Some L => Some (fun i j => match i, j with O, O => d | O, S _ => C0 | S i', O => c i' | S i', S j' => L i' j' end)
        end
      else None
  end.
(** tensorflow.linalg.cholesky_solve: forward and backward substitution with the factor. *)
Fixpoint forward_substitution (n : nat) (L : nat -> nat -> C) (b : list C) : list C :=
  match n, b with
  | S m, b0 :: b' =>
      let y := (b0 / L 0 0)%C in
      y :: forward_substitution m (fun i j => L (S i) (S j)) (map2 (fun i z => (z - L (S i) 0 * y)%C) (range m) b')
  | _, _ => []
  end.
Fixpoint backward_substitution (n : nat) (L : nat -> nat -> C) (y : list C) : list C :=
  match n, y with
  | S m, y0 :: y' =>
      let x := backward_substitution m (fun i j => L (S i) (S j)) y' in
      ((y0 - Csum (fun i => (Cconj (L (S i) 0) * nth i x C0)%C) (range m)) / Cconj (L 0 0))%C :: x
  | _, _ => []
  end.
Definition cholesky_solve (n : nat) (L : nat -> nat -> C) (b : list C) : list C := backward_substitution n L (forward_substitution n L b).

(** tensorflow.linalg.solve, by its algorithm (Gaussian elimination with the largest pivot of each column); it raises when a pivot is zero. An equation is a row of coefficients and
    a right hand side. The order of the equations that remain is not that of the library, which has no influence on the solution. *)
Definition equation := (list C * C)%type.
Definition leading (e : equation) : C := nth 0 (fst e) C0.
Fixpoint largest (es : list equation) : option (equation * list equation) :=
  match es with
  | [] => None
  | e :: t =>
      match largest t with
      | None => Some (e, [])
      | Some (p, rest) => if Rlt_dec (Cnorm2 (leading e)) (Cnorm2 (leading p)) then Some (p, e :: rest) else Some (e, p :: rest)
      end
  end.
Definition eliminate (p e : equation) : equation :=
  let factor := (leading e / leading p)%C in
  (map2 (fun a b => (a - factor * b)%C) (tl (fst e)) (tl (fst p)), (snd e - factor * snd p)%C).
Fixpoint solve (n : nat) (es : list equation) : option (list C) :=
  match n with
  | O => Some []
  | S m =>
      match largest es with
      | None => None
      | Some (p, rest) =>
          if Req_EM_T (Cnorm2 (leading p)) 0 then None
          else match solve m (map (eliminate p) rest) with
               | None => None
               | Some x => Some (((snd p - Csum (fun z => z) (map2 Cmult (tl (fst p)) x)) / leading p)%C :: x)
               end
      end
  end.

(** optimizer.py:58-59: the matrix without the shift, *)
Definition gram_matrix (n : nat) (J : list (list C)) : list (list C) :=
  map (fun k => map (fun l => (Csum (fun z => z) (map2 (fun a b => (Cconj (nth k a C0) * nth l b C0)%C) J J) / RtoC (INR (length J)))%C) (range n)) (range n).
(** and optimizer.py:55-67 [..._directly]. *)
Definition solve_directly (use_cholesky : bool) (n : nat) (diag_shift : C) (J : list (list C)) (vector : list C) : res (list C) :=
  let s := map2 (fun k row => map2 (fun l z => (z + (if k =? l then C1 else C0) * diag_shift)%C) (range n) row) (range n) (gram_matrix n J) in
  if use_cholesky then
    match cholesky n (fun i j => nth j (nth i s []) C0) with
    | Some L => Ok (cholesky_solve n L vector)
    | None => Err GenericException
    end
  else match solve n (combine s vector) with
       | Some x => Ok x
       | None => Err GenericException
       end.

(** * The statistics of the matrix *)

(** optimizer.py:174-183 [_update_s_matrix_stats]. [epsilon]: K.epsilon(), 1e-7 unless changed. [eigvals]: what tf.linalg.eigvalsh returns for [s]. The minimum of nothing is infinite
    ([None]), the maximum of nothing is minus infinity, which no absolute value is below: with no weights there are no eigenvalues either. Afterwards the rank and the smallest
    eigenvalue; without add_s_matrix_stats the variables are not touched. *)
Definition reduce_max (l : list R) : R := fold_right Rmax 0%R l.
Definition reduce_min (l : list R) : option R := match l with [] => None | x :: t => Some (fold_right Rmin x t) end.
Definition s_matrix_stats (epsilon : R) (n : nat) (s : list (list C)) (eigvals : list R) : nat * option R :=
  let abs_eigvals := map Rabs eigvals in
  let tol := (epsilon * INR n * reduce_max (map Cmod (concat s)))%R in
  let filtered := filter (fun e => if Rlt_dec tol e then true else false) abs_eigvals in
  (length (filter (fun e => if Req_EM_T e 0 then false else true) filtered), reduce_min filtered).

(** * Options and metrics *)

(** optimizer.py:17-20: the options. *)
Record options := {
  diag_shift : C; iterative_solver : bool; compute_jvp_instead_of_full_jacobian : bool; use_energy_loss : bool; add_s_matrix_stats : bool;
  conjugate_gradient_tol : R; iterative_solver_max_iterations : option nat; use_cholesky : bool }.

Local Open Scope string_scope.
Local Open Scope list_scope.
Local Open Scope nat_scope.
(** optimizer.py:126-152 [metrics], by their names. *)
Definition metrics (o : options) : list string :=
  if iterative_solver o then ["stochastic_reconfiguration/conjugate_gradient_iterations"; "stochastic_reconfiguration/conjugate_gradient_residual_norm"]
  else if add_s_matrix_stats o then ["stochastic_reconfiguration/s_matrix_rank"; "stochastic_reconfiguration/s_matrix_min_eigval"]
  else [].

(** optimizer.py:33-43 [get_updates] up to the direction, with optimizer.py:45-53 and 69-109. [same_params]: whether the parameters that Keras gives are all weights of the model, in
    their order. [O]: the derivatives that automatic differentiation multiplies with, [loss_gradient]: the gradient of the loss computed with it. Where the jacobian is not computed, the
    product of the conjugate gradient method comes from derivatives. A single weight is rejected as in [solve_iteratively]. [fuel]: for the loop. *)
Definition direction (fuel : nat) (o : options) (same_params : bool) (weights : list (list nat)) (jacobian_real : option (list (nat * list R)))
    (O : list (list C)) (loss_gradient targets : list C) : res (option (list C)) :=
  let n := fold_right (fun w k => size_of w + k) 0 weights in
  if negb same_params then Err AssertionError else
  do J <- (if negb (iterative_solver o && compute_jvp_instead_of_full_jacobian o) then do m <- get_predictions_jacobian jacobian_real ; Ok (Some (jacobian_minus_mean n m)) else Ok None) ;
  do gradient <- (if use_energy_loss o then Ok loss_gradient
                  else match J with None => jvp_energy_grad weights O targets | Some J => Ok (adjoint_matvec n J (map Cconj targets)) end) ;
  match J with
  | Some J =>
      if iterative_solver o then
        do r <- solve_iteratively fuel n (diag_shift o) (conjugate_gradient_tol o) (iterative_solver_max_iterations o) J gradient ;
        Ok (option_map (fun r => fst (fst r)) r)
      else do x <- solve_directly (use_cholesky o) n (diag_shift o) J gradient ; Ok (Some x)
  | None =>
      if n =? 1 then Err ValueError
      else Ok (option_map cg_x (conjugate_gradient (product_via_jvp n (diag_shift o) O) None (iterative_solver_max_iterations o) fuel gradient None (conjugate_gradient_tol o)))
  end.

(** * Versions *)

(** Comparison of strings of python: by characters from the left. *)
Fixpoint string_le (a b : string) : bool :=
  match a, b with
  | EmptyString, _ => true
  | String _ _, EmptyString => false
  | String c a', String d b' =>
      let i := Ascii.nat_of_ascii c in let j := Ascii.nat_of_ascii d in
      if i <? j then true else if j <? i then false else string_le a' b'
  end.
(** complex_values_optimizer.py:40 and optimizer.py:169 [tf.__version__ >= '1.14']. *)
Definition is_new (version : string) : bool := string_le "1.14" version.
(** complex_values_optimizer.py:39-43: setting the learning rate. [has_set_hyper]: whether the class Optimizer of this version has the method. *)
Definition set_learning_rate (version : string) (has_set_hyper : bool) : res unit :=
  if is_new version then (if has_set_hyper then Ok tt else Err AttributeError) else Ok tt.
