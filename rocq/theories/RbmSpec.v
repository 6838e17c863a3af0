(** What the statements about restricted Boltzmann machines (C83) refer to: the textbook formula, derivatives of amplitudes, and averages over the exact distribution. *)
From Coq Require Import List ZArith Arith Reals.
From Verif Require Import Base OrderingModel OrderingSpec Cplx AutoregressiveSpec ObservableSpec ExactSpec ComplexSpec SymmetrySpec RbmModel.
Import ListNotations.
Local Open Scope nat_scope.

Definition spin (s : list Z) (i : nat) : C := RtoC (IZR (nth i s 0%Z)).
(** The weights of a machine: for RBM a matrix of n rows and alpha n columns, alpha n biases and n visible biases; for RBMSym alpha filters over the lattice, alpha biases, and one
    visible bias. *)
Definition fits (m : machine) (ws : list (list C)) : Prop :=
  let n := volume (input_dims m) in
  if symmetric m then map (@length C) ws = [n * alpha m; alpha m; 1] else map (@length C) ws = [n * (alpha m * n); alpha m * n; n].
(** What enters the hidden units. RBM: b_j + sum_v s_v W_vj. RBMSym: for filter u and translation t, b_u + sum_l s_(l + t) W_lu. *)
Definition hidden (m : machine) (ws : list (list C)) (s : list Z) : list C :=
  let n := volume (input_dims m) in
  let W := fun i => nth i (nth 0 ws []) C0 in
  let b := fun j => nth j (nth 1 ws []) C0 in
  if symmetric m then
    flat_map (fun u => map (fun t => (b u + Csum (fun l => spin s (row_major (input_dims m) (shifted (input_dims m) t l)) * W (row_major (input_dims m) l * alpha m + u)%nat) (raster (input_dims m)))%C)
      (raster (input_dims m))) (seq 0 (alpha m))
  else map (fun j => (b j + Csum (fun v => spin s v * W (v * (alpha m * n) + j)%nat) (seq 0 n))%C) (seq 0 (alpha m * n)).
(** The sum of the visible biases times the spins. *)
Definition visible (m : machine) (ws : list (list C)) (s : list Z) : C :=
  let a := fun v => nth v (nth 2 ws []) C0 in
  Csum (fun v => (spin s v * a (if symmetric m then 0 else v))%C) (seq 0 (volume (input_dims m))).
Definition Cprod (l : list C) : C := fold_right Cmult C1 l.
(** No hidden unit has a vanishing cosh: then the amplitude is not zero. *)
Definition nonzero (m : machine) (ws : list (list C)) (s : list Z) : Prop := forall z, In z (hidden m ws s) -> Ccosh z <> C0.

(** The amplitude exp (f t) moves with [d] times its value, and log |psi| with the real part of [d]. *)
Definition log_derivative (f : R -> C) (x : R) (d : C) : Prop :=
  Cderive (fun t => Cexp (f t)) x (Cexp (f x) * d)%C /\ derivable_pt_lim (fun t => Re (f t)) x (Re d).
(** Weights that move: every entry has its velocity. *)
Definition weights_move (ws : R -> list (list C)) (x : R) (vs : list (list C)) : Prop :=
  (forall t, map (@length C) (ws t) = map (@length C) vs) /\ forall i k, Cderive (fun t => nth k (nth i (ws t) []) C0) x (nth k (nth i vs []) C0).
(** A row times a column. *)
Definition row_times (n : nat) (row : nat -> C) (v : nat -> C) : C := Csum (fun k => (row k * v k)%C) (seq 0 n).

(** Averages over the distribution |psi(s)|^2 of all configurations. *)
Definition exact_mean (n : nat) (log_psi : list Z -> C) (f : list Z -> C) : C := Csum (fun s => (RtoC (probability n log_psi s) * f s)%C) (spin_configs n).
Definition exact_covariance (n : nat) (log_psi : list Z -> C) (f g : list Z -> C) : C :=
  exact_mean n log_psi (fun s => (Cconj (f s - exact_mean n log_psi f) * (g s - exact_mean n log_psi g))%C).
(** One row per example: its product with the velocities of the weights is the logarithmic derivative of the amplitude of this example. This determines the rows. *)
Definition logarithmic_derivatives (m : machine) (ws : list (list C)) (samples : list (list Z)) (O : list (list C)) : Prop :=
  length O = length samples /\ forall i, i < length samples ->
    length (nth i O []) = length (concat ws) /\
    forall path x vs, path x = ws -> weights_move path x vs ->
      log_derivative (fun t => prediction m (path t) (nth i samples [])) x (row_times (length (concat ws)) (fun k => nth k (nth i O []) C0) (fun k => nth k (concat vs) C0)).
(** The complex weights of pairs of variables (layers/complex/base_layer.py stores a complex number as its real part and minus its imaginary part). *)
Definition weight_values (reals imags : list (list nat * list R)) : list (list C) := map2 (fun r i => map2 (fun a b => (a, - b)%R) (snd r) (snd i)) reals imags.
(** The matrix of the method for the exact distribution. *)
Definition exact_matrix (n : nat) (log_psi : list Z -> C) (O : list Z -> list C) (shift : C) (k l : nat) : C :=
  (exact_covariance n log_psi (fun s => nth k (O s) C0) (fun s => nth l (O s) C0) + (if k =? l then shift else C0))%C.
Definition exact_force (n : nat) (H : list Z -> list Z -> C) (log_psi : list Z -> C) (O : list Z -> list C) (k : nat) : C :=
  exact_covariance n log_psi (fun s => nth k (O s) C0) (local_energy n H log_psi).
