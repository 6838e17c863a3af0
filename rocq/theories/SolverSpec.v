(** What the statements about one step of stochastic reconfiguration (C82) refer to. Vectors and matrices are given by their entries. *)
From Coq Require Import List Reals Arith.
From Verif Require Import Cplx ReconfigurationSpec.
Import ListNotations.
Local Open Scope nat_scope.

Definition hermitian (n : nat) (A : nat -> nat -> C) : Prop := forall i j, i < n -> j < n -> A j i = Cconj (A i j).
(** The quadratic form of a matrix, and positive definite matrices. *)
Definition form (n : nat) (A : nat -> nat -> C) (x : nat -> C) : C := Csum (fun i => Csum (fun j => (Cconj (x i) * A i j * x j)%C) (seq 0 n)) (seq 0 n).
Definition definite (n : nat) (A : nat -> nat -> C) : Prop := forall x, (exists i, i < n /\ x i <> C0) -> (0 < Re (form n A x))%R.
(** A vector solves a system, and systems that have one solution at most. *)
Definition solves (n : nat) (A : nat -> nat -> C) (b x : nat -> C) : Prop := forall i, i < n -> Csum (fun j => (A i j * x j)%C) (seq 0 n) = b i.
Definition singular (n : nat) (A : nat -> nat -> C) : Prop := exists x, (exists i, i < n /\ x i <> C0) /\ solves n A (fun _ => C0) x.
(** Lower triangular with positive numbers on the diagonal, and the product with its adjoint is A. *)
Definition cholesky_factor (n : nat) (A L : nat -> nat -> C) : Prop :=
  (forall i j, i < n -> j < n -> i < j -> L i j = C0) /\ (forall i, i < n -> Im (L i i) = 0%R /\ (0 < Re (L i i))%R) /\
  forall i j, i < n -> j < n -> Csum (fun k => (L i k * Cconj (L j k))%C) (seq 0 n) = A i j.
(** Eigenvalues with multiplicities: there are orthonormal eigenvectors to them. *)
Definition spectrum (n : nat) (A : nat -> nat -> C) (eigenvalues : list R) : Prop :=
  length eigenvalues = n /\ exists v : nat -> nat -> C,
    (forall p q, p < n -> q < n -> Csum (fun i => (Cconj (v p i) * v q i)%C) (seq 0 n) = if p =? q then C1 else C0) /\
    forall p i, p < n -> i < n -> Csum (fun j => (A i j * v p j)%C) (seq 0 n) = (RtoC (nth p eigenvalues 0%R) * v p i)%C.
(** The tensor of derivatives of one weight, flat and with the examples first. *)
Definition flat_derivatives {A} (f : C -> A) (B size : nat) (d : nat -> nat -> C) : list A := flat_map (fun i => map (fun k => f (d i k)) (seq 0 size)) (seq 0 B).
(** The matrix of the method: covariances of the derivatives over the examples, and the shift on the diagonal. *)
Definition shifted_covariance (O : list (list C)) (shift : C) (k l : nat) : C :=
  (covariance (length O) (fun i => nth k (nth i O []) C0) (fun i => nth l (nth i O []) C0) + (if k =? l then shift else C0))%C.
(** What the function of the jacobian returns for complex weights of the given shapes: real parts and imaginary parts in turns, with the number of examples. *)
Definition derivative_tensors (B : nat) (parts : list (list nat * (nat -> nat -> C))) : list (nat * list R) :=
  flat_map (fun p => [(B, flat_derivatives Re B (fold_right Nat.mul 1 (fst p)) (snd p)); (B, flat_derivatives Im B (fold_right Nat.mul 1 (fst p)) (snd p))]) parts.
