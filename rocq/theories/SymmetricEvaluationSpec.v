(** Independent vocabulary: symmetrised wave functions, symmetries of a matrix, statistics of a batch. *)
From Coq Require Import List ZArith Arith Reals.
From Verif Require Import Cplx AutoregressiveSpec ExactSpec SymmetrySpec.
Import ListNotations.

(** [log_phi] is a symmetrisation of [log_psi] by the transformations [Ts]: its weight is the mean of the weights of the images, and it does
    not change under the transformations. *)
Definition symmetrised (n : nat) (Ts : list (list Z -> list Z)) (log_psi log_phi : list Z -> C) : Prop :=
  Ts <> [] /\ Forall (permutes_configurations n) Ts /\
  (forall s, In s (spin_configs n) -> (weight (log_phi s) * INR (length Ts) = Rsum (fun T => weight (log_psi (T s))) Ts)%R) /\
  (forall s T, In s (spin_configs n) -> In T Ts -> log_phi (T s) = log_phi s).

(** The matrix does not change under the transformation. *)
Definition symmetry (n : nat) (T : list Z -> list Z) (H : list Z -> list Z -> C) : Prop :=
  forall s t, In s (spin_configs n) -> In t (spin_configs n) -> H (T s) (T t) = H s t.

(** A statistic of batches of configurations that does not change when a row is replaced by an image. *)
Definition row_invariant (n : nat) (Ts : list (list Z -> list Z)) (F : list (list Z) -> R) : Prop :=
  forall b1 s b2 T, Forall (fun r => In r (spin_configs n)) (b1 ++ s :: b2) -> In T Ts -> F (b1 ++ T s :: b2) = F (b1 ++ s :: b2).

(** The matrices of the two lattice Hamiltonians. *)
Definition lattice_matrix (pbc : bool) (shape : list nat) (H : list Z -> list Z -> C) : Prop :=
  (exists J h, H = ising_matrix J h pbc shape) \/ (exists rot, H = heisenberg_matrix rot pbc shape).
