(** Vocabulary for the statements about early stopping on bad eigen states: eigenvectors, overlaps, and the statistics of exact training. *)
From Coq Require Import List ZArith Reals Bool Arith String.
From Verif Require Import Base Cplx LatticeSpec AutoregressiveSpec ObservableModel ObservableSpec ExactModel ExactSpec CallbackModel ExactCallbackSpec.
Import ListNotations.
Local Open Scope R_scope.

(** H phi = lambda phi, for a vector phi that is not zero. *)
Definition eigenvector (n : nat) (H : list Z -> list Z -> C) (lambda : R) (phi : list Z -> C) : Prop :=
  (exists s, In s (spin_configs n) /\ phi s <> C0) /\
  forall s, In s (spin_configs n) -> apply_matrix n H phi s = (RtoC lambda * phi s)%C.

(** |<phi|psi>|^2 / (<phi|phi> <psi|psi>), psi given by its logarithm. *)
Definition fidelity (n : nat) (phi log_psi : list Z -> C) : R :=
  Cnorm2 (Csum (fun s => (Cconj (phi s) * Cexp (log_psi s))%C) (spin_configs n)) /
  (Rsum (fun s => Cnorm2 (phi s)) (spin_configs n) * norm2 n log_psi).

(** The energy, the variance of the real part of the local energy, and the mean square of its imaginary part. *)
Definition energy (n : nat) (H : list Z -> list Z -> C) (lp : list Z -> C) : R := Re (expectation n H lp).
Definition real_variance (n : nat) (H : list Z -> list Z -> C) (lp : list Z -> C) : R :=
  mean_over n lp (fun s => (Re (local_energy n H lp s) - energy n H lp) ^ 2).
Definition imaginary_square (n : nat) (H : list Z -> list Z -> C) (lp : list Z -> C) : R := mean_over n lp (fun s => Im (local_energy n H lp s) ^ 2).
Definition real_local_energies (n : nat) (H : list Z -> list Z -> C) (lp : list Z -> C) : Prop :=
  forall s, In s (spin_configs n) -> Im (local_energy n H lp s) = 0.

(** What an epoch of exact training logs (see C61), the times being any numbers. *)
Definition epoch_logs (n : nat) (H : list Z -> list Z -> C) (lp : list Z -> C) (e0 : option R) (a b c now : R) : logs :=
  (energy_logs n H lp e0 ++ magnetisation_logs n lp ++ time_logs a b c now)%list.

(** The callback asks a training that runs to stop at the end of the epoch. *)
Definition asks_to_stop (bound variance_tol relative_error_to_stop : R) (min_epoch epoch : nat) (l : logs) : Prop :=
  forall w, stop_training w = false ->
    exists w', on_epoch_end (BadEigenStateStopping bound variance_tol relative_error_to_stop min_epoch) epoch w l = Ok (w', l) /\
      stop_training w' = true /\ stopped_epoch w' = Some epoch.
(** The callback lets it go on. *)
Definition lets_continue (bound variance_tol relative_error_to_stop : R) (min_epoch epoch : nat) (l : logs) : Prop :=
  forall w, on_epoch_end (BadEigenStateStopping bound variance_tol relative_error_to_stop min_epoch) epoch w l = Ok (w, l).
