(** Vocabulary for the statements about the callbacks of exact training: expectation values written as sums over all configurations. *)
From Coq Require Import List ZArith Reals Bool Arith String.
From Verif Require Import Base Cplx LatticeSpec AutoregressiveSpec ObservableModel ObservableSpec ExactModel ExactSpec CallbackModel.
Import ListNotations.
Local Open Scope R_scope.

(** Mean of a function of the configuration in the state with log amplitudes [lp]. *)
Definition mean_over (n : nat) (lp : list Z -> C) (f : list Z -> R) : R := Rsum (fun s => probability n lp s * f s) (spin_configs n).
(** The magnetisation of a configuration. *)
Definition magnetisation (s : list Z) : R := IZR (sumZ s) / INR (List.length s).

(** What the energy callback should write: the energy, the variance of the real part of the local energy, and the error relative to a known energy. *)
Definition energy_logs (n : nat) (H : list Z -> list Z -> C) (lp : list Z -> C) (e0 : option R) : logs :=
  let E := Re (expectation n H lp) in
  [("energy/energy", E);
   ("energy/local_energy_variance", mean_over n lp (fun s => (Re (local_energy n H lp s) - E) * (Re (local_energy n H lp s) - E)))]%string ++
  match e0 with None => [] | Some x => [("energy/relative_error"%string, (x - E) / x)] end.
Definition magnetisation_logs (n : nat) (lp : list Z -> C) : logs :=
  [("observables/abs_sigma_z", mean_over n lp (fun s => Rabs (magnetisation s))); ("observables/sigma_z", mean_over n lp magnetisation)]%string.
(** Four consecutive moments: start, wave function known, local energy known, now. *)
Definition time_logs (a b c now : R) : logs :=
  [("times/wave_function_update", b - a); ("times/local_energy", c - b); ("times/gradients", now - c); ("times/total", now - a)]%string.

(** Batches per cycle for a requested batch size. *)
Definition cycle_length (n batch : nat) : nat := (2 ^ n / Nat.min batch (2 ^ n))%nat.
(** The number of the first step of the cycle that step [g] is in. *)
Definition cycle_start (cycle g : nat) : nat := (g / cycle * cycle)%nat.
Definition clock_monotone (t : nat -> R) : Prop := forall i j, (i <= j)%nat -> t i <= t j.
