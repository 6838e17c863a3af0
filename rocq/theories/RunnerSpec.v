(** Notions for the statements about the experiment scripts. *)
From Coq Require Import String List ZArith Reals Bool Arith.
From Verif Require Import Base Cplx AutoregressiveSpec ObservableSpec ExactSpec CheckpointModel CallbackModel CallbackSpec.
Import ListNotations.

(** The rows that [W] workers draw in the given number of steps, and what a correct sampler gives: [m] configurations of [n] spins each time. *)
Definition all_rows (batch : nat -> nat -> list (list Z)) (W steps : nat) : list (list Z) :=
  flat_map (fun k => flat_map (fun r => batch r k) (seq 0 W)) (seq 0 steps).
Definition samples (n m W steps : nat) (batch : nat -> nat -> list (list Z)) : Prop :=
  forall r k, r < W -> k < steps -> List.length (batch r k) = m /\ forall s, In s (batch r k) -> In s (spin_configs n).
Definition mean_rows (f : list Z -> R) (rows : list (list Z)) : R := (Rsum f rows / INR (List.length rows))%R.
Definition variance_rows (f : list Z -> R) (rows : list (list Z)) : R := mean_rows (fun s => (f s - mean_rows f rows) * (f s - mean_rows f rows))%R rows.

(** What an evaluation should print: the means over the rows of all workers ([W] for the energy, [own] for the rest), the error relative to the known
    energy [x]. The variance is the mean over the batches of the variance within the batch. *)
Definition reports (n : nat) (H : list Z -> list Z -> C) (log_phi : list Z -> C) (x : R) (batch : nat -> nat -> list (list Z)) (W own steps : nat)
    (r : logs) : Prop :=
  let local s := Re (local_energy n H log_phi s) in
  let E := mean_rows local (all_rows batch W steps) in
  lookup "energy/energy" r = Some E /\
  lookup "energy/relative_error" r = Some ((x - E) / x)%R /\
  lookup "energy/local_energy_variance" r = Some (average (fun k => variance_rows local (flat_map (fun r => batch r k) (seq 0 own))) steps) /\
  lookup "observables/sigma_z" r = Some (mean_rows (fun s => IZR (sumZ s) / INR n)%R (all_rows batch own steps)) /\
  lookup "observables/abs_sigma_z" r = Some (mean_rows (fun s => Rabs (IZR (sumZ s)) / INR n)%R (all_rows batch own steps)).
