(** Independent vocabulary for averages over random batches. *)
From Coq Require Import List ZArith Reals Bool.
From Verif Require Import Base Cplx AutoregressiveSpec ObservableModel ObservableSpec ExactModel ExactSpec.
Import ListNotations.
Local Open Scope R_scope.

(** All batches of [B] configurations of [n] spins. *)
Fixpoint all_batches (n B : nat) : list (list (list Z)) :=
  match B with
  | O => [[]]
  | S k => flat_map (fun s => map (cons s) (all_batches n k)) (spin_configs n)
  end.

(** The probability of a batch whose rows are drawn independently from |psi|^2 / <psi|psi>. *)
Definition independent (n : nat) (log_psi : list Z -> C) (batch : list (list Z)) : R := Rprod (probability n log_psi) batch.

(** A probability distribution of batches of [B] rows each of which, taken alone, is distributed as |psi|^2 / <psi|psi>: independent
    rows, or the rows of Markov chains in equilibrium. *)
Definition right_marginals (n B : nat) (log_psi : list Z -> C) (law : list (list Z) -> R) : Prop :=
  forall k s, (k < B)%nat -> In s (spin_configs n) ->
    Rsum (fun b => if list_eq_dec Z.eq_dec (nth k b []) s then law b else 0) (all_batches n B) = probability n log_psi s.

(** Averages over batches. *)
Definition average_over (law : list (list Z) -> R) (n B : nat) (f : list (list Z) -> R) : R := Rsum (fun b => law b * f b) (all_batches n B).
Definition Caverage_over (law : list (list Z) -> R) (n B : nat) (f : list (list Z) -> C) : C :=
  Csum (fun b => Cscale (law b) (f b)) (all_batches n B).

(** Averages over one configuration. *)
Definition mean_config (n : nat) (log_psi : list Z -> C) (f : list Z -> R) : R := Rsum (fun s => probability n log_psi s * f s) (spin_configs n).

(** The fluctuation of the local energy, and of its real part. *)
Definition fluctuation (n : nat) (H : list Z -> list Z -> C) (log_psi : list Z -> C) : R :=
  mean_config n log_psi (fun s => Cnorm2 (local_energy n H log_psi s - expectation n H log_psi)%C).
Definition real_fluctuation (n : nat) (H : list Z -> list Z -> C) (log_psi : list Z -> C) : R :=
  mean_config n log_psi (fun s => (Re (local_energy n H log_psi s) - Re (expectation n H log_psi)) ^ 2).

(** The product of two matrices over the configurations. *)
Definition matrix_product (n : nat) (G H : list Z -> list Z -> C) (s t : list Z) : C := Csum (fun u => (G s u * H u t)%C) (spin_configs n).
