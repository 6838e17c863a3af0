(** Convergence statistics as defined in Bayesian Data Analysis (third edition, pages 284-287), the reference the code names. *)
From Coq Require Import List Reals Arith.
From Verif Require Import Base Cplx.
Import ListNotations.
Local Open Scope R_scope.

Section Stats.
  (** m chains of n samples; psi j i is sample i of chain j. *)
  Context (m n : nat) (psi : nat -> nat -> R).
  Definition chain_mean (j : nat) : R := Rsum (psi j) (seq 0 n) / INR n.
  Definition overall_mean : R := Rsum chain_mean (seq 0 m) / INR m.
  Definition between : R := INR n / (INR m - 1) * Rsum (fun j => (chain_mean j - overall_mean) ^ 2) (seq 0 m).
  Definition chain_variance (j : nat) : R := Rsum (fun i => (psi j i - chain_mean j) ^ 2) (seq 0 n) / (INR n - 1).
  Definition within : R := Rsum chain_variance (seq 0 m) / INR m.
  Definition var_plus : R := (INR n - 1) / INR n * within + between / INR n.
  Definition variogram (t : nat) : R :=
    Rsum (fun j => Rsum (fun i => (psi j (i + t)%nat - psi j i) ^ 2) (seq 0 (n - t))) (seq 0 m) / (INR m * INR (n - t)).
  Definition rho (t : nat) : R := 1 - variogram t / (2 * var_plus).
  (** rho_1 + ... + rho_k. *)
  Definition rho_sum (k : nat) : R := Rsum rho (seq 1 k).
  (** The T of the book: the first odd number for which rho_{T+1} + rho_{T+2} is negative (both lags exist). *)
  Definition first_negative_pair (T : nat) : Prop :=
    Nat.Odd T /\ (T + 2 <= n - 1)%nat /\ rho (T + 1) + rho (T + 2) < 0 /\
    forall T', Nat.Odd T' -> (T' < T)%nat -> 0 <= rho (T' + 1) + rho (T' + 2).
  (** The effective sample size of the book for that T. *)
  Definition effective_size (T : nat) : R := INR (m * n) / (1 + 2 * rho_sum T).
End Stats.

(** Samples stored chain after chain. *)
Definition samples (n : nat) (values : list R) (j i : nat) : R := nth (j * n + i)%nat values 0.
