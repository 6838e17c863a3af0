(** Vocabulary for one cycle of training on all configurations. *)
From Coq Require Import List ZArith Reals.
From Verif Require Import Base Cplx Vec TrainingModel ExactModel ExactCallbackModel ExactTrainingModel ExactTrainingSpec.
Local Open Scope R_scope.

(** The energy after one cycle of stochastic gradient descent with a small learning rate is lower, unless its gradient [G] is zero. *)
Definition cycle_lowers (n : nat) (H : list Z -> list Z -> C) (log_psi : list R -> list Z -> C) (sample_gradient : list R -> list Z * C -> list R) (sum : bool) (e : exact) (w : list R) : Prop :=
  exists G, energy_gradient_is n (length w) H log_psi w G /\
    (G <> vzero (length w) -> exists delta, 0 < delta /\ forall lr, 0 < lr < delta -> exists g A,
       train_exactly (sgd lr) sum (length w) log_psi sample_gradient e w (num_of_batch_until_full_cycle e) = Ok (g, A) /\
       energy_at n H log_psi (inner A) < energy_at n H log_psi w).
