(** Training with sampled batches and plain stochastic gradient descent: the optimizer. *)
From Coq Require Import List Reals.
From Verif Require Import Base Cplx Vec TrainingModel.
Import ListNotations.
Local Open Scope R_scope.

(** examples/benchmark.py:49 [SGD(lr=args.learning_rate)]: keras.optimizers.SGD(lr) with its default momentum 0 (not part of FlowKet): new_p = p - lr * g, for a machine with [d] weights. The state is a list
    of which the first [d] entries are the weights (missing entries count as 0); a list of [d] entries stays one. *)
Definition sgd_of (d : nat) (lr : R) : optimizer (list R) :=
  {| weights := fun w => map (fun i => nth i w 0) (seq 0 d); apply_gradients := fun w g => vadd w (vscale (- lr) g) |}.
