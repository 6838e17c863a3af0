(** Training on all configurations: examples/basic_autoregressive_exact_gradient.py and examples/j1j2_2d_exact_4.py with their parts put together. *)
From Coq Require Import List ZArith Reals Bool Arith.
From Verif Require Import Base Cplx Vec TrainingModel ExactModel ExactCallbackModel.
Import ListNotations.

(** exact_variational.py:153-158 with examples/basic_autoregressive_exact_gradient.py:40-41 (fit_generator with workers=0 and max_queue_size=0): [n] training
    steps. Each step takes the next pair of the generator, whose arrays are filled with the weights of that moment when a cycle begins, and hands
    the optimizer the mean over the batch of the per sample gradients at the current weights. Simplification: the callbacks, which the example also
    runs, do not appear (their effect on the arrays is the matter of ExactCallbackModel.v). *)
Fixpoint exact_fit {S} (O : optimizer S) (sum : bool) (d : nat) (log_psi : list R -> list Z -> C) (sample_gradient : list R -> list Z * C -> list R)
    (g : exact * nat) (A : accumulating S) (n : nat) : res (exact * nat * accumulating S) :=
  match n with
  | O => Ok (g, A)
  | Datatypes.S k =>
      let w := weights O (inner A) in
      do r <- generator_next (log_psi w) g;
      let '(g', y) := r in
      do A' <- train_step O sum 0 (fun v => v) A (mean_gradient d sample_gradient w (combine (fst y) (snd y)));
      exact_fit O sum d log_psi sample_gradient g' A' k
  end.

(** examples/basic_autoregressive_exact_gradient.py:22-31 and 40-41: the optimizer is converted to the number of batches of one cycle and the steps
    are run from a new generator. [sum] is accumulate_sum_or_mean (True in the examples). *)
Definition train_exactly {S} (O : optimizer S) (sum : bool) (d : nat) (log_psi : list R -> list Z -> C) (sample_gradient : list R -> list Z * C -> list R)
    (e : exact) (s0 : S) (n : nat) : res (exact * nat * accumulating S) :=
  do A <- convert_to_accumulate O s0 (num_of_batch_until_full_cycle e);
  exact_fit O sum d log_psi sample_gradient (start_generator e) A n.

(** keras.optimizers.SGD(lr) with its default momentum 0 (not part of FlowKet): new_p = p - lr * g. *)
Definition sgd (lr : R) : optimizer (list R) :=
  {| weights := fun w => w; apply_gradients := fun w g => vadd w (vscale (- lr) g) |}.
