(** Evaluation of a symmetrised wave function with batches of the unsymmetrised machine: experiments/run_evaluation.py:12-27,
    experiments/train.py:131-146, examples/ising.py:131-141, examples/evaluate_with_2d_obc_invariant.py:40-46. *)
From Coq Require Import List ZArith Arith Bool Reals.
From Verif Require Import Base Cplx ObservableModel SymmetryModel.
Import ListNotations.

(** run_evaluation.py:16-19, train.py:131-135, examples/ising.py:131-134: first the eight images, then the global flip. *)
Definition evaluation_model (model : list (array Z) -> res (list C)) : list (array Z) -> res (list C) :=
  make_up_down_invariant true (make_2d_obc_invariants true model).

(** [model.predict] (variational_monte_carlo.py:26) seen from one row: the value for the configuration [s]; [C0] if the model raises. *)
Definition predicted (model : list (array Z) -> res (list C)) (shape : list nat) (s : list Z) : C :=
  match model [(shape, s)] with Ok (z :: _) => z | _ => C0 end.

(** callbacks/monte_carlo/observable.py with observables/monte_carlo/sigma_z.py: the mean of a real observable over the rows of the batch. *)
Definition batch_mean (f : list Z -> R) (batch : list (list Z)) : R := Rmean (map f batch).
