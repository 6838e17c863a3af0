(** Vocabulary for training runs with sampled batches. *)
From Coq Require Import List ZArith Reals.
From Verif Require Import Base Cplx Vec AutoregressiveSpec ObservableModel ObservableSpec ExactModel ExactSpec MonteCarloSpec.
Import ListNotations.
Local Open Scope R_scope.

Section Paths.
  Context (n d : nat) (H : list Z -> list Z -> C) (log_psi : list R -> list Z -> C) (sample_gradient : list R -> list Z * C -> list R).

  (** The gradient of the weights [w] for the batch [b]: the mean of the gradients of its rows, the coefficient of a row being conj(E_loc - mean E_loc) / B. *)
  Definition batch_gradient (w : list R) (b : list (list Z)) : list R :=
    let E := Cscale (/ INR (length b)) (Csum (local_energy n H (log_psi w)) b) in
    vscale (/ INR (length b))
      (vsum d (map (fun s => sample_gradient w (s, Cscale (/ INR (length b)) (Cconj (local_energy n H (log_psi w) s - E)%C))) b)).

  (** One step of length [a] with the batch [b], and the weights after steps with given batches. *)
  Definition descend (a : R) (w : list R) (b : list (list Z)) : list R := vadd w (vscale (- a) (batch_gradient w b)).
  Definition after (a : R) (w : list R) (bs : list (list (list Z))) : list R := fold_left (descend a) bs w.

  (** All sequences of [k] batches of [B] rows. *)
  Fixpoint all_paths (B k : nat) : list (list (list (list Z))) :=
    match k with
    | O => [[]]
    | S j => flat_map (fun b => map (cons b) (all_paths B j)) (all_batches n B)
    end.

  (** The probability of a sequence of batches, when the rows of every batch are drawn independently with the weights reached so far. *)
  Fixpoint path_probability (a : R) (w : list R) (bs : list (list (list Z))) : R :=
    match bs with
    | [] => 1
    | b :: t => independent n (log_psi w) b * path_probability a (descend a w b) t
    end.

  (** The average of a function of the weights after [k] steps from [w]. *)
  Definition average_after (a : R) (B k : nat) (w : list R) (f : list R -> R) : R :=
    Rsum (fun bs => path_probability a w bs * f (after a w bs)) (all_paths B k).
End Paths.
