(** Vocabulary for whole training runs. *)
From Coq Require Import List ZArith Reals.
From Verif Require Import Base Cplx OrderingModel OrderingSpec TensorModel AutoregressiveModel AutoregressiveSpec MachinesSpec GraphModel FastMachineModel
  FastMachineSpec ObservableModel ExactSpec.
Import ListNotations.

(** A machine the fast sampler can use: its layers are a graph the sampler accepts, and the machine is autoregressive with two categories. *)
Definition samplable (machine : tensor Z -> res (tensor (list C))) (shape : list nat) (model : graph * nat) : Prop :=
  (length shape = 1 \/ length shape = 2) /\ (exists construct, graph_of construct machine shape (fst model) (snd model)) /\
  well_shaped machine shape /\ autoregressive (volume shape) (seq 0 (volume shape)) (conditionals machine shape).

(** Rows of uniform random numbers, one per site. *)
Definition uniform_rows (n : nat) (us : list (list R)) : Prop := forall u, In u us -> length u = n /\ Forall (fun x => 0 <= x < 1)%R u.

(** The rows of random numbers that the batch number [c] uses, when a batch takes [runs] runs of [m] rows. *)
Definition rows_of_batch (random : nat -> nat -> list (list R)) (runs m c : nat) : list (list R) :=
  concat (map (fun i => random (c * runs + i) m) (seq 0 runs)).

(** Every run of the sampling function draws as many rows as asked for. *)
Definition fresh_rows (n : nat) (random : nat -> nat -> list (list R)) : Prop := forall k m, length (random k m) = m /\ uniform_rows n (random k m).

(** What back propagation computes at the weights [w]: the derivatives of the loss of one sample (optimization/loss.py) with respect to the [d] weights. *)
Definition loss_gradient (n d : nat) (log_psi : list R -> list Z -> C) (sample_gradient : list R -> list Z * C -> list R) (w : list R) : Prop :=
  (forall x, length (sample_gradient w x) = d) /\
  forall i s t, i < d -> In s (spin_configs n) ->
    derivable_pt_lim (fun v => 2 * Re (log_psi (upd w i v) s * t)%C)%R (nth i w 0%R) (nth i (sample_gradient w (s, t)) 0%R).
