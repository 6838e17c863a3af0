(** Independent vocabulary for exact enumeration. *)
From Coq Require Import List ZArith Reals Bool Permutation.
From Verif Require Import Base Cplx LatticeSpec AutoregressiveSpec ObservableModel ObservableSpec ExactModel.
Import ListNotations.
Local Open Scope R_scope.

(** <psi|psi>, <psi|H|psi>, their quotient and the probability of a configuration, psi given by its logarithm. *)
Definition norm2 (n : nat) (log_psi : list Z -> C) : R := Rsum (fun s => born (log_psi s)) (spin_configs n).
Definition braket (n : nat) (H : list Z -> list Z -> C) (psi : list Z -> C) : C :=
  Csum (fun s => (Cconj (psi s) * apply_matrix n H psi s)%C) (spin_configs n).
Definition expectation (n : nat) (H : list Z -> list Z -> C) (log_psi : list Z -> C) : C :=
  Cscale (/ norm2 n log_psi) (braket n H (fun s => Cexp (log_psi s))).
Definition probability (n : nat) (log_psi : list Z -> C) (s : list Z) : R := born (log_psi s) / norm2 n log_psi.

Definition hermitian (n : nat) (H : list Z -> list Z -> C) : Prop :=
  forall s t, In s (spin_configs n) -> In t (spin_configs n) -> H s t = Cconj (H t s).

(** The operator represents the matrix H on every non empty batch of configurations, within its declared number of connections,
    and returns configurations of the right size. *)
Definition operator_represents (n : nat) (H : list Z -> list Z -> C) (op : operator) : Prop :=
  forall samples, samples <> [] -> (forall s, In s samples -> In s (spin_configs n)) ->
  exists K c, find_conn op samples = Ok c /\ (0 < K)%nat /\ represents n K H samples c /\
    (forall k, declared_max op = Some k -> (K <= k)%nat) /\
    (forall row s, In row (conns c) -> In s row -> length s = n).

(** The object after construction and evaluations of some machines. *)
Fixpoint update_all (machines : list (list Z -> C)) (e : exact) : res exact :=
  match machines with
  | [] => Ok e
  | m :: t => do e' <- machine_updated m e; update_all t e'
  end.
Definition built (n : nat) (op : operator) (batch : nat) (past : list (list Z -> C)) (e : exact) : Prop :=
  exists e0, new_exact n op batch = Ok e0 /\ update_all past e0 = Ok e.

(** A batch size that the constructor accepts. *)
Definition good_batch_size (n batch : nat) : Prop := (0 < batch)%nat /\ (2 ^ n mod (Nat.min batch (2 ^ n)) = 0)%nat.

(** Derivative of a complex valued function of a real parameter. *)
Definition Cderive (f : R -> C) (x : R) (d : C) : Prop :=
  derivable_pt_lim (fun t => Re (f t)) x (Re d) /\ derivable_pt_lim (fun t => Im (f t)) x (Im d).

(** The coefficient that belongs to a configuration: p(s) conj(E_loc(s) - <H>). *)
Definition gradient_coefficient (n : nat) (H : list Z -> list Z -> C) (log_psi : list Z -> C) (s : list Z) : C :=
  (RtoC (probability n log_psi s) * Cconj (local_energy n H log_psi s - expectation n H log_psi))%C.

(** The energy the object reports after evaluating a machine. *)
Definition reported_energy (e : exact) (log_psi : list Z -> C) : C :=
  match machine_updated log_psi e with Ok e' => current_energy e' | Err _ => C0 end.

(** The losses of the batches of a cycle, added up; the targets are the coefficients. *)
Definition cycle_loss (batches : list (list (list Z) * list C)) (log_psi : list Z -> C) : R :=
  Rsum (fun b => batch_loss (snd b) (map log_psi (fst b))) batches.

(** The matrices of the Ising and the Heisenberg operator. *)
Definition ising_matrix (J h : R) (pbc : bool) (shape : list nat) (s t : list Z) : C :=
  RtoC (ising_element J h (shape_bonds shape pbc) s t).
Definition heisenberg_matrix (rot pbc : bool) (shape : list nat) (s t : list Z) : C :=
  RtoC (IZR (heisenberg_element (if rot then -2 else 2) (shape_bonds shape pbc) s t)).
