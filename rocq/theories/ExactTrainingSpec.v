(** Vocabulary for gradient descent on the energy. *)
From Coq Require Import List ZArith Reals.
From Verif Require Import Base Cplx Vec TrainingModel AutoregressiveSpec ExactSpec.
Import ListNotations.
Local Open Scope R_scope.

(** The energy of the machine with the weights [w]. *)
Definition energy_at (n : nat) (H : list Z -> list Z -> C) (log_psi : list R -> list Z -> C) (w : list R) : R := Re (expectation n H (log_psi w)).

(** [G] lists the derivatives of the energy with respect to the [d] weights. *)
Definition energy_gradient_is (n d : nat) (H : list Z -> list Z -> C) (log_psi : list R -> list Z -> C) (w G : list R) : Prop :=
  length G = d /\ forall i, (i < d)%nat -> derivable_pt_lim (fun v => energy_at n H log_psi (upd w i v)) (nth i w 0) (nth i G 0).

(** The optimizer after [k] updates, each with [c] times the gradient at the weights it has then. *)
Fixpoint gradient_steps {S} (O : optimizer S) (c : R) (grad : list R -> list R) (s : S) (k : nat) : S :=
  match k with
  | O => s
  | Datatypes.S j => let t := gradient_steps O c grad s j in apply_gradients O t (vscale c (grad (weights O t)))
  end.

Definition inner_product (d : nat) (a b : list R) : R := Rsum (fun i => nth i a 0 * nth i b 0) (seq 0 d).
Definition square_norm (d : nat) (a : list R) : R := inner_product d a a.

(** The loss of one sample is differentiable along every line through [w], with the slopes that its gradient gives. *)
Definition line_gradient (n d : nat) (log_psi : list R -> list Z -> C) (sample_gradient : list R -> list Z * C -> list R) (w : list R) : Prop :=
  (forall x, length (sample_gradient w x) = d) /\
  forall v s t, length v = d -> In s (spin_configs n) ->
    derivable_pt_lim (fun h => 2 * Re (log_psi (vadd w (vscale h v)) s * t)%C) 0 (inner_product d v (sample_gradient w (s, t))).

(** The energy rises at most [L]/2 |v|^2 above its linear approximation. *)
Definition smooth (n d : nat) (H : list Z -> list Z -> C) (log_psi : list R -> list Z -> C) (grad : list R -> list R) (L : R) : Prop :=
  forall w v, length w = d -> length v = d ->
    energy_at n H log_psi (vadd w v) <= energy_at n H log_psi w + inner_product d (grad w) v + L / 2 * square_norm d v.
