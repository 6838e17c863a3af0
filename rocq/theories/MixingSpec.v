(** Independent vocabulary for the distribution of a Markov chain after some sweeps. *)
From Coq Require Import List ZArith Reals Bool Arith.
From Verif Require Import Base Cplx AutoregressiveSpec ExactSpec MetropolisModel MetropolisSpec.
Import ListNotations.
Local Open Scope R_scope.

Definition distribution (n : nat) (mu : list Z -> R) : Prop :=
  (forall s, In s (spin_configs n) -> 0 <= mu s) /\ Rsum mu (spin_configs n) = 1.

(** The distribution after [k] steps with transition matrix [K]. *)
Fixpoint after (n : nat) (K : list Z -> list Z -> R) (k : nat) (mu : list Z -> R) : list Z -> R :=
  match k with
  | O => mu
  | S k' => fun t => Rsum (fun s => after n K k' mu s * K s t) (spin_configs n)
  end.

(** Sum of the absolute differences, twice the total variation distance. *)
Definition distance (n : nat) (mu nu : list Z -> R) : R := Rsum (fun s => Rabs (mu s - nu s)) (spin_configs n).

(** A chain that starts in [s]. *)
Definition starts_in (s : list Z) (t : list Z) : R := if list_eq_dec Z.eq_dec t s then 1 else 0.

(** The part of a distribution on the configurations with a given property. *)
Definition weight (n : nat) (mu : list Z -> R) (P : list Z -> bool) : R := Rsum (fun s => if P s then mu s else 0) (spin_configs n).

(** The product of all spins. *)
Definition parity (s : list Z) : Z := fold_right Z.mul 1%Z s.

(** The distribution restricted to the configurations with a property and scaled to one. *)
Definition conditioned (n : nat) (pi : list Z -> R) (P : list Z -> bool) (s : list Z) : R := if P s then pi s / weight n pi P else 0.

(** [K] carries every start with property [P] to [pi], geometrically fast. *)
Definition converges_within (n : nat) (K : list Z -> list Z -> R) (P : list Z -> bool) (pi : list Z -> R) : Prop :=
  exists (N : nat) (eps : R), (0 < N)%nat /\ 0 < eps <= 1 /\
    forall mu k, distribution n mu -> (forall s, In s (spin_configs n) -> P s = false -> mu s = 0) ->
      distance n (after n K (k * N) mu) pi <= 2 * (1 - eps) ^ k.

(** The spins of one chain after [k] sweeps that start in [s], with the proposals [ds] and the acceptance numbers [us]. *)
Definition chain_after {D} (sweep : list D * list R -> chains -> res (chains * nat)) (log_psi : list Z -> C)
    (ds : list D) (us : list R) (k : nat) (s : list Z) : list Z :=
  match run_sweeps sweep (fun t => (match nth_error ds t with Some d => [d] | None => [] end, [nth t us 0])) 0 k
          {| sample := [s]; sample_machine_values := [log_psi s] |} 0 with
  | Ok (st, _) => nth 0 (sample st) []
  | Err _ => []
  end.

(** The product of the transition probabilities along a path. *)
Fixpoint path_weight (K : list Z -> list Z -> R) (s : list Z) (path : list (list Z)) : R :=
  match path with
  | [] => 1
  | t :: rest => K s t * path_weight K t rest
  end.
Definition paths (n k : nat) : list (list (list Z)) := choices (repeat (spin_configs n) k).
