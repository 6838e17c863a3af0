(** Independent vocabulary for Markov chains on configurations. *)
From Coq Require Import List ZArith Reals Bool Arith.
From Verif Require Import Base Cplx AutoregressiveSpec ObservableModel ExactModel MetropolisModel.
Import ListNotations.
Local Open Scope R_scope.

(** [p] is the probability that [step] ends in [t] when the proposal is drawn uniformly from a list and the acceptance
    number uniformly from [0, 1): for every proposal the good numbers form an interval, [p] is the mean length. *)
Definition transition {D} (draws : list D) (step : D -> R -> list Z) (t : list Z) (p : R) : Prop :=
  exists good : D -> R * R,
    (forall d, In d draws -> 0 <= fst (good d) /\ fst (good d) <= snd (good d) /\ snd (good d) <= 1 /\
       forall u, 0 <= u < 1 -> (step d u = t <-> inside u (good d))) /\
    p = Rsum (fun d => len (good d)) draws / INR (length draws).

(** [K] is the transition matrix. *)
Definition kernel {D} (n : nat) (draws : list Z -> list D) (step : list Z -> D -> R -> list Z) (K : list Z -> list Z -> R) : Prop :=
  forall s t, In s (spin_configs n) -> In t (spin_configs n) -> transition (draws s) (step s) t (K s t).

Definition stochastic (n : nat) (K : list Z -> list Z -> R) : Prop :=
  forall s, In s (spin_configs n) -> (forall t, In t (spin_configs n) -> 0 <= K s t) /\ Rsum (K s) (spin_configs n) = 1.
Definition detailed_balance (n : nat) (pi : list Z -> R) (K : list Z -> list Z -> R) : Prop :=
  forall s t, In s (spin_configs n) -> In t (spin_configs n) -> pi s * K s t = pi t * K t s.
Definition stationary (n : nat) (pi : list Z -> R) (K : list Z -> list Z -> R) : Prop :=
  forall t, In t (spin_configs n) -> Rsum (fun s => pi s * K s t) (spin_configs n) = pi t.

(** All choices of one element from each list. *)
Fixpoint choices {A} (ls : list (list A)) : list (list A) :=
  match ls with
  | [] => [[]]
  | l :: t => flat_map (fun a => map (cons a) (choices t)) l
  end.
(** What the local and the exchange sampler draw from. *)
Definition sites (shape : list nat) : list (list nat) := choices (map (seq 0) shape).
Definition sites_and_moves (shape : list nat) : list (list (nat * Z)) :=
  choices (map (fun n => list_prod (seq 0 n) [-1; 0; 1]%Z) shape).

(** One chain in state [s], one sweep. *)
Definition one_chain {I} (sweep : I -> chains -> res (chains * nat)) (input : I) (log_psi : list Z -> C) (s : list Z) : list Z :=
  match sweep input {| sample := [s]; sample_machine_values := [log_psi s] |} with
  | Ok (st, _) => nth 0 (sample st) []
  | Err _ => []
  end.

Definition occurrences (t : list Z) (l : list (list Z)) : nat := count_occ (list_eq_dec Z.eq_dec) l t.

(** [g] lists the used connections of every configuration, whatever the other samples; there is at least one, all are configurations, and t occurs among
    those of s as often as s among those of t. *)
Definition symmetric_connectivity (n : nat) (op : operator) (g : list Z -> list (list Z)) : Prop :=
  (forall samples, samples <> [] -> (forall s, In s samples -> In s (spin_configs n)) ->
     exists c, find_conn op samples = Ok c /\
       forall i s, nth_error samples i = Some s ->
         used_connections c i = g s /\ count_true (at_sample i false (uses c)) = length (g s)) /\
  (forall s, In s (spin_configs n) -> g s <> [] /\ forall t, In t (g s) -> In t (spin_configs n)) /\
  (forall s t, In s (spin_configs n) -> In t (spin_configs n) -> occurrences t (g s) = occurrences s (g t)).

(** What a call of [__next__] returns: row [c * per_chain + j] of the batch is chain c after j + 1 groups of sweeps. *)
Definition next_facts {I} (log_psi : list Z -> C) (sweep : I -> chains -> res (chains * nat)) (draws : nat -> I)
    (batch_size num_of_chains unused discard_ratio t : nat) (st : chains) (r : next_result) : Prop :=
  let per_chain := (batch_size / num_of_chains)%nat in
  let warm_up := if (0 <? discard_ratio)%nat then (per_chain / discard_ratio * unused)%nat else 0%nat in
  let start := {| sample := sample st; sample_machine_values := map log_psi (sample st) |} in
  (0 < num_of_chains /\ batch_size = num_of_chains * per_chain /\ 0 < batch_size /\
   length (next_batch r) = batch_size /\
   (** the number of sweeps *)
   next_draw r = t + warm_up + per_chain * (unused + 1))%nat /\
  (** the cached values belong to the samples *)
  sample_machine_values (next_chains r) = map log_psi (sample (next_chains r)) /\
  (** the batch lists the samples chain by chain; the ratio counts the accepted proposals after the warm-up *)
  (exists st0 a0 accepted, run_sweeps sweep draws t warm_up start 0 = Ok (st0, a0) /\
     run_sweeps sweep draws (t + warm_up) (per_chain * (unused + 1)) st0 0 = Ok (next_chains r, accepted) /\
     acceptance_ratio r = INR accepted / INR (batch_size * (unused + 1)) /\
     (forall j, (j < per_chain)%nat -> exists stj aj,
        run_sweeps sweep draws (t + warm_up) ((j + 1) * (unused + 1)) st0 0 = Ok (stj, aj) /\
        forall c, (c < num_of_chains)%nat -> nth (c * per_chain + j) (next_batch r) [] = nth c (sample stj) [])) /\
  0 <= acceptance_ratio r <= 1.
