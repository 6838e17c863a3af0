(** C64: how fast the Metropolis chains approach |psi|^2, and when they do not. *)
From Coq Require Import List ZArith Reals Bool Arith Lia Lra Permutation.
From Verif Require Import Base Cplx LatticeSpec IsingModel HeisenbergModel AutoregressiveSpec ObservableModel ObservableSpec ObservableProofs
  ExactModel ExactSpec ExactProofs MetropolisModel MetropolisSpec MetropolisProofs MetropolisUniqueProofs MetropolisProps
  MonteCarloProofs MixingSpec MixingProofs MixingSamplerProofs MixingExchangeProofs MixingHamiltonianProofs MixingTrajectoryProofs.
Import ListNotations.
Local Open Scope R_scope.

(** A chain driven by [run_sweeps] follows a path of configurations with the product of the transition probabilities: for
    given proposals the good acceptance numbers form a box, and the mean volume over the proposals is that product ... *)
Theorem C64_trajectory {D} (candidate : list Z -> D -> list Z) (log_psi : list Z -> C) (n : nat) (draws : list D) K path s :
  draws <> [] ->
  kernel n (fun _ => draws) (fun s d u => one_chain (symmetric_sweep candidate log_psi) ([d], [u]) log_psi s) K ->
  Forall (fun t => In t (spin_configs n)) path -> In s (spin_configs n) ->
  exists box : list D -> list (R * R),
    (forall ds, In ds (choices (repeat draws (length path))) ->
       length (box ds) = length path /\ Forall (fun iv => 0 <= fst iv /\ fst iv <= snd iv /\ snd iv <= 1) (box ds) /\
       forall us, length us = length path -> Forall (fun u => 0 <= u < 1) us ->
         ((forall j, (j < length path)%nat -> chain_after (symmetric_sweep candidate log_psi) log_psi ds us (S j) s = nth j path []) <->
          Forall2 inside us (box ds))) /\
    Rsum (fun ds => Rprod len (box ds)) (choices (repeat draws (length path))) / INR (length draws) ^ length path = path_weight K s path.
Proof. intros Hd HK F Hs. now apply (trajectory_boxes candidate log_psi n draws Hd K HK path F s). Qed.
Print Assumptions C64_trajectory.
Example C64_trajectory_example :
  spin_configs 2 <> [] /\ Forall (fun t => In t (spin_configs 2)) [[1; -1]; [1; -1]; [-1; -1]]%Z /\ In [1; 1]%Z (spin_configs 2) /\
  exists K, kernel 2 (fun _ => spin_configs 2) (fun s d u => one_chain (symmetric_sweep global_candidate (fun s => RtoC (IZR (sumZ s)))) ([d], [u]) (fun s => RtoC (IZR (sumZ s))) s) K.
Proof.
  split; [discriminate|]. split; [repeat constructor; cbn; tauto|]. split; [cbn; tauto|].
  destruct (C37_uniform 2 (fun s => RtoC (IZR (sumZ s)))) as (K & HK & _). now exists K.
Qed.
(** ... and the probability of a configuration after k sweeps is the sum over the paths that end there. *)
Theorem C64_sum_over_paths (n : nat) K k s t : In s (spin_configs n) -> In t (spin_configs n) ->
  after n K k (starts_in s) t = Rsum (fun p => if list_eq_dec Z.eq_dec (last p s) t then path_weight K s p else 0) (paths n k).
Proof. exact (after_paths n K k s t). Qed.
Print Assumptions C64_sum_over_paths.
Example C64_sum_over_paths_example : In [1; -1]%Z (spin_configs 2) /\ In [-1; -1]%Z (spin_configs 2) /\ length (paths 2 3) = 64%nat.
Proof. split; [cbn; tauto|]. split; [cbn; tauto|reflexivity]. Qed.

(** More sweeps never increase the distance to a stationary distribution ... *)
Theorem C64_never_farther (n : nat) K pi mu k : stochastic n K -> distribution n pi -> stationary n pi K -> distribution n mu ->
  distribution n (after n K k mu) /\ distance n (after n K (S k) mu) pi <= distance n (after n K k mu) pi.
Proof.
  intros HS Hpi HP Hmu. split; [now apply after_distribution|].
  now apply (distance_decreases n K pi HS HP).
Qed.
Print Assumptions C64_never_farther.
(** ... and the distance bounds the error of the mean of every bounded quantity. *)
Theorem C64_observables (n : nat) mu nu (f : list Z -> R) B : (forall s, In s (spin_configs n) -> Rabs (f s) <= B) ->
  Rabs (Rsum (fun s => mu s * f s) (spin_configs n) - Rsum (fun s => nu s * f s) (spin_configs n)) <= B * distance n mu nu.
Proof.
  intros HB. rewrite <- Rsum_minus. eapply Rle_trans; [apply Rabs_Rsum'|]. unfold distance. rewrite <- Rsum_scal. apply Rsum_le. intros s Hs.
  replace (mu s * f s - nu s * f s) with (f s * (mu s - nu s)) by ring. rewrite Rabs_mult. apply Rmult_le_compat_r; [apply Rabs_pos|now apply HB].
Qed.
Print Assumptions C64_observables.
Example C64_never_farther_example : exists K,
  stochastic 2 K /\ distribution 2 (probability 2 (fun s => RtoC (IZR (sumZ s)))) /\
  stationary 2 (probability 2 (fun s => RtoC (IZR (sumZ s)))) K /\ distribution 2 (starts_in [1; -1]%Z) /\
  forall s, In s (spin_configs 2) -> Rabs (IZR (sumZ s)) <= 2.
Proof.
  destruct (C37_uniform 2 (fun s => RtoC (IZR (sumZ s)))) as (K & HK & _). exists K. destruct (uniform_facts _ _ _ HK) as [A B].
  split; [exact A|]. split; [apply probability_distribution|]. split; [exact B|]. split; [apply starts_in_distribution; cbn; tauto|].
  intros s Hs. cbn in Hs. destruct Hs as [<-|[<-|[<-|[<-|[]]]]]; match goal with |- context [sumZ ?l] => let v := eval vm_compute in (sumZ l) in change (sumZ l) with v end; apply Rabs_le; lra.
Qed.

(** Uniform proposals: the distance shrinks by 1 - 1 / (2^n max p) with every sweep. *)
Theorem C64_uniform_converges (n : nat) (log_psi : list Z -> C) M K mu k :
  (forall s, In s (spin_configs n) -> probability n log_psi s <= M) ->
  kernel n (fun _ => spin_configs n)
    (fun s d u => one_chain (symmetric_sweep global_candidate log_psi) ([d], [u]) log_psi s) K ->
  distribution n mu ->
  0 < / (INR (2 ^ n) * M) <= 1 /\
  distance n (after n K k mu) (probability n log_psi) <= 2 * (1 - / (INR (2 ^ n) * M)) ^ k.
Proof. intros HM HK Hmu. split; [now apply (max_probability n log_psi)|now apply uniform_converges]. Qed.
Print Assumptions C64_uniform_converges.
Example C64_uniform_example : exists K,
  kernel 2 (fun _ => spin_configs 2)
    (fun s d u => one_chain (symmetric_sweep global_candidate (fun s => RtoC (IZR (sumZ s)))) ([d], [u]) (fun s => RtoC (IZR (sumZ s))) s) K /\
  (forall s, In s (spin_configs 2) -> probability 2 (fun s => RtoC (IZR (sumZ s))) s <= 1) /\ distribution 2 (starts_in [1; -1]%Z).
Proof.
  destruct (C37_uniform 2 (fun s => RtoC (IZR (sumZ s)))) as (K & HK & _). exists K. split; [exact HK|]. split.
  - intros s Hs. rewrite <- (Rsum_probability_configs 2 (fun s => RtoC (IZR (sumZ s)))). apply Rsum_in_le; [|exact Hs]. intros; left; apply probability_pos.
  - apply starts_in_distribution. cbn; tauto.
Qed.

(** Local moves converge geometrically, unless all amplitudes have the same modulus ... *)
Theorem C64_local_converges (shape : list nat) (log_psi : list Z -> C) K : Forall (fun m => (0 < m)%nat) shape ->
  (exists s t, In s (spin_configs (sites_of shape)) /\ In t (spin_configs (sites_of shape)) /\ born (log_psi s) <> born (log_psi t)) ->
  kernel (sites_of shape) (fun _ => sites shape)
    (fun s d u => one_chain (symmetric_sweep (local_candidate shape) log_psi) ([d], [u]) log_psi s) K ->
  converges_within (sites_of shape) K (fun _ => true) (probability (sites_of shape) log_psi).
Proof. exact (local_converges shape log_psi K). Qed.
Print Assumptions C64_local_converges.
Example C64_local_example : exists K,
  Forall (fun m => (0 < m)%nat) [2; 1]%nat /\ In [1; 1]%Z (spin_configs (sites_of [2; 1]%nat)) /\ In [1; -1]%Z (spin_configs (sites_of [2; 1]%nat)) /\
  born (RtoC (IZR (sumZ [1; 1]%Z))) <> born (RtoC (IZR (sumZ [1; -1]%Z))) /\
  kernel (sites_of [2; 1]%nat) (fun _ => sites [2; 1]%nat)
    (fun s d u => one_chain (symmetric_sweep (local_candidate [2; 1]%nat) (fun s => RtoC (IZR (sumZ s)))) ([d], [u]) (fun s => RtoC (IZR (sumZ s))) s) K.
Proof.
  assert (F : Forall (fun m => (0 < m)%nat) [2; 1]%nat) by (repeat constructor).
  destruct (C37_local [2; 1]%nat (fun s => RtoC (IZR (sumZ s))) F) as (K & HK & _). exists K. split; [exact F|]. split; [cbn; tauto|]. split; [cbn; tauto|].
  split; [|exact HK]. rewrite !born_exp. intros E. apply exp_inv in E. change (2 * 2 = 0 * 2) in E. lra.
Qed.
(** ... then every proposal is accepted, the product of the spins alternates with every sweep, and the chain never
    approaches |psi|^2. *)
Theorem C64_local_periodic_refuted (shape : list nat) (log_psi : list Z -> C) K s k : Forall (fun m => (0 < m)%nat) shape ->
  (forall s t, In s (spin_configs (sites_of shape)) -> In t (spin_configs (sites_of shape)) -> born (log_psi s) = born (log_psi t)) ->
  kernel (sites_of shape) (fun _ => sites shape)
    (fun s d u => one_chain (symmetric_sweep (local_candidate shape) log_psi) ([d], [u]) log_psi s) K ->
  In s (spin_configs (sites_of shape)) ->
  weight (sites_of shape) (after (sites_of shape) K k (starts_in s)) (fun t => (parity t =? parity s * (-1) ^ Z.of_nat k)%Z) = 1 /\
  1 <= distance (sites_of shape) (after (sites_of shape) K k (starts_in s)) (probability (sites_of shape) log_psi).
Proof. exact (local_periodic shape log_psi K s k). Qed.
Print Assumptions C64_local_periodic_refuted.
Example C64_local_periodic_example : exists K,
  Forall (fun m => (0 < m)%nat) [2; 3]%nat /\
  (forall s t : list Z, In s (spin_configs (sites_of [2; 3]%nat)) -> In t (spin_configs (sites_of [2; 3]%nat)) -> born (RtoC 0) = born (RtoC 0)) /\
  kernel (sites_of [2; 3]%nat) (fun _ => sites [2; 3]%nat)
    (fun s d u => one_chain (symmetric_sweep (local_candidate [2; 3]%nat) (fun _ => RtoC 0)) ([d], [u]) (fun _ => RtoC 0) s) K /\
  In [1; 1; -1; 1; -1; -1]%Z (spin_configs (sites_of [2; 3]%nat)).
Proof.
  assert (F : Forall (fun m => (0 < m)%nat) [2; 3]%nat) by (repeat constructor).
  destruct (C37_local [2; 3]%nat (fun _ => RtoC 0) F) as (K & HK & _). exists K. split; [exact F|]. split; [reflexivity|]. split; [exact HK|].
  apply spins_in. split; [reflexivity|]. repeat constructor; (left; reflexivity) || (right; reflexivity).
Qed.

(** Exchange moves converge, from every start, within the configurations with the same total spin ... *)
Theorem C64_exchange_converges (shape : list nat) (log_psi : list Z -> C) K m : Forall (fun m => (0 < m)%nat) shape ->
  (exists s, In s (spin_configs (sites_of shape)) /\ sumZ s = m) ->
  kernel (sites_of shape) (fun _ => sites_and_moves shape)
    (fun s d u => one_chain (symmetric_sweep (exchange_candidate shape) log_psi) ([d], [u]) log_psi s) K ->
  converges_within (sites_of shape) K (fun s => (sumZ s =? m)%Z)
    (conditioned (sites_of shape) (probability (sites_of shape) log_psi) (fun s => (sumZ s =? m)%Z)).
Proof. exact (exchange_converges shape log_psi K m). Qed.
Print Assumptions C64_exchange_converges.
(** ... and therefore never approach |psi|^2 on all configurations. *)
Theorem C64_exchange_refuted (shape : list nat) (log_psi : list Z -> C) K s k : Forall (fun m => (0 < m)%nat) shape ->
  kernel (sites_of shape) (fun _ => sites_and_moves shape)
    (fun s d u => one_chain (symmetric_sweep (exchange_candidate shape) log_psi) ([d], [u]) log_psi s) K ->
  In s (spin_configs (sites_of shape)) ->
  let sector := weight (sites_of shape) (probability (sites_of shape) log_psi) (fun t => (sumZ t =? sumZ s)%Z) in
  0 < 2 * (1 - sector) <= distance (sites_of shape) (after (sites_of shape) K k (starts_in s)) (probability (sites_of shape) log_psi).
Proof.
  intros F HK Hs. cbv zeta. set (n := sites_of shape) in *. set (p := probability n log_psi). set (Q := fun t => (sumZ t =? sumZ s)%Z).
  destruct (symmetric_facts (exchange_candidate shape) log_psi n (sites_and_moves shape) (moves_nonempty shape F) (exchange_spins shape)) with (K := K) as [HS _].
  { apply involution_symmetric, exchange_involution. }
  { exact HK. }
  set (mu := after n K k (starts_in s)).
  assert (Dm : distribution n mu) by (apply after_distribution; [exact HS|now apply starts_in_distribution]).
  assert (W : within n Q mu).
  { apply after_within.
    - intros x t Hx Ht Ex Et. unfold Q in *. apply Z.eqb_eq in Ex. apply Z.eqb_neq in Et. apply (C37_exchange_reducible shape log_psi K x t HK Hx Ht). congruence.
    - intros x Hx Ex. unfold starts_in. destruct (list_eq_dec Z.eq_dec x s) as [->|]; [|reflexivity]. unfold Q in Ex. now rewrite Z.eqb_refl in Ex. }
  assert (W1 : weight n mu Q = 1).
  { rewrite <- (proj2 Dm). apply Rsum_ext. intros x Hx. destruct (Q x) eqn:E; [reflexivity|]. symmetry. now apply W. }
  assert (W0 : weight n mu (fun x => negb (Q x)) = 0).
  { unfold weight. rewrite (Rsum_ext _ (fun _ => 0)); [apply Rsum_zero|]. intros x Hx. destruct (Q x) eqn:E; [reflexivity|]. now apply W. }
  assert (Sp : weight n p Q + weight n p (fun x => negb (Q x)) = 1).
  { rewrite <- (proj2 (probability_distribution n log_psi)). unfold weight. rewrite <- Rsum_plus. apply Rsum_ext. intros x _. fold p. destruct (Q x); cbn [negb]; lra. }
  assert (N0 : (0 < n)%nat).
  { unfold n. clear - F. induction F as [|m shape Hm F IH]; [cbn; lia|]. change (sites_of (m :: shape)) with (m * sites_of shape)%nat. nia. }
  assert (Other : exists y, In y (spin_configs n) /\ Q y = false).
  { apply spins_in in Hs. destruct Hs as [L Fs]. destruct s as [|a s]; [cbn [length] in L; lia|].
    exists ((- a)%Z :: s). inversion Fs as [|? ? Ha Fs']; subst. split.
    - apply spins_in. split; [exact L|]. constructor; [|exact Fs']. destruct Ha as [-> | ->]; [right|left]; reflexivity.
    - unfold Q. apply Z.eqb_neq. unfold sumZ. cbn [fold_right]. destruct Ha as [-> | ->]; lia. }
  destruct Other as (y & Hy & Qy).
  assert (Pos : 0 < weight n p (fun x => negb (Q x))) by (apply (weight_pos n log_psi (fun x => negb (Q x)) y Hy); cbv beta; now rewrite Qy).
  split; [lra|].
  assert (E : distance n mu p = Rsum (fun x => if Q x then Rabs (mu x - p x) else 0) (spin_configs n) +
              Rsum (fun x => if negb (Q x) then Rabs (mu x - p x) else 0) (spin_configs n)).
  { unfold distance. rewrite <- Rsum_plus. apply Rsum_ext. intros x _. destruct (Q x); cbn [negb]; lra. }
  pose proof (weight_distance n mu p Q) as D1. pose proof (weight_distance n mu p (fun x => negb (Q x))) as D2. cbv beta in D2.
  rewrite W1 in D1. rewrite W0 in D2.
  rewrite Rabs_right in D1 by lra. rewrite Rabs_left in D2 by lra. lra.
Qed.
Print Assumptions C64_exchange_refuted.
Example C64_exchange_example : exists K,
  Forall (fun m => (0 < m)%nat) [2; 3]%nat /\ In [1; 1; -1; 1; -1; -1]%Z (spin_configs (sites_of [2; 3]%nat)) /\ sumZ [1; 1; -1; 1; -1; -1]%Z = 0%Z /\
  kernel (sites_of [2; 3]%nat) (fun _ => sites_and_moves [2; 3]%nat)
    (fun s d u => one_chain (symmetric_sweep (exchange_candidate [2; 3]%nat) (fun _ => RtoC 0)) ([d], [u]) (fun _ => RtoC 0) s) K.
Proof.
  assert (F : Forall (fun m => (0 < m)%nat) [2; 3]%nat) by (repeat constructor).
  destruct (C37_exchange [2; 3]%nat (fun _ => RtoC 0) F) as (K & HK & _). exists K. split; [exact F|]. split; [|split; [reflexivity|exact HK]].
  apply spins_in. split; [reflexivity|]. repeat constructor; (left; reflexivity) || (right; reflexivity).
Qed.

(** The Hamiltonian sampler proposes one of the used connections. If the configuration itself is among them for one
    configuration, it converges within every set of configurations that the connections connect and do not leave ... *)
Theorem C64_hamiltonian_converges (n : nat) (op : operator) g (log_psi : list Z -> C) K (Q : list Z -> bool) :
  symmetric_connectivity n op g ->
  kernel n (fun s => range (length (g s))) (fun s d u => one_chain (hamiltonian_sweep op log_psi) ([d], [u]) log_psi s) K ->
  (forall s t, In s (spin_configs n) -> In t (g s) -> Q t = Q s) ->
  (forall P : list Z -> Prop, (forall s t, In s (spin_configs n) -> In t (g s) -> P s -> P t) ->
     forall s t, In s (spin_configs n) -> In t (spin_configs n) -> Q s = true -> Q t = true -> P s -> P t) ->
  (exists x, In x (spin_configs n) /\ Q x = true /\ In x (g x)) ->
  converges_within n K Q (conditioned n (probability n log_psi) Q).
Proof. intros G HK. exact (hamiltonian_converges n op g log_psi Q G K HK). Qed.
Print Assumptions C64_hamiltonian_converges.
(** ... for the Ising operator all configurations, for every coupling and field (also a zero field) ... *)
Theorem C64_ising_converges (J h : R) (pbc : bool) (shape : list nat) (log_psi : list Z -> C) : good_shape shape pbc ->
  exists g, symmetric_connectivity (sites_of shape) (ising_operator J h pbc shape) g /\
    forall K, kernel (sites_of shape) (fun s => range (length (g s)))
        (fun s d u => one_chain (hamiltonian_sweep (ising_operator J h pbc shape) log_psi) ([d], [u]) log_psi s) K ->
      converges_within (sites_of shape) K (fun _ => true) (probability (sites_of shape) log_psi).
Proof. exact (ising_sampler_converges J h pbc shape log_psi). Qed.
Print Assumptions C64_ising_converges.
(** ... for the Heisenberg operator those with the same total spin. *)
Theorem C64_heisenberg_converges (shape : list nat) (rot pbc : bool) batches H (log_psi : list Z -> C) : chain_or_grid shape ->
  run_calls (heisenberg_init shape rot pbc) batches = Ok H ->
  exists g, symmetric_connectivity (sites_of shape) (heisenberg_operator H) g /\
    forall K m, kernel (sites_of shape) (fun s => range (length (g s)))
        (fun s d u => one_chain (hamiltonian_sweep (heisenberg_operator H) log_psi) ([d], [u]) log_psi s) K ->
      (exists s, In s (spin_configs (sites_of shape)) /\ sumZ s = m) ->
      converges_within (sites_of shape) K (fun s => (sumZ s =? m)%Z)
        (conditioned (sites_of shape) (probability (sites_of shape) log_psi) (fun s => (sumZ s =? m)%Z)).
Proof. exact (heisenberg_sampler_converges shape rot pbc batches H log_psi). Qed.
Print Assumptions C64_heisenberg_converges.
Example C64_hamiltonian_example : good_shape [2; 3]%nat true /\ chain_or_grid [2; 2]%nat /\
  (exists H, run_calls (heisenberg_init [2; 2]%nat true false) [[[1; -1; 1; -1]]]%Z = Ok H) /\
  In [1; -1; 1; -1]%Z (spin_configs (sites_of [2; 2]%nat)) /\ sumZ [1; -1; 1; -1]%Z = 0%Z.
Proof.
  split; [right; exists 2%nat, 3%nat; repeat split; lia|]. split; [right; exists 2%nat, 2%nat; repeat split; lia|].
  split; [eexists; vm_compute; reflexivity|]. split; [cbn; tauto|reflexivity].
Qed.
