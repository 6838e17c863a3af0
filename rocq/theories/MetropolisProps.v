(** Properties C37-C40: Metropolis sampling. *)
From Coq Require Import List ZArith Reals Bool Arith Lia Lra.
From Verif Require Import Base Cplx LatticeSpec IsingModel HeisenbergModel AutoregressiveSpec ObservableModel ObservableProofs ExactModel
  MetropolisModel MetropolisSpec MetropolisProofs MetropolisOperatorProofs MetropolisNextProofs MetropolisGlobalProofs MetropolisUniqueProofs.
Import ListNotations.
Local Open Scope R_scope.

(** The acceptance rule: a candidate is accepted iff u < min(1, |psi(candidate)|^2 / |psi(s)|^2). *)
Theorem C37_acceptance {D} (candidate : list Z -> D -> list Z) (log_psi : list Z -> C) s d u : 0 <= u < 1 ->
  one_chain (symmetric_sweep candidate log_psi) ([d], [u]) log_psi s =
  if Rlt_dec (u * born (log_psi s)) (born (log_psi (candidate s d))) then candidate s d else s.
Proof.
  intros Hu. rewrite sym_step. assert (P : 0 < born (log_psi s)) by (rewrite born_exp; apply exp_pos).
  assert (Q : exp ((Re (log_psi (candidate s d)) - Re (log_psi s)) * 2) * born (log_psi s) = born (log_psi (candidate s d))).
  { rewrite !born_exp, <- exp_plus. f_equal. ring. }
  unfold sym_accept, Rmin. destruct (Rle_dec _ _) as [L|L].
  - destruct (Rlt_dec u _), (Rlt_dec (u * _) _); auto; exfalso; nra.
  - rewrite exp_0. destruct (Rlt_dec u 1); [|lra]. destruct (Rlt_dec (u * _) _) as [|N]; [reflexivity|]. exfalso. apply N. clear N.
    assert (1 < exp ((Re (log_psi (candidate s d)) - Re (log_psi s)) * 2)) by (rewrite <- exp_0; apply exp_increasing; lra). nra.
Qed.
Print Assumptions C37_acceptance.
Example C37_acceptance_ex : 0 <= / 2 < 1 /\
  forall candidate : list Z -> nat -> list Z, one_chain (symmetric_sweep candidate (fun _ => C0)) ([7%nat], [/ 2]) (fun _ => C0) [1; -1]%Z = candidate [1; -1]%Z 7%nat.
Proof.
  split; [lra|]. intros c. rewrite C37_acceptance by lra. assert (born C0 = 1) as E by (rewrite born_exp; cbn; rewrite Rmult_0_r || rewrite Rmult_0_l; apply exp_0).
  rewrite E. destruct (Rlt_dec _ _); [reflexivity|lra].
Qed.

Theorem C37_local (shape : list nat) (log_psi : list Z -> C) : Forall (fun n => (0 < n)%nat) shape ->
  exists K, kernel (sites_of shape) (fun _ => sites shape)
              (fun s d u => one_chain (symmetric_sweep (local_candidate shape) log_psi) ([d], [u]) log_psi s) K /\
    stochastic (sites_of shape) K /\ detailed_balance (sites_of shape) (fun s => born (log_psi s)) K /\
    stationary (sites_of shape) (fun s => born (log_psi s)) K.
Proof.
  intros F. apply symmetric_chain; [now apply sites_nonempty|apply local_spins|]. apply involution_symmetric. intros s d _ _. apply local_involution.
Qed.
Print Assumptions C37_local.
Example C37_local_ex : Forall (fun n => (0 < n)%nat) [3; 4]%nat /\ length (sites [3; 4]%nat) = 12%nat.
Proof. split; [repeat constructor|reflexivity]. Qed.

Theorem C37_exchange (shape : list nat) (log_psi : list Z -> C) : Forall (fun n => (0 < n)%nat) shape ->
  exists K, kernel (sites_of shape) (fun _ => sites_and_moves shape)
              (fun s d u => one_chain (symmetric_sweep (exchange_candidate shape) log_psi) ([d], [u]) log_psi s) K /\
    stochastic (sites_of shape) K /\ detailed_balance (sites_of shape) (fun s => born (log_psi s)) K /\
    stationary (sites_of shape) (fun s => born (log_psi s)) K.
Proof.
  intros F. apply symmetric_chain; [now apply moves_nonempty|apply exchange_spins|]. apply involution_symmetric, exchange_involution.
Qed.
Print Assumptions C37_exchange.
Example C37_exchange_ex : Forall (fun n => (0 < n)%nat) [3; 4]%nat /\ length (sites_and_moves [4]%nat) = 12%nat.
Proof. split; [repeat constructor|reflexivity]. Qed.

Theorem C37_uniform (n : nat) (log_psi : list Z -> C) :
  exists K, kernel n (fun _ => spin_configs n)
              (fun s d u => one_chain (symmetric_sweep global_candidate log_psi) ([d], [u]) log_psi s) K /\
    stochastic n K /\ detailed_balance n (fun s => born (log_psi s)) K /\ stationary n (fun s => born (log_psi s)) K.
Proof.
  apply symmetric_chain; [apply spin_configs_nonempty|auto|]. intros s t Hs Ht. rewrite !map_id'. now rewrite !occurrences_configs.
Qed.
Print Assumptions C37_uniform.
Example C37_uniform_ex : length (spin_configs 4) = 16%nat.
Proof. reflexivity. Qed.

(** A transition matrix is determined by the step, so the matrices above are the ones of the code. *)
Theorem C37_kernel_unique {D} (n : nat) (draws : list Z -> list D) step K K' :
  kernel n draws step K -> kernel n draws step K' ->
  forall s t, In s (spin_configs n) -> In t (spin_configs n) -> K s t = K' s t.
Proof. intros H H' s t Hs Ht. eapply transition_unique; [now apply H|now apply H']. Qed.
Print Assumptions C37_kernel_unique.
Example C37_kernel_unique_ex : exists K, kernel 6 (fun _ => sites [2; 3]%nat)
  (fun s d u => one_chain (symmetric_sweep (local_candidate [2; 3]%nat) (fun _ => C0)) ([d], [u]) (fun _ => C0) s) K.
Proof. destruct (C37_local [2; 3]%nat (fun _ => C0)) as (K & H & _); [repeat constructor|]. exists K. exact H. Qed.

(** With local (or uniform) moves |psi|^2 is, up to a factor, the only stationary measure. *)
Theorem C37_local_only_stationary (shape : list nat) (log_psi : list Z -> C) K rho : Forall (fun n => (0 < n)%nat) shape ->
  kernel (sites_of shape) (fun _ => sites shape)
    (fun s d u => one_chain (symmetric_sweep (local_candidate shape) log_psi) ([d], [u]) log_psi s) K ->
  stationary (sites_of shape) rho K ->
  exists c, forall s, In s (spin_configs (sites_of shape)) -> rho s = c * born (log_psi s).
Proof.
  intros F. apply unique_stationary; [now apply sites_nonempty|apply local_spins| |apply local_reach].
  apply involution_symmetric. intros s d _ _. apply local_involution.
Qed.
Print Assumptions C37_local_only_stationary.
Example C37_local_only_stationary_ex : exists K rho, kernel 6 (fun _ => sites [2; 3]%nat)
  (fun s d u => one_chain (symmetric_sweep (local_candidate [2; 3]%nat) (fun _ => C0)) ([d], [u]) (fun _ => C0) s) K /\ stationary 6 rho K.
Proof. destruct (C37_local [2; 3]%nat (fun _ => C0)) as (K & H & _ & _ & S); [repeat constructor|]. exists K. eexists. split; [exact H|exact S]. Qed.
Theorem C37_uniform_only_stationary (n : nat) (log_psi : list Z -> C) K rho :
  kernel n (fun _ => spin_configs n)
    (fun s d u => one_chain (symmetric_sweep global_candidate log_psi) ([d], [u]) log_psi s) K ->
  stationary n rho K -> exists c, forall s, In s (spin_configs n) -> rho s = c * born (log_psi s).
Proof.
  apply unique_stationary; [apply spin_configs_nonempty|auto| |].
  - intros s t Hs Ht. rewrite !map_id'. now rewrite !occurrences_configs.
  - intros P HP s t Hs Ht Ps. exact (HP s t Hs Ht Ps).
Qed.
Print Assumptions C37_uniform_only_stationary.
Example C37_uniform_only_stationary_ex : exists K rho, kernel 3 (fun _ => spin_configs 3)
  (fun s d u => one_chain (symmetric_sweep global_candidate (fun _ => C0)) ([d], [u]) (fun _ => C0) s) K /\ stationary 3 rho K.
Proof. destruct (C37_uniform 3 (fun _ => C0)) as (K & H & _ & _ & S). exists K. eexists. split; [exact H|exact S]. Qed.

(** Exchange moves conserve the total spin ... *)
Theorem C37_exchange_conserves (shape : list nat) (log_psi : list Z -> C) s d u :
  In s (spin_configs (sites_of shape)) -> In d (sites_and_moves shape) ->
  let s' := one_chain (symmetric_sweep (exchange_candidate shape) log_psi) ([d], [u]) log_psi s in
  In s' (spin_configs (sites_of shape)) /\ sumZ s' = sumZ s.
Proof.
  intros Hs Hd. cbv zeta. rewrite sym_step. destruct (Rlt_dec u _); [|now split].
  split; [now apply exchange_spins|now apply exchange_sum].
Qed.
Print Assumptions C37_exchange_conserves.
Example C37_exchange_conserves_ex : In [-1; 1; 1; -1]%Z (spin_configs 4) /\ In [(0%nat, 1%Z)] (sites_and_moves [4]%nat) /\
  exchange_candidate [4]%nat [-1; 1; 1; -1]%Z [(0%nat, 1%Z)] = [1; -1; 1; -1]%Z.
Proof. vm_compute. tauto. Qed.
(** ... so a configuration with another total spin has probability 0 after any sweep, whatever the wave function: exchange
    moves from a random start do not sample |psi|^2. *)
Theorem C37_exchange_reducible (shape : list nat) (log_psi : list Z -> C) K s t :
  kernel (sites_of shape) (fun _ => sites_and_moves shape)
    (fun s d u => one_chain (symmetric_sweep (exchange_candidate shape) log_psi) ([d], [u]) log_psi s) K ->
  In s (spin_configs (sites_of shape)) -> In t (spin_configs (sites_of shape)) -> sumZ s <> sumZ t -> K s t = 0.
Proof.
  intros HK Hs Ht N. eapply transition_unique; [now apply HK|]. exists (fun _ => (0, 0)). split.
  - intros d Hd. cbn [fst snd]. split; [lra|]. split; [lra|]. split; [lra|]. intros u _. unfold inside. cbn [fst snd]. split; [|lra].
    intros E. exfalso. apply N. rewrite <- E. symmetry. now apply C37_exchange_conserves.
  - rewrite (Rsum_ext _ (fun _ => 0)) by (intros d _; unfold len; cbn [fst snd]; lra). rewrite Rsum_zero. unfold Rdiv. ring.
Qed.
Print Assumptions C37_exchange_reducible.
Example C37_exchange_reducible_ex : In [-1; 1; 1; -1]%Z (spin_configs 4) /\ In [1; 1; 1; 1]%Z (spin_configs 4) /\ sumZ [-1; 1; 1; -1]%Z <> sumZ [1; 1; 1; 1]%Z.
Proof. split; [vm_compute; tauto|]. split; [vm_compute; tauto|discriminate]. Qed.

(** In a sweep over several chains every chain makes its own step. *)
Theorem C37_chains_independent {D} (candidate : list Z -> D -> list Z) log_psi ds us st st' k i s d u :
  sample_machine_values st = map log_psi (sample st) ->
  symmetric_sweep candidate log_psi (ds, us) st = Ok (st', k) ->
  nth_error (sample st) i = Some s -> nth_error ds i = Some d -> nth_error us i = Some u ->
  nth_error (sample st') i = Some (one_chain (symmetric_sweep candidate log_psi) ([d], [u]) log_psi s).
Proof. exact (symmetric_sweep_chain candidate log_psi ds us st st' k i s d u). Qed.
Print Assumptions C37_chains_independent.
Example C37_example : Forall (fun n => (0 < n)%nat) [2; 3]%nat /\ length (sites [2; 3]%nat) = 6%nat /\
  In [(0%nat, (-1)%Z); (2%nat, 1%Z)] (sites_and_moves [2; 3]%nat) /\
  exchange_candidate [2; 3]%nat [1; 1; -1; -1; 1; 1]%Z [(0%nat, (-1)%Z); (2%nat, 1%Z)] = [1; 1; -1; -1; 1; 1]%Z /\
  exchange_candidate [2; 3]%nat [-1; 1; 1; -1; 1; 1]%Z [(0%nat, 0%Z); (2%nat, 1%Z)] = [1; 1; -1; -1; 1; 1]%Z /\
  local_candidate [2; 3]%nat [-1; 1; 1; -1; 1; 1]%Z [1; 2]%nat = [-1; 1; 1; -1; 1; -1]%Z.
Proof. split; [repeat constructor|]. vm_compute. repeat split; tauto. Qed.

(** C38: Hamiltonian moves. [g s] lists the used connections of s. *)
Theorem C38_hamiltonian (n : nat) (op : operator) g (log_psi : list Z -> C) : symmetric_connectivity n op g ->
  exists K, kernel n (fun s => range (length (g s)))
              (fun s d u => one_chain (hamiltonian_sweep op log_psi) ([d], [u]) log_psi s) K /\
    stochastic n K /\ detailed_balance n (fun s => born (log_psi s)) K /\ stationary n (fun s => born (log_psi s)) K.
Proof. exact (hamiltonian_chain n op g log_psi). Qed.
Print Assumptions C38_hamiltonian.
Example C38_hamiltonian_ex : exists g, symmetric_connectivity 6 (ising_operator 1 2 true [2; 3]%nat) g.
Proof. eexists. apply (ising_connectivity 1 2 true [2; 3]%nat). right. exists 2%nat, 3%nat. repeat split; lia. Qed.
Theorem C38_ising (J h : R) (pbc : bool) (shape : list nat) : good_shape shape pbc ->
  exists g, symmetric_connectivity (sites_of shape) (ising_operator J h pbc shape) g.
Proof. intros G. eexists. now apply ising_connectivity. Qed.
Print Assumptions C38_ising.
Example C38_ising_ex : good_shape [2; 3]%nat true.
Proof. right. exists 2%nat, 3%nat. repeat split; lia. Qed.
Theorem C38_heisenberg (shape : list nat) (rot pbc : bool) batches H : chain_or_grid shape ->
  run_calls (heisenberg_init shape rot pbc) batches = Ok H ->
  exists g, symmetric_connectivity (sites_of shape) (heisenberg_operator H) g.
Proof. exact (heisenberg_connectivity shape rot pbc batches H). Qed.
Print Assumptions C38_heisenberg.
Example C38_heisenberg_ex : chain_or_grid [4]%nat /\
  exists H, run_calls (heisenberg_init [4]%nat true false) [[[1; 1; -1; -1]%Z]; [[1; -1; 1; -1]%Z]] = Ok H.
Proof. split; [left; exists 4%nat; split; [reflexivity|lia]|]. eexists. vm_compute. reflexivity. Qed.
Theorem C38_chains_independent n op g log_psi ds us st : symmetric_connectivity n op g ->
  sample_machine_values st = map log_psi (sample st) -> sample st <> [] ->
  (forall s, In s (sample st) -> In s (spin_configs n)) ->
  Forall2 (fun s d => (d < length (g s))%nat) (sample st) ds -> length us = length (sample st) ->
  exists st' k, hamiltonian_sweep op log_psi (ds, us) st = Ok (st', k) /\
    forall i s d u, nth_error (sample st) i = Some s -> nth_error ds i = Some d -> nth_error us i = Some u -> 0 <= u < 1 ->
      nth_error (sample st') i = Some (one_chain (hamiltonian_sweep op log_psi) ([d], [u]) log_psi s).
Proof. exact (hamiltonian_sweep_chain n op g log_psi ds us st). Qed.
Print Assumptions C38_chains_independent.
Example C38_example : good_shape [2; 3]%nat true /\ chain_or_grid [4]%nat /\
  (exists H, run_calls (heisenberg_init [4]%nat true false) [[[1; 1; -1; -1]%Z]] = Ok H) /\
  exists g, symmetric_connectivity 6 (ising_operator 1 2 true [2; 3]%nat) g.
Proof.
  split; [right; exists 2%nat, 3%nat; repeat split; lia|]. split; [left; exists 4%nat; split; [reflexivity|lia]|].
  split; [eexists; vm_compute; reflexivity|]. apply (C38_ising 1 2 true [2; 3]%nat). right. exists 2%nat, 3%nat. repeat split; lia.
Qed.

(** C38: a configuration without connections cannot be moved. *)
Theorem C38_stuck_chain op log_psi (before after : list nat) d us st c : find_conn op (sample st) = Ok c ->
  (forall j k, nth_error before j = Some k -> (k < length (used_connections c j))%nat) -> used_connections c (length before) = [] ->
  hamiltonian_sweep op log_psi (before ++ d :: after, us) st = Err ValueError.
Proof.
  intros EC HB HN. unfold hamiltonian_sweep. rewrite EC. cbn [bind fst].
  assert (K : forall i, (forall j k, nth_error before j = Some k -> (k < length (used_connections c (i + j)))%nat) ->
    used_connections c (i + length before) = [] -> candidates_loop c i (before ++ d :: after) = Err ValueError).
  { clear HB HN. induction before as [|b before IH]; intros i HB HN; cbn [app candidates_loop length] in *.
    - rewrite Nat.add_0_r in HN. unfold hamiltonian_candidate. rewrite HN. reflexivity.
    - specialize (HB 0%nat b eq_refl) as H0. rewrite Nat.add_0_r in H0. unfold hamiltonian_candidate.
      destruct (used_connections c i) as [|x l] eqn:E; [cbn in H0; lia|]. destruct (nth_error (x :: l) b) as [y|] eqn:En.
      + cbn [bind]. rewrite (IH (S i)); [reflexivity| |].
        * intros j k Hj. replace (S i + j)%nat with (i + S j)%nat by lia. apply HB. exact Hj.
        * replace (S i + length before)%nat with (i + S (length before))%nat by lia. exact HN.
      + exfalso. apply nth_error_None in En. lia. }
  rewrite K; [reflexivity| |exact HN]. intros j k Hj. now apply HB.
Qed.
Print Assumptions C38_stuck_chain.
Example C38_stuck_chain_ex : let c := {| conns := [[[1; 1]; [-1; 1]]%Z]; mels := [[C1; C1]]; uses := [[true; false]] |} in
  let op := {| find_conn := fun _ => Ok c; declared_max := None |} in
  find_conn op [[1; 1]; [-1; 1]]%Z = Ok c /\ (0 < length (used_connections c 0))%nat /\ used_connections c 1 = [].
Proof. split; [reflexivity|]. split; [cbn; lia|reflexivity]. Qed.

(** C39: the claim that any proposal sampler may be used is false ... *)
Theorem C39_refuted :
  exists (n : nat) (log_psi : list Z -> C) (draws : list (list Z)),
    (forall d, In d draws <-> In d (spin_configs n)) /\
    forall K, kernel n (fun _ => draws) (fun s d u => one_chain (symmetric_sweep global_candidate log_psi) ([d], [u]) log_psi s) K ->
      ~ stationary n (fun s => born (log_psi s)) K.
Proof. exact global_refuted. Qed.
Print Assumptions C39_refuted.
(** ... the sampler's stationary measure is |psi(s)|^2 times the probability that s is proposed ... *)
Theorem C39_stationary_measure (n : nat) (log_psi : list Z -> C) (draws : list (list Z)) : draws <> [] ->
  (forall d, In d draws -> In d (spin_configs n)) ->
  exists K, kernel n (fun _ => draws) (fun s d u => one_chain (symmetric_sweep global_candidate log_psi) ([d], [u]) log_psi s) K /\
    stochastic n K /\
    detailed_balance n (fun s => born (log_psi s) * INR (occurrences s draws)) K /\
    stationary n (fun s => born (log_psi s) * INR (occurrences s draws)) K.
Proof. exact (global_chain n log_psi draws). Qed.
Print Assumptions C39_stationary_measure.
Example C39_stationary_measure_ex : [[1]; [1]; [-1]]%Z <> [] /\ forall d, In d [[1]; [1]; [-1]]%Z -> In d (spin_configs 1).
Proof. split; [discriminate|]. intros d. change (spin_configs 1) with [[1]; [-1]]%Z. cbn [In]. tauto. Qed.
(** ... and if every configuration may be proposed, |psi|^2 is stationary exactly if all are proposed equally often. *)
Theorem C39_iff_uniform (n : nat) (log_psi : list Z -> C) (draws : list (list Z)) K :
  (forall d, In d draws <-> In d (spin_configs n)) ->
  kernel n (fun _ => draws) (fun s d u => one_chain (symmetric_sweep global_candidate log_psi) ([d], [u]) log_psi s) K ->
  (stationary n (fun s => born (log_psi s)) K <->
   forall s t, In s (spin_configs n) -> In t (spin_configs n) -> occurrences s draws = occurrences t draws).
Proof.
  intros Hd HK. assert (Ne : draws <> []).
  { intros E. pose proof (spin_configs_nonempty n) as Q. destruct (spin_configs n) as [|s l]; [congruence|].
    assert (H : In s draws) by (apply Hd; now left). rewrite E in H. destruct H. }
  split.
  - intros HS. apply (global_only_uniform n log_psi draws Ne) with (K := K); auto; intros; now apply Hd.
  - intros HU. destruct (spin_configs n) as [|s0 l] eqn:E; [now apply spin_configs_nonempty in E|].
    apply (global_uniform n log_psi draws Ne ltac:(intros d I; rewrite E; now apply Hd) (occurrences s0 draws)); auto.
    + apply count_occ_In. apply Hd. now left.
    + intros s Hs. rewrite E in Hs. apply HU; auto. now left.
Qed.
Print Assumptions C39_iff_uniform.
Example C39_example : (forall d, In d [[1]; [1]; [-1]]%Z <-> In d (spin_configs 1)) /\
  occurrences [1]%Z [[1]; [1]; [-1]]%Z = 2%nat /\ occurrences [-1]%Z [[1]; [1]; [-1]]%Z = 1%nat.
Proof. split; [|split; reflexivity]. intros d. change (spin_configs 1) with [[1]; [-1]]%Z. cbn [In]. tauto. Qed.

(** C40: bookkeeping of [__next__], for the symmetric and the Hamiltonian samplers. *)
Theorem C40_symmetric {D} (candidate : list Z -> D -> list Z) log_psi (draws : nat -> list D * list R)
    batch_size num_of_chains unused discard_ratio t st r :
  length (sample st) = num_of_chains ->
  (forall t, length (fst (draws t)) = num_of_chains /\ length (snd (draws t)) = num_of_chains) ->
  mh_next log_psi (symmetric_sweep candidate log_psi) draws batch_size num_of_chains unused discard_ratio t st = Ok r ->
  next_facts log_psi (symmetric_sweep candidate log_psi) draws batch_size num_of_chains unused discard_ratio t st r.
Proof.
  intros L HD E. pose proof (mh_next_ok log_psi _ _ (symmetric_sweep_ok candidate log_psi) draws num_of_chains HD _ _ _ _ _ _ L E) as Q.
  cbv zeta in Q. destruct Q as (A1 & A2 & A3 & A4 & A5 & A6 & A7 & A8). unfold next_facts. cbv zeta.
  split; [|split; [exact A6|split; [exact A7|exact A8]]]. repeat (split; [assumption|]). assumption.
Qed.
Print Assumptions C40_symmetric.
Theorem C40_hamiltonian op log_psi (draws : nat -> list nat * list R) batch_size num_of_chains unused discard_ratio t st r :
  length (sample st) = num_of_chains ->
  (forall t, length (fst (draws t)) = num_of_chains /\ length (snd (draws t)) = num_of_chains) ->
  mh_next log_psi (hamiltonian_sweep op log_psi) draws batch_size num_of_chains unused discard_ratio t st = Ok r ->
  next_facts log_psi (hamiltonian_sweep op log_psi) draws batch_size num_of_chains unused discard_ratio t st r.
Proof.
  intros L HD E. pose proof (mh_next_ok log_psi _ _ (hamiltonian_sweep_ok op log_psi) draws num_of_chains HD _ _ _ _ _ _ L E) as Q.
  cbv zeta in Q. destruct Q as (A1 & A2 & A3 & A4 & A5 & A6 & A7 & A8). unfold next_facts. cbv zeta.
  split; [|split; [exact A6|split; [exact A7|exact A8]]]. repeat (split; [assumption|]). assumption.
Qed.
Print Assumptions C40_hamiltonian.
(** Chains, drawn numbers and a call that returns. *)
Example C40_hamiltonian_ex : exists r, mh_next (fun _ => C0) (hamiltonian_sweep (ising_operator 1 2 true [2]%nat) (fun _ => C0)) (fun t => ([0; 1]%nat, [0; 0])) 2 2 0 0 0
    {| sample := [[1; 1]; [1; -1]]%Z; sample_machine_values := [] |} = Ok r /\ length (next_batch r) = 2%nat.
Proof. eexists. split; [|shelve]. vm_compute. reflexivity. Unshelve. reflexivity. Qed.

(** The sampler returns whenever the number of chains divides a positive batch size ... *)
Theorem C40_returns {D} (candidate : list Z -> D -> list Z) log_psi (draws : nat -> list D * list R)
    per_chain num_of_chains unused discard_ratio t st :
  (0 < num_of_chains)%nat -> (0 < per_chain)%nat ->
  exists r, mh_next log_psi (symmetric_sweep candidate log_psi) draws (num_of_chains * per_chain) num_of_chains unused discard_ratio t st = Ok r.
Proof.
  intros Hc Hp.
  assert (R : forall k t st acc, exists r, run_sweeps (symmetric_sweep candidate log_psi) draws t k st acc = Ok r).
  { induction k as [|k IH]; intros t' st' acc; cbn [run_sweeps]; [eauto|]. cbn [symmetric_sweep bind]. apply IH. }
  assert (W : forall k t st, exists r, warn_up (symmetric_sweep candidate log_psi) draws unused k t st = Ok r).
  { induction k as [|k IH]; intros t' st'; cbn [warn_up]; [eauto|]. destruct (R unused t' st' 0%nat) as (r & ->). cbn [bind]. apply IH. }
  assert (S' : forall k i t st acc b per, exists r, sample_loop (symmetric_sweep candidate log_psi) draws unused per k i t st acc b = Ok r).
  { induction k as [|k IH]; intros i t' st' acc b per; cbn [sample_loop]; [eauto|]. destruct (R (unused + 1)%nat t' st' acc) as (r & ->). cbn [bind]. apply IH. }
  unfold mh_next, check_chains. destruct (Nat.eqb_spec num_of_chains 0); [lia|].
  rewrite (Nat.mul_comm num_of_chains per_chain), Nat.mod_mul by lia. cbn [Nat.eqb bind].
  match goal with |- context [if (0 <? discard_ratio)%nat then ?a else ?b] => assert (exists w, (if (0 <? discard_ratio)%nat then a else b) = Ok w) as (w & ->) by (destruct (0 <? discard_ratio)%nat; eauto) end.
  cbn [bind]. match goal with |- context [sample_loop ?a ?b ?c ?d ?e ?f ?g ?h ?i ?j] => destruct (S' e f g h i j d) as ([[[st1 t1] a1] b1] & ->) end.
  cbn [bind]. destruct (Nat.eqb_spec (per_chain * num_of_chains) 0); [nia|]. eauto.
Qed.
Print Assumptions C40_returns.
(** ... and raises otherwise. *)
Theorem C40_raises {I} log_psi (sweep : I -> chains -> res (chains * nat)) draws batch_size num_of_chains unused discard_ratio t st :
  (num_of_chains = 0%nat -> mh_next log_psi sweep draws batch_size num_of_chains unused discard_ratio t st = Err ZeroDivisionError) /\
  (num_of_chains <> 0%nat -> (batch_size mod num_of_chains <> 0)%nat ->
   mh_next log_psi sweep draws batch_size num_of_chains unused discard_ratio t st = Err GenericException).
Proof.
  unfold mh_next, check_chains. split; intros H; [now rewrite H|]. intros M.
  destruct (Nat.eqb_spec num_of_chains 0); [contradiction|]. destruct (Nat.eqb_spec (batch_size mod num_of_chains) 0); [contradiction|reflexivity].
Qed.
Print Assumptions C40_raises.
Example C40_raises_ex : 3%nat <> 0%nat /\ (4 mod 3 <> 0)%nat.
Proof. split; discriminate. Qed.
(** By default (unused_sampels = 0) no sweep is discarded, whatever the discard ratio: the first row of every chain is the
    state after one sweep from the initial configuration. *)
Theorem C40_no_warm_up_by_default {D} (candidate : list Z -> D -> list Z) log_psi (draws : nat -> list D * list R)
    batch_size num_of_chains discard_ratio t st r :
  length (sample st) = num_of_chains ->
  (forall t, length (fst (draws t)) = num_of_chains /\ length (snd (draws t)) = num_of_chains) ->
  mh_next log_psi (symmetric_sweep candidate log_psi) draws batch_size num_of_chains 0 discard_ratio t st = Ok r ->
  exists st1 k, symmetric_sweep candidate log_psi (draws t) {| sample := sample st; sample_machine_values := map log_psi (sample st) |} = Ok (st1, k) /\
    forall c, (c < num_of_chains)%nat -> nth (c * (batch_size / num_of_chains)) (next_batch r) [] = nth c (sample st1) [].
Proof.
  intros L HD E. destruct (C40_symmetric _ _ _ _ _ _ _ _ _ _ L HD E) as ((A1 & A2 & A3 & A4 & A5) & A6 & (st0 & a0 & acc & B1 & B2 & B3 & B4) & A8).
  rewrite Nat.mul_0_r in *. assert (W : (if (0 <? discard_ratio)%nat then 0%nat else 0%nat) = 0%nat) by (destruct (0 <? discard_ratio)%nat; reflexivity).
  rewrite W in *. cbn [run_sweeps] in B1. injection B1 as <- <-. destruct (B4 0%nat) as (stj & aj & R1 & R2); [nia|].
  rewrite Nat.add_0_r in R1. cbn [Nat.add Nat.mul run_sweeps] in R1.
  destruct (symmetric_sweep candidate log_psi (draws t) _) as [[st1 k]|] eqn:ES; [|discriminate]. cbn [bind fst] in R1. injection R1 as <- _.
  exists st1, k. split; [reflexivity|]. intros c Hc. rewrite <- R2 by exact Hc. f_equal. lia.
Qed.
Print Assumptions C40_no_warm_up_by_default.
Example C40_example :
  exists r, mh_next (fun _ => C0) (symmetric_sweep global_candidate (fun _ => C0)) (fun t => ([[1]%Z; [-1]%Z], [0; 0])) 4 2 1 1 0
    {| sample := [[1]; [1]]%Z; sample_machine_values := [] |} = Ok r.
Proof. apply (C40_returns global_candidate (fun _ => C0) (fun t => ([[1]%Z; [-1]%Z], [0; 0])) 2 2 1 1 0); lia. Qed.
