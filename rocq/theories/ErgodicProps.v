(** C86: averages over the batches of the Metropolis samplers converge, with explicit rates, to the averages under |psi|^2 (exchange and Heisenberg moves: under |psi|^2 restricted
    to the total spin of the start). *)
From Coq Require Import List ZArith Reals Bool Arith Lia Lra.
From Verif Require Import Base Cplx LatticeSpec IsingModel IsingProofs HeisenbergModel AutoregressiveSpec ObservableModel ObservableSpec ObservableProofs
  ExactModel ExactSpec ExactProofs MetropolisModel MetropolisSpec MetropolisProofs MetropolisNextProofs MetropolisProps
  MixingSpec MixingProofs MixingSamplerProofs MixingProps MonteCarloModel MonteCarloSpec MonteCarloProofs MonteCarloProps
  ErgodicSpec ErgodicProofs ErgodicSamplerProofs ErgodicCodeProofs.
Import ListNotations.
Local Open Scope R_scope.

(** The batch of a call of [__next__] lists, chain by chain, the recorded states of the trajectory that the chain makes with its own random numbers: none of the warm-up sweeps, then
    every (unused + 1)-th one. *)
Theorem C86_batch {D} (d0 : D) (candidate : list Z -> D -> list Z) (log_psi : list Z -> C) draws chains batch unused discard t st r :
  (forall t, length (fst (draws t)) = chains /\ length (snd (draws t)) = chains) -> length (sample st) = chains ->
  mh_next log_psi (symmetric_sweep candidate log_psi) draws batch chains unused discard t st = Ok r ->
  let per := (batch / chains)%nat in
  let warm := (if (0 <? discard)%nat then per / discard * unused else 0)%nat in
  let sweeps := (warm + per * (unused + 1))%nat in
  length (recording warm unused per) = sweeps /\ recorded (recording warm unused per) = per /\
  MetropolisModel.next_batch r = concat (map (fun c => picked (recording warm unused per)
    (trajectory (symmetric_sweep candidate log_psi) log_psi (own_proposals d0 draws c t sweeps) (own_numbers draws c t sweeps) sweeps (nth c (sample st) []))) (seq 0 chains)).
Proof.
  intros HD L E per warm sweeps. split; [apply recording_length|]. split; [apply recorded_recording|].
  exact (batch_is_recorded d0 candidate log_psi draws chains HD batch unused discard t st r L E).
Qed.
Print Assumptions C86_batch.
Example C86_batch_ex : let draws := fun _ : nat => ([[1; 1]; [-1; 1]]%Z, [0; 0]) in
  (forall t, length (fst (draws t)) = 2%nat /\ length (snd (draws t)) = 2%nat) /\
  (exists r, mh_next (fun _ => C0) (symmetric_sweep global_candidate (fun _ => C0)) draws 4 2 1 2 0 {| sample := [[-1; -1]; [1; -1]]%Z; sample_machine_values := [C0; C0] |} = Ok r /\
     length (MetropolisModel.next_batch r) = 4%nat) /\
  recording 1 1 2 = [false; false; true; false; true].
Proof.
  intros draws. split; [intros t; now split|]. split; [|reflexivity].
  assert (E : exists r, mh_next (fun _ => C0) (symmetric_sweep global_candidate (fun _ => C0)) draws 4 2 1 2 0 {| sample := [[-1; -1]; [1; -1]]%Z; sample_machine_values := [C0; C0] |} = Ok r).
  { unfold mh_next. destruct (check_chains 4 2) as [u|e] eqn:EC; [|discriminate]. cbn [bind]. change (4 / 2)%nat with 2%nat. change (0 <? 2)%nat with true. change (2 / 2)%nat with 1%nat.
    cbv iota. unfold warn_up, sample_loop, run_sweeps, symmetric_sweep. cbn [bind fst snd Nat.add Nat.eqb]. eexists. reflexivity. }
  destruct E as (r & E). exists r. split; [exact E|].
  destruct (mh_next_ok (fun _ => C0) _ _ (symmetric_sweep_ok global_candidate (fun _ => C0)) draws 2 ltac:(intros; now split) 4%nat 1%nat 2%nat 0%nat {| sample := [[-1; -1]; [1; -1]]%Z; sample_machine_values := [C0; C0] |} r eq_refl E) as (_ & _ & _ & L & _). exact L.
Qed.

(** The general statement: a transition matrix that converges and does not leave [P]. *)
Theorem C86_averages (n : nat) K (P : list Z -> bool) pi (f : list Z -> C) :
  stochastic n K -> stays n K P -> distribution n pi -> converges_within n K P pi -> averages_converge n K P pi f.
Proof. exact (complex_average n K P pi f). Qed.
Print Assumptions C86_averages.
(** The expectation of the average, for a real observable, is off by at most d / (samples per chain). *)
Theorem C86_bias (n : nat) K (P : list Z -> bool) pi (f : list Z -> R) :
  stochastic n K -> stays n K P -> distribution n pi -> converges_within n K P pi ->
  exists d, 0 <= d /\ forall starts mask, starts <> [] -> Forall (fun s => In s (spin_configs n) /\ P s = true) starts -> (0 < recorded mask)%nat ->
    Rabs (over_chains n K starts (length mask) (fun ps => / INR (length (concat (map (picked mask) ps))) * Rsum f (concat (map (picked mask) ps))) -
          Rsum (fun s => pi s * f s) (spin_configs n)) <= d / INR (recorded mask).
Proof.
  intros HS HC Hp Cv. destruct (real_average n K P pi f HS HC Hp Cv) as (a & d & _ & Hd & B). exists d. split; [exact Hd|]. intros starts mask NE F HM. exact (proj1 (B starts mask NE F HM)).
Qed.
Print Assumptions C86_bias.
(** Weak law of large numbers: enough recorded samples make an error of [eps] as unlikely as wanted, from every start and for every number of chains. *)
Theorem C86_law_of_large_numbers (n : nat) K (P : list Z -> bool) pi (f : list Z -> C) eps delta :
  stochastic n K -> averages_converge n K P pi f -> 0 < eps -> 0 < delta ->
  exists M, forall starts mask, starts <> [] -> Forall (fun s => In s (spin_configs n) /\ P s = true) starts -> (M <= recorded mask)%nat ->
    chance_of_error n K pi f starts mask eps <= delta.
Proof. exact (chance_small n K P pi f eps delta). Qed.
Print Assumptions C86_law_of_large_numbers.

(** The samplers. Local moves, unless all amplitudes have the same modulus ... *)
Theorem C86_local (shape : list nat) (log_psi : list Z -> C) K f : Forall (fun m => (0 < m)%nat) shape ->
  (exists s t, In s (spin_configs (sites_of shape)) /\ In t (spin_configs (sites_of shape)) /\ born (log_psi s) <> born (log_psi t)) ->
  kernel (sites_of shape) (fun _ => sites shape)
    (fun s d u => one_chain (symmetric_sweep (local_candidate shape) log_psi) ([d], [u]) log_psi s) K ->
  stochastic (sites_of shape) K /\ averages_converge (sites_of shape) K (fun _ => true) (probability (sites_of shape) log_psi) f.
Proof. exact (local_averages shape log_psi K f). Qed.
Print Assumptions C86_local.
(** ... uniform proposals ... *)
Theorem C86_uniform (n : nat) (log_psi : list Z -> C) K f :
  kernel n (fun _ => spin_configs n) (fun s d u => one_chain (symmetric_sweep global_candidate log_psi) ([d], [u]) log_psi s) K ->
  stochastic n K /\ averages_converge n K (fun _ => true) (probability n log_psi) f.
Proof. exact (uniform_averages n log_psi K f). Qed.
Print Assumptions C86_uniform.
(** ... exchange moves within the total spin of the start ... *)
Theorem C86_exchange (shape : list nat) (log_psi : list Z -> C) K m f : Forall (fun m => (0 < m)%nat) shape ->
  (exists s, In s (spin_configs (sites_of shape)) /\ sumZ s = m) ->
  kernel (sites_of shape) (fun _ => sites_and_moves shape)
    (fun s d u => one_chain (symmetric_sweep (exchange_candidate shape) log_psi) ([d], [u]) log_psi s) K ->
  stochastic (sites_of shape) K /\
  averages_converge (sites_of shape) K (fun s => (sumZ s =? m)%Z) (conditioned (sites_of shape) (probability (sites_of shape) log_psi) (fun s => (sumZ s =? m)%Z)) f.
Proof. exact (exchange_averages shape log_psi K m f). Qed.
Print Assumptions C86_exchange.
(** ... so with exchange moves the averages of an observable whose mean depends on the total spin never come close to its mean under |psi|^2. *)
Theorem C86_exchange_refuted (shape : list nat) (log_psi : list Z -> C) K m f : Forall (fun m => (0 < m)%nat) shape ->
  (exists s, In s (spin_configs (sites_of shape)) /\ sumZ s = m) ->
  kernel (sites_of shape) (fun _ => sites_and_moves shape)
    (fun s d u => one_chain (symmetric_sweep (exchange_candidate shape) log_psi) ([d], [u]) log_psi s) K ->
  let mean := Csum (fun s => Cscale (probability (sites_of shape) log_psi s) (f s)) (spin_configs (sites_of shape)) in
  mean <> Csum (fun s => Cscale (conditioned (sites_of shape) (probability (sites_of shape) log_psi) (fun s => (sumZ s =? m)%Z) s) (f s)) (spin_configs (sites_of shape)) ->
  exists delta M, 0 < delta /\ forall starts mask, starts <> [] ->
    Forall (fun s => In s (spin_configs (sites_of shape)) /\ (sumZ s =? m)%Z = true) starts -> (M <= recorded mask)%nat ->
    delta <= over_chains (sites_of shape) K starts (length mask) (fun ps => Cnorm2 (Cmean_of f (concat (map (picked mask) ps)) - mean)%C).
Proof.
  intros F Hm HK mean Ne. destruct (exchange_averages shape log_psi K m f F Hm HK) as [HS HA]. exact (wrong_limit _ K _ _ f mean HS HA Ne).
Qed.
Print Assumptions C86_exchange_refuted.
(** ... Hamiltonian moves in general ... *)
Theorem C86_hamiltonian (n : nat) (op : operator) g (log_psi : list Z -> C) K (P : list Z -> bool) f :
  symmetric_connectivity n op g ->
  kernel n (fun s => range (length (g s))) (fun s d u => one_chain (hamiltonian_sweep op log_psi) ([d], [u]) log_psi s) K ->
  (forall s t, In s (spin_configs n) -> In t (g s) -> P t = P s) ->
  (forall R : list Z -> Prop, (forall s t, In s (spin_configs n) -> In t (g s) -> R s -> R t) ->
     forall s t, In s (spin_configs n) -> In t (spin_configs n) -> P s = true -> P t = true -> R s -> R t) ->
  (exists x, In x (spin_configs n) /\ P x = true /\ In x (g x)) ->
  stochastic n K /\ averages_converge n K P (conditioned n (probability n log_psi) P) f.
Proof. exact (hamiltonian_averages n op g log_psi K P f). Qed.
Print Assumptions C86_hamiltonian.
(** ... with the Ising operator ... *)
Theorem C86_ising (J h : R) (pbc : bool) (shape : list nat) (log_psi : list Z -> C) f : good_shape shape pbc ->
  exists g, symmetric_connectivity (sites_of shape) (ising_operator J h pbc shape) g /\
    forall K, kernel (sites_of shape) (fun s => range (length (g s)))
        (fun s d u => one_chain (hamiltonian_sweep (ising_operator J h pbc shape) log_psi) ([d], [u]) log_psi s) K ->
      stochastic (sites_of shape) K /\ averages_converge (sites_of shape) K (fun _ => true) (probability (sites_of shape) log_psi) f.
Proof. exact (ising_averages J h pbc shape log_psi f). Qed.
Print Assumptions C86_ising.
(** ... and with the Heisenberg operator, within the total spin of the start. *)
Theorem C86_heisenberg (shape : list nat) (rot pbc : bool) batches H (log_psi : list Z -> C) f : chain_or_grid shape ->
  run_calls (heisenberg_init shape rot pbc) batches = Ok H ->
  exists g, symmetric_connectivity (sites_of shape) (heisenberg_operator H) g /\
    forall K m, kernel (sites_of shape) (fun s => range (length (g s)))
        (fun s d u => one_chain (hamiltonian_sweep (heisenberg_operator H) log_psi) ([d], [u]) log_psi s) K ->
      (exists s, In s (spin_configs (sites_of shape)) /\ sumZ s = m) ->
      stochastic (sites_of shape) K /\
      averages_converge (sites_of shape) K (fun s => (sumZ s =? m)%Z) (conditioned (sites_of shape) (probability (sites_of shape) log_psi) (fun s => (sumZ s =? m)%Z)) f.
Proof. exact (heisenberg_averages shape rot pbc batches H log_psi f). Qed.
Print Assumptions C86_heisenberg.
Example C86_samplers_ex : let lp := fun s => RtoC (IZR (sumZ s)) in
  (exists K, kernel 2 (fun _ => spin_configs 2) (fun s d u => one_chain (symmetric_sweep global_candidate lp) ([d], [u]) lp s) K /\ stochastic 2 K /\
     stays 2 K (fun _ => true) /\ distribution 2 (probability 2 lp) /\ forall f, averages_converge 2 K (fun _ => true) (probability 2 lp) f) /\
  (exists K, kernel (sites_of [2; 1]%nat) (fun _ => sites [2; 1]%nat) (fun s d u => one_chain (symmetric_sweep (local_candidate [2; 1]%nat) lp) ([d], [u]) lp s) K) /\
  In [1; 1]%Z (spin_configs (sites_of [2; 1]%nat)) /\ In [1; -1]%Z (spin_configs (sites_of [2; 1]%nat)) /\ born (lp [1; 1]%Z) <> born (lp [1; -1]%Z) /\
  good_shape [2; 3]%nat true /\ chain_or_grid [2; 2]%nat /\ (exists H, run_calls (heisenberg_init [2; 2]%nat true false) [[[1; -1; 1; -1]]]%Z = Ok H) /\
  recorded [false; true; true] = 2%nat.
Proof.
  intros lp. destruct (C37_uniform 2 lp) as (K & HK & _).
  split; [exists K; split; [exact HK|]; split; [apply (C86_uniform 2 lp K lp HK)|]; split; [apply all_stays|]; split; [apply probability_distribution|]; intros f; apply (C86_uniform 2 lp K f HK)|].
  destruct (C37_local [2; 1]%nat lp) as (K' & HK' & _); [repeat constructor|]. split; [now exists K'|]. split; [cbn; tauto|]. split; [cbn; tauto|].
  split. { unfold lp. rewrite !born_exp. intros E. apply exp_inv in E. change (2 * 2 = 0 * 2) in E. lra. }
  split; [right; exists 2%nat, 3%nat; repeat split; lia|]. split; [right; exists 2%nat, 2%nat; repeat split; lia|]. split; [eexists; vm_compute; reflexivity|reflexivity].
Qed.
(** Two spins that point up, and equal amplitudes: the magnetisation is 2, its mean under |psi|^2 is 0. *)
Example C86_exchange_ex : exists K, kernel (sites_of [2]%nat) (fun _ => sites_and_moves [2]%nat)
    (fun s d u => one_chain (symmetric_sweep (exchange_candidate [2]%nat) (fun _ => C0)) ([d], [u]) (fun _ => C0) s) K /\
  In [1; 1]%Z (spin_configs (sites_of [2]%nat)) /\ sumZ [1; 1]%Z = 2%Z /\
  let f := fun s => RtoC (IZR (sumZ s)) in
  Csum (fun s => Cscale (probability (sites_of [2]%nat) (fun _ => C0) s) (f s)) (spin_configs (sites_of [2]%nat)) <>
  Csum (fun s => Cscale (conditioned (sites_of [2]%nat) (probability (sites_of [2]%nat) (fun _ => C0)) (fun s => (sumZ s =? 2)%Z) s) (f s)) (spin_configs (sites_of [2]%nat)).
Proof.
  destruct (C37_exchange [2]%nat (fun _ => C0)) as (K & HK & _); [repeat constructor|]. exists K. split; [exact HK|]. split; [cbn; tauto|]. split; [reflexivity|].
  cbv zeta. intros E. apply (f_equal Re) in E. rewrite !Re_Csum in E.
  assert (P : forall s, probability (sites_of [2]%nat) (fun _ => C0) s = probability (sites_of [2]%nat) (fun _ => C0) [1; 1]%Z) by reflexivity.
  set (p := probability (sites_of [2]%nat) (fun _ => C0) [1; 1]%Z) in *. assert (Pp : 0 < p) by apply probability_pos.
  change (spin_configs (sites_of [2]%nat)) with [[1; 1]; [1; -1]; [-1; 1]; [-1; -1]]%Z in E.
  assert (W : weight (sites_of [2]%nat) (probability (sites_of [2]%nat) (fun _ => C0)) (fun s => (sumZ s =? 2)%Z) = p).
  { unfold weight. change (spin_configs (sites_of [2]%nat)) with [[1; 1]; [1; -1]; [-1; 1]; [-1; -1]]%Z. rewrite !Rsum_cons, Rsum_nil. rewrite !P.
    change (sumZ [1; 1] =? 2)%Z with true. change (sumZ [1; -1] =? 2)%Z with false. change (sumZ [-1; 1] =? 2)%Z with false. change (sumZ [-1; -1] =? 2)%Z with false. cbv iota. ring. }
  rewrite !Rsum_cons, !Rsum_nil in E. unfold conditioned in E. rewrite W in E. rewrite !P in E.
  change (sumZ [1; 1] =? 2)%Z with true in E. change (sumZ [1; -1] =? 2)%Z with false in E. change (sumZ [-1; 1] =? 2)%Z with false in E. change (sumZ [-1; -1] =? 2)%Z with false in E.
  change (sumZ [1; 1]%Z) with 2%Z in E. change (sumZ [1; -1]%Z) with 0%Z in E. change (sumZ [-1; 1]%Z) with 0%Z in E. change (sumZ [-1; -1]%Z) with (-2)%Z in E.
  unfold Re, Cscale, RtoC in E. cbn [fst snd] in E. unfold Rdiv in E. rewrite Rinv_r in E by lra. lra.
Qed.

(** The energy that the training step computes from the batch ([energy_of_step]) converges to <psi|H|psi> / <psi|psi> for every sampler with the limit |psi|^2. *)
Theorem C86_energy (n : nat) (H : list Z -> list Z -> C) (op : operator) (log_psi : list Z -> C) K :
  operator_represents n H op -> averages_converge n K (fun _ => true) (probability n log_psi) (local_energy n H log_psi) ->
  exists energy, (forall rows, rows <> [] -> (forall s, In s rows -> In s (spin_configs n)) ->
      exists st, MonteCarloModel.next_batch op log_psi rows = Ok st /\ energy_of_step st = energy rows) /\
    exists a d, 0 <= a /\ 0 <= d /\ forall starts mask, starts <> [] -> Forall (fun s => In s (spin_configs n)) starts -> (0 < recorded mask)%nat ->
      over_chains n K starts (length mask) (fun ps => Cnorm2 (energy (concat (map (picked mask) ps)) - expectation n H log_psi)%C) <=
      a / INR (length starts * recorded mask) + d / INR (recorded mask) ^ 2.
Proof.
  intros HO (a & d & Ha & Hd & B). exists (spec_energy n H log_psi). split.
  - intros rows NE A. eexists. split; [now apply (next_batch_ok n H)|reflexivity].
  - exists a, d. split; [exact Ha|]. split; [exact Hd|]. intros starts mask NE F HM. rewrite <- mean_local_energy.
    apply (B starts mask NE); [|exact HM]. eapply Forall_impl; [|exact F]. cbn. auto.
Qed.
Print Assumptions C86_energy.
Example C86_energy_ex : operator_represents 1 field_matrix field /\ exists K, averages_converge 1 K (fun _ => true) (probability 1 (fun _ => C0)) (local_energy 1 field_matrix (fun _ => C0)).
Proof. split; [exact field_represents|]. destruct (C37_uniform 1 (fun _ => C0)) as (K & HK & _). exists K. apply (C86_uniform 1 (fun _ => C0) K _ HK). Qed.
(** The rows of autoregressive samplers are independent: an energy error of [eps] has probability at most fluctuation / (batch size * eps^2). *)
Theorem C86_independent (n B : nat) (H : list Z -> list Z -> C) (op : operator) (log_psi : list Z -> C) eps : (0 < B)%nat -> operator_represents n H op -> 0 < eps ->
  exists energy, (forall b, In b (all_batches n B) -> exists st, MonteCarloModel.next_batch op log_psi b = Ok st /\ energy_of_step st = energy b) /\
    average_over (independent n log_psi) n B (fun b => if Rle_dec (eps ^ 2) (Cnorm2 (energy b - expectation n H log_psi)%C) then 1 else 0) <=
    fluctuation n H log_psi / (INR B * eps ^ 2).
Proof.
  intros HB HO He. destruct (C63_energy_error n B H op log_psi HB HO) as (energy & E1 & E2). exists energy. split; [exact E1|].
  assert (P : 0 < eps ^ 2) by now apply pow_lt. assert (PB : 0 < INR B) by now apply lt_0_INR.
  eapply Rle_trans; [apply (independent_chance n log_psi B (eps ^ 2) (fun b => Cnorm2 (energy b - expectation n H log_psi)%C) P); intros; unfold Cnorm2; nra|].
  rewrite E2. right. field. lra.
Qed.
Print Assumptions C86_independent.
Example C86_independent_ex : (0 < 3)%nat /\ operator_represents 1 field_matrix field /\ 0 < / 2.
Proof. split; [lia|]. split; [exact field_represents|lra]. Qed.
