(** Property C84 (samplers/metropolis_hastings.py:170-195 with operators/netket_operator.py and operators/j1j2.py): the Hamiltonian sampler with wrapped
    NetKet operators. *)
From Coq Require Import List ZArith Reals Bool Arith Lia Lra.
From Verif Require Import Base Cplx LatticeSpec IsingProofs AutoregressiveSpec ObservableModel ObservableSpec ObservableProofs ExactModel ExactSpec ExactProofs
  NetketModel NetketProofs MetropolisModel MetropolisSpec MetropolisProofs MixingSpec J1J2Model J1J2Spec J1J2Proofs J1J2OperatorModel J1J2OperatorProofs
  NetketSamplerModel NetketSamplerSpec NetketSamplerProofs J1J2SamplerProofs.
Import ListNotations.
Local Open Scope nat_scope.

Local Ltac configs := apply spins_in; split; [reflexivity|]; repeat constructor; (left; reflexivity) || (right; reflexivity).

(** C84: with the test for zero elements switched on, the wrapper offers exactly the configuration itself and the configurations with an element that is
    not zero, whatever number of connections it has reached so far. With the properties C38 and C64 this makes the sampler stationary. *)
Theorem C84_wrapper : forall n g W declared, should_calc_unused W = true -> connects_configurations n g ->
  (forall s t, In s (spin_configs n) -> In t (spin_configs n) -> s <> t -> occurrences t (moves g s) = occurrences s (moves g t)) ->
  symmetric_connectivity n (netket_operator g W declared) (moves g).
Proof. exact wrapper_connectivity. Qed.
Print Assumptions C84_wrapper.

(** C84: for a Hermitian operator whose connections are listed once this holds without further conditions. *)
Theorem C84_hermitian : forall n g W declared log_psi, should_calc_unused W = true -> connects_configurations n g ->
  (forall s, In s (spin_configs n) -> NoDup (map fst (g s))) -> hermitian_connections n g ->
  symmetric_connectivity n (netket_operator g W declared) (moves g) /\
  exists K, kernel n (fun s => range (length (moves g s)))
      (fun s d u => one_chain (hamiltonian_sweep (netket_operator g W declared) log_psi) ([d], [u]) log_psi s) K /\
    stochastic n K /\ detailed_balance n (fun s => born (log_psi s)) K /\ stationary n (fun s => born (log_psi s)) K.
Proof.
  intros n g W d lp SU CC ND HH.
  assert (G : symmetric_connectivity n (netket_operator g W d) (moves g)) by (apply wrapper_connectivity; auto; now apply hermitian_moves).
  split; [exact G|]. now apply hamiltonian_chain.
Qed.
Print Assumptions C84_hermitian.
(** Two sites: X X + Y Y + Z Z. *)
Definition pair_conn (s : list Z) : list (list Z * C) :=
  match s with
  | [1; -1]%Z => [([1; -1]%Z, Copp C1); ([-1; 1]%Z, RtoC 2)]
  | [-1; 1]%Z => [([-1; 1]%Z, Copp C1); ([1; -1]%Z, RtoC 2)]
  | _ => [(s, C1)]
  end.
Lemma pair_configs s : In s (spin_configs 2) <-> (s = [1; 1] \/ s = [1; -1] \/ s = [-1; 1] \/ s = [-1; -1])%Z.
Proof. change (spin_configs 2) with [[1; 1]; [1; -1]; [-1; 1]; [-1; -1]]%Z. cbn [In]. intuition congruence. Qed.
Lemma pair_connects : connects_configurations 2 pair_conn.
Proof.
  intros s Hs. apply pair_configs in Hs. destruct Hs as [->|[->|[->| ->]]]; (split; [eexists _, _; reflexivity|]); intros c m I; apply pair_configs; cbn [pair_conn In] in I;
    repeat match goal with H : _ \/ _ |- _ => destruct H end; try contradiction; injection H as <- _; tauto.
Qed.
Lemma Cconj_real r : Cconj (RtoC r) = RtoC r.
Proof. unfold Cconj, RtoC, Re, Im. cbn [fst snd]. f_equal. ring. Qed.
Lemma pair_real s c m : In (c, m) (pair_conn s) -> Cconj m = m.
Proof.
  assert (K : Cconj (Copp C1) = Copp C1) by (unfold Cconj, Copp, C1, RtoC, Re, Im; cbn [fst snd]; f_equal; ring).
  unfold pair_conn. intros I. repeat match goal with H : In _ (match ?x with _ => _ end) |- _ => destruct x end; cbn [In] in I;
    repeat match goal with H : _ \/ _ |- _ => destruct H end; try contradiction; injection H as _ <-; auto using Cconj_real; exact (Cconj_real 1).
Qed.
Lemma pair_sym s t m : In s (spin_configs 2) -> In t (spin_configs 2) -> In (t, m) (pair_conn s) -> In (s, m) (pair_conn t).
Proof.
  intros Hs Ht I. apply pair_configs in Hs. destruct Hs as [->|[->|[->| ->]]]; cbn [pair_conn In] in I;
    repeat match goal with H : _ \/ _ |- _ => destruct H end; try contradiction; injection H as <- <-; cbn [pair_conn In]; auto.
Qed.
Lemma pair_hermitian : hermitian_connections 2 pair_conn.
Proof.
  intros s t m Hs Ht [I|[-> N]].
  - left. rewrite (pair_real s t m I). now apply pair_sym.
  - right. split; [unfold Cconj, C0, RtoC, Re, Im; cbn [fst snd]; f_equal; ring|]. intros I. apply N. apply in_map_iff in I. destruct I as ([c m] & E & I). cbn [fst] in E. subst c.
    apply in_map_iff. exists (t, m). split; [reflexivity|]. now apply pair_sym.
Qed.
Lemma pair_nodup s : In s (spin_configs 2) -> NoDup (map fst (pair_conn s)).
Proof.
  intros Hs. apply pair_configs in Hs. destruct Hs as [->|[->|[->| ->]]]; cbn [pair_conn map fst]; repeat constructor; cbn [In]; intuition discriminate.
Qed.
Example C84_hermitian_ex : connects_configurations 2 pair_conn /\ (forall s, In s (spin_configs 2) -> NoDup (map fst (pair_conn s))) /\ hermitian_connections 2 pair_conn /\
  moves pair_conn [1; -1]%Z = [[1; -1]; [-1; 1]]%Z.
Proof.
  split; [exact pair_connects|]. split; [exact pair_nodup|]. split; [exact pair_hermitian|]. unfold moves. cbn [pair_conn tl filter snd].
  replace (nonzero (RtoC 2)) with true; [reflexivity|]. symmetry. apply nonzero_spec. intros E. unfold RtoC, C0 in E. injection E as E. lra.
Qed.
Example C84_wrapper_ex : forall s t, In s (spin_configs 2) -> In t (spin_configs 2) -> s <> t -> occurrences t (moves pair_conn s) = occurrences s (moves pair_conn t).
Proof. exact (hermitian_moves 2 pair_conn pair_connects pair_nodup pair_hermitian). Qed.

(** C84: what the wrapper remembers from earlier calls has no influence on the sweeps: any number of sweeps gives the result (or the exception) they give
    with an operator that never changes. *)
Theorem C84_memory : forall n k g log_psi draws W W0 declared sweeps t st accepted, connects_configurations n g ->
  should_calc_unused W = true -> should_calc_unused W0 = true -> 0 < k -> (forall t, length (fst (draws t)) = k) ->
  length (sample st) = k -> (forall s, In s (sample st) -> In s (spin_configs n)) ->
  match netket_run g log_psi draws t sweeps W st accepted with Ok r => Ok (snd r) | Err e => Err e end =
  run_sweeps (hamiltonian_sweep (netket_operator g W0 declared) log_psi) draws t sweeps st accepted.
Proof. intros n k g lp draws W W0 d sweeps t st a CC SW SW0 Hk HD HL HS. apply (netket_run_same n k); auto. now split. Qed.
Print Assumptions C84_memory.
Example C84_memory_ex : connects_configurations 2 pair_conn /\ 0 < 1 /\ (forall t : nat, length (fst ([t], [0%R])) = 1) /\
  length (sample {| sample := [[1; -1]%Z]; sample_machine_values := [C0] |}) = 1.
Proof. split; [exact pair_connects|]. split; [lia|]. split; reflexivity. Qed.

(** C84: without the test for zeros it still holds if all configurations have the number of connections the wrapper starts with (as for the Ising
    operator), ... *)
Theorem C84_same_count : forall n g W declared, connects_configurations n g -> should_calc_unused W = false ->
  (forall s, In s (spin_configs n) -> length (g s) = estimated W) ->
  (forall s t, In s (spin_configs n) -> In t (spin_configs n) -> s <> t -> occurrences t (map fst (g s)) = occurrences s (map fst (g t))) ->
  symmetric_connectivity n (netket_operator g W declared) (fun s => map fst (g s)).
Proof. exact same_count_connectivity. Qed.
Print Assumptions C84_same_count.
Example C84_same_count_ex : let g := fun s => [(s, C1); (map Z.opp s, C1)] in let W := netket_init g [1]%Z None None in
  connects_configurations 1 g /\ should_calc_unused W = false /\ (forall s, length (g s) = estimated W) /\
  (forall s t, In s (spin_configs 1) -> In t (spin_configs 1) -> s <> t -> occurrences t (map fst (g s)) = occurrences s (map fst (g t))).
Proof.
  assert (E1 : forall s, In s (spin_configs 1) -> s = [1]%Z \/ s = [-1]%Z).
  { intros s Hs. change (spin_configs 1) with [[1]; [-1]]%Z in Hs. cbn [In] in Hs. intuition congruence. }
  intros g W. split; [|split; [reflexivity|split; [reflexivity|]]].
  - intros s Hs. split; [eexists _, _; reflexivity|]. intros c m [E|[E|[]]]; injection E as <- _; [exact Hs|].
    destruct (E1 s Hs) as [->| ->]; change (spin_configs 1) with [[1]; [-1]]%Z; cbn; tauto.
  - intros s t Hs Ht N. destruct (E1 s Hs) as [->| ->], (E1 t Ht) as [->| ->]; try congruence; reflexivity.
Qed.

(** ... but a configuration with fewer connections than the wrapper has reached is offered the configuration of zeros, which is none. *)
Theorem C84_padding_offered : forall n g W declared s, connects_configurations n g -> should_calc_unused W = false -> In s (spin_configs n) -> 0 < n ->
  exists c, find_conn (netket_operator g W declared) [s] = Ok c /\ ~ In (repeat 0%Z n) (spin_configs n) /\
    forall d, length (g s) <= d < estimated W -> hamiltonian_candidate c 0 d = Ok (repeat 0%Z n).
Proof.
  intros n g W d s CC SU Hs Hn.
  destruct (wrapper_used g W [s]) as (W' & c & E & _ & Le & _ & U).
  { apply (configs_good_batch n g [s] CC); [discriminate|]. intros x [<-|[]]. exact Hs. }
  exists c. split; [now apply (wrapper_find_conn g W d [s] W')|]. split.
  - intros I. apply spins_in in I. destruct I as [_ F]. destruct n as [|n]; [lia|]. cbn [repeat] in F. inversion F as [|x l Hx HF]; subst. unfold is_spin in Hx. destruct Hx; discriminate.
  - intros k Hk. destruct (U 0 s eq_refl) as [U1 _]. rewrite SU in U1. unfold hamiltonian_candidate. rewrite U1. unfold all_moves.
    assert (L : length s = n) by (apply spins_in in Hs; apply Hs).
    assert (EN : nth_error (map fst (g s) ++ repeat (repeat 0%Z (length s)) (estimated W' - length (g s))) k = Some (repeat 0%Z n)).
    { rewrite nth_error_app2 by (rewrite map_length; lia). rewrite map_length. rewrite (nth_error_nth' _ []) by (rewrite repeat_length; lia).
      rewrite nth_repeat_lt by lia. now rewrite L. }
    destruct (map fst (g s) ++ repeat (repeat 0%Z (length s)) (estimated W' - length (g s))) as [|a l]; [destruct k; discriminate|]. now rewrite EN.
Qed.
Print Assumptions C84_padding_offered.

(** C84: so a wrapper built without a maximal number of connections (as in examples/j1j2_2d_exact_4.py:83) does not keep the sampler within the
    configurations, even for a Hermitian operator whose connections are listed once: from two spins up the chain moves to two zeros. *)
Theorem C84_default_wrapper_refuted : exists g W, W = netket_init g [1; -1]%Z None None /\ connects_configurations 2 g /\
  (forall s, In s (spin_configs 2) -> NoDup (map fst (g s))) /\ hermitian_connections 2 g /\ reports_itself g [0; 0]%Z /\
  forall u, (0 <= u < 1)%R -> one_chain (hamiltonian_sweep (netket_operator g W None) (fun _ => C0)) ([1], [u]) (fun _ => C0) [1; 1]%Z = [0; 0]%Z.
Proof.
  exists pair_conn, (netket_init pair_conn [1; -1]%Z None None). split; [reflexivity|]. split; [exact pair_connects|]. split; [exact pair_nodup|].
  split; [exact pair_hermitian|]. split; [eexists _, _; reflexivity|].
  intros u Hu. unfold one_chain, hamiltonian_sweep. cbn [sample fst snd length].
  set (W := netket_init pair_conn [1; -1]%Z None None).
  assert (E1 : find_conn (netket_operator pair_conn W None) [[1; 1]%Z] = Ok {| conns := [[[1; 1]%Z]; [[0; 0]%Z]]; mels := [[C1]; [C0]]; uses := [[true]; [true]] |}) by reflexivity.
  assert (E2 : find_conn (netket_operator pair_conn W None) [[0; 0]%Z] = Ok {| conns := [[[0; 0]%Z]; [[0; 0]%Z]]; mels := [[C1]; [C0]]; uses := [[true]; [true]] |}) by reflexivity.
  rewrite E1. cbn [bind]. change (candidates_loop {| conns := [[[1; 1]%Z]; [[0; 0]%Z]]; mels := [[C1]; [C0]]; uses := [[true]; [true]] |} 0 [1]) with (Ok [[0; 0]%Z]).
  cbn [bind]. rewrite E2. cbn [bind]. change (range 1) with [0]. cbn [map map2 combine fst snd uses sample sample_machine_values].
  change (count_true (at_sample 0 false [[true]; [true]])) with 2. unfold hamiltonian_accepts. cbn [Nat.eqb].
  destruct (Rlt_dec u _) as [_|N]; [reflexivity|]. exfalso. apply N.
  replace ((Re C0 - Re C0) * 2 + ln (INR 2 / INR 2))%R with 0%R; [rewrite exp_0; lra|].
  replace (INR 2 / INR 2)%R with 1%R by (cbn [INR]; field). rewrite ln_1. unfold Re, C0, RtoC. cbn [fst]. ring.
Qed.
Print Assumptions C84_default_wrapper_refuted.
Example C84_padding_offered_ex : let W := netket_init pair_conn [1; -1]%Z None None in
  should_calc_unused W = false /\ In [1; 1]%Z (spin_configs 2) /\ length (pair_conn [1; 1]%Z) <= 1 < estimated W.
Proof. cbv zeta. split; [reflexivity|]. split; [apply pair_configs; tauto|]. cbn. lia. Qed.

(** C84: the J1-J2 operator on every grid: each configuration is offered itself and, for every bond with opposite spins and a strength that is not zero, the
    exchange of the two spins; |psi|^2 is stationary and satisfies detailed balance ... *)
Theorem C84_j1j2 : forall (L1 L2 : nat) (j2 : R) (pbc : bool) log_psi, j1j2_grid L1 L2 pbc ->
  exists g W, new_j1j2 [L1; L2] j2 pbc = Ok (g, W) /\ connects_configurations (L1 * L2) g /\
    symmetric_connectivity (L1 * L2) (j1j2_operator [L1; L2] g W) (moves g) /\
    (forall s t, In s (spin_configs (L1 * L2)) ->
       (In t (moves g s) <-> t = s \/ exists i j c, In (i, j, c) (lattice_edges L1 L2 pbc) /\ spin s i <> spin s j /\ coupling j2 c <> 0%R /\
          t = upd (upd s i (spin s j)) j (spin s i))) /\
    exists K, kernel (L1 * L2) (fun s => range (length (moves g s)))
        (fun s d u => one_chain (hamiltonian_sweep (j1j2_operator [L1; L2] g W) log_psi) ([d], [u]) log_psi s) K /\
      stochastic (L1 * L2) K /\ detailed_balance (L1 * L2) (fun s => born (log_psi s)) K /\ stationary (L1 * L2) (fun s => born (log_psi s)) K.
Proof.
  intros L1 L2 j2 pbc lp G. destruct (new_j1j2_ok L1 L2 j2 pbc G) as (m & E & L & N). eexists _, _. split; [exact N|].
  assert (GC : symmetric_connectivity (L1 * L2) (j1j2_operator [L1; L2] (j1j2_get_conn L1 L2 j2 pbc) {| estimated := m; should_calc_unused := true |})
                 (moves (j1j2_get_conn L1 L2 j2 pbc))) by (apply j1j2_connectivity; auto).
  split; [now apply j1j2_connects|]. split; [exact GC|]. split; [|now apply hamiltonian_chain].
  intros s t Hs. apply spins_in in Hs. rewrite j1j2_moves by auto. destruct G as [H HP]. destruct (grid_positive _ _ H) as [H1 H2].
  pose proof (edges_perm L1 L2 pbc H1 H2) as P. cbn [In]. rewrite in_flat_map. split.
  - intros [->|([[i j] c] & He & I)]; [now left|]. right. exists i, j, c. split; [now apply (Permutation.Permutation_in _ P)|].
    unfold edge_moves in I. destruct (Z.eqb_spec (spin s i) (spin s j)); [contradiction|]. destruct (Req_EM_T (coupling j2 c) 0); [contradiction|].
    destruct I as [<-|[]]. repeat split; auto.
  - intros [->|(i & j & c & He & Ns & Nc & ->)]; [now left|]. right. exists (i, j, c). split; [now apply (Permutation.Permutation_in _ (Permutation.Permutation_sym P))|].
    unfold edge_moves. destruct (Z.eqb_spec (spin s i) (spin s j)); [contradiction|]. destruct (Req_EM_T (coupling j2 c) 0); [contradiction|]. now left.
Qed.
Print Assumptions C84_j1j2.

(** ... and a chain that starts in a configuration of total spin m converges to |psi|^2 restricted to these configurations, for every j2 (also 0). *)
Theorem C84_j1j2_converges : forall (L1 L2 : nat) (j2 : R) (pbc : bool) log_psi K m g W, j1j2_grid L1 L2 pbc -> new_j1j2 [L1; L2] j2 pbc = Ok (g, W) ->
  kernel (L1 * L2) (fun s => range (length (moves g s)))
    (fun s d u => one_chain (hamiltonian_sweep (j1j2_operator [L1; L2] g W) log_psi) ([d], [u]) log_psi s) K ->
  (exists s, In s (spin_configs (L1 * L2)) /\ sumZ s = m) ->
  converges_within (L1 * L2) K (fun s => (sumZ s =? m)%Z) (conditioned (L1 * L2) (probability (L1 * L2) log_psi) (fun s => (sumZ s =? m)%Z)).
Proof.
  intros L1 L2 j2 pbc lp K m g W G EN HK HX. destruct (new_j1j2_ok L1 L2 j2 pbc G) as (k & E & L & N). rewrite N in EN. injection EN as <- <-.
  unfold j1j2_operator in HK. eapply j1j2_converges; eauto. reflexivity.
Qed.
Print Assumptions C84_j1j2_converges.
Example C84_j1j2_ex : j1j2_grid 4 4 true /\ j1j2_grid 1 3 false /\ (exists s, In s (spin_configs (2 * 2)) /\ sumZ s = 0%Z) /\
  In (0, 1, 1) (lattice_edges 2 2 false) /\ coupling (1 / 2) 2 <> 0%R.
Proof.
  split; [split; lia|]. split; [split; [lia|discriminate]|]. split; [exists [1; -1; 1; -1]%Z; split; [configs|reflexivity]|].
  split; [vm_compute; tauto|]. unfold coupling. cbn [Nat.eqb]. lra.
Qed.
