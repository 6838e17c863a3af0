(** Property C67 (operators/j1j2.py with operators/netket_operator.py): the J1-J2 operator is the J1-J2 Hamiltonian. *)
From Coq Require Import List ZArith Arith Bool Reals Lia Lra Permutation.
From Verif Require Import Base OrderingModel OrderingSpec OrderingProofs Cplx LatticeSpec AutoregressiveSpec ObservableModel ObservableSpec ObservableProofs ExactModel ExactSpec ExactProofs
  ExactOperatorProofs MonteCarloModel MonteCarloSpec MonteCarloProofs SymmetryModel SymmetrySpec SymmetryProofs SymmetryEnsembleProofs SymmetryProps
  SymmetricEvaluationModel SymmetricEvaluationSpec SymmetricEvaluationProofs SymmetricBondsProofs SymmetricLibraryProofs SymmetricEvaluationProps
  J1J2Model J1J2Spec J1J2Proofs NetketModel NetketProofs J1J2OperatorModel J1J2OperatorProofs J1J2SymmetryProofs.
Import ListNotations.
Local Open Scope nat_scope.

(** C67: on every grid of at least two sites (periodic: sides of at least 3) the operator is constructed, keeps its number of connections over
    every history of calls, and its rows are those of the sum over the bonds of J (X X + Y Y + Z Z), J = 1 for neighbours and J = j2 for
    diagonal neighbours. *)
Theorem C67_operator : forall (L1 L2 : nat) (j2 : R) (pbc : bool), j1j2_grid L1 L2 pbc ->
  exists g W, new_j1j2 [L1; L2] j2 pbc = Ok (g, W) /\
    (forall batches, (forall b, In b batches -> b <> [] /\ forall s, In s b -> In s (spin_configs (L1 * L2))) -> netket_calls g W batches = Ok W) /\
    operator_represents (L1 * L2) (j1j2_matrix L1 L2 j2 pbc) (j1j2_operator [L1; L2] g W).
Proof.
  intros L1 L2 j2 pbc G. destruct (new_j1j2_ok L1 L2 j2 pbc G) as (m & E & L & N). eexists _, _. split; [exact N|]. split.
  - intros batches HB. exact (j1j2_calls L1 L2 j2 pbc m batches G L HB).
  - now apply j1j2_represents.
Qed.
Print Assumptions C67_operator.
Example C67_operator_ex : j1j2_grid 4 4 false /\ j1j2_grid 3 3 true /\
  j1j2_matrix 2 2 (1 / 2) false [1; -1; 1; 1]%Z [1; 1; -1; 1]%Z = RtoC 1.
Proof.
  split; [split; [lia|discriminate]|]. split; [split; lia|]. unfold j1j2_matrix. f_equal.
  change (lattice_edges 2 2 false) with [(0, 1, 1); (0, 2, 1); (0, 3, 2); (1, 3, 1); (2, 3, 1); (2, 1, 2)].
  rewrite !Rsum_cons, Rsum_nil. unfold coupling. cbn [Nat.eqb]. 
  change (heisenberg_element 2 [(0, 1)] [1; -1; 1; 1]%Z [1; 1; -1; 1]%Z) with 0%Z. change (heisenberg_element 2 [(0, 2)] [1; -1; 1; 1]%Z [1; 1; -1; 1]%Z) with 0%Z.
  change (heisenberg_element 2 [(0, 3)] [1; -1; 1; 1]%Z [1; 1; -1; 1]%Z) with 0%Z. change (heisenberg_element 2 [(1, 3)] [1; -1; 1; 1]%Z [1; 1; -1; 1]%Z) with 0%Z.
  change (heisenberg_element 2 [(2, 3)] [1; -1; 1; 1]%Z [1; 1; -1; 1]%Z) with 0%Z. change (heisenberg_element 2 [(2, 1)] [1; -1; 1; 1]%Z [1; 1; -1; 1]%Z) with 2%Z.
  lra.
Qed.

(** C67: what is not a two-dimensional shape is rejected, and so is the open grid of one site, whose list of bonds is empty. *)
Theorem C67_rejected : forall (shape : list nat) (j2 : R) (pbc : bool),
  (length shape <> 2 -> new_j1j2 shape j2 pbc = Err AssertionError) /\ new_j1j2 [1; 1] j2 false = Err AssertionError.
Proof.
  intros shape j2 pbc. split; [|reflexivity]. intros H. unfold new_j1j2, j1j2_max_conn.
  destruct shape as [|a [|b [|c shape]]]; try reflexivity. exfalso. apply H. reflexivity.
Qed.
Print Assumptions C67_rejected.
Example C67_rejected_ex : length [4] <> 2 /\ length [4; 4; 4] <> 2.
Proof. split; discriminate. Qed.

(** C67: a configuration has one connection for itself and one for every bond with opposite spins. *)
Theorem C67_connections : forall (L1 L2 : nat) (j2 : R) (pbc : bool) g W s, j1j2_grid L1 L2 pbc -> j2 <> 0%R -> new_j1j2 [L1; L2] j2 pbc = Ok (g, W) ->
  In s (spin_configs (L1 * L2)) -> length (g s) = 1 + opposite_bonds L1 L2 pbc s.
Proof.
  intros L1 L2 j2 pbc g W s G N E Hs. destruct (new_j1j2_ok L1 L2 j2 pbc G) as (m & _ & _ & E'). rewrite E in E'. injection E' as -> _.
  apply spins_in in Hs. now apply j1j2_count.
Qed.
Print Assumptions C67_connections.
Example C67_connections_ex : opposite_bonds 2 2 false [1; -1; -1; 1]%Z = 4 /\ opposite_bonds 2 2 false [1; 1; 1; 1]%Z = 0.
Proof. split; reflexivity. Qed.

(** C67: the matrix is Hermitian and vanishes between configurations of different magnetisation. *)
Theorem C67_hermitian_conserves : forall (L1 L2 : nat) (j2 : R) (pbc : bool), j1j2_grid L1 L2 pbc ->
  hermitian (L1 * L2) (j1j2_matrix L1 L2 j2 pbc) /\
  (forall s t, In s (spin_configs (L1 * L2)) -> sumZ s <> sumZ t -> j1j2_matrix L1 L2 j2 pbc s t = C0).
Proof.
  intros L1 L2 j2 pbc G. split; [now apply j1j2_hermitian|]. intros s t Hs N. apply spins_in in Hs. now apply j1j2_conserves.
Qed.
Print Assumptions C67_hermitian_conserves.
Example C67_hermitian_conserves_ex : In [1; -1; 1; 1]%Z (spin_configs (2 * 2)) /\ sumZ [1; -1; 1; 1]%Z <> sumZ [1; -1; 1; -1]%Z.
Proof. split; [vm_compute; tauto|discriminate]. Qed.

(** C67: for j2 = 0 it is the Heisenberg Hamiltonian of operators/heisenberg.py. *)
Theorem C67_heisenberg : forall (L1 L2 : nat) (pbc : bool) s t, j1j2_grid L1 L2 pbc ->
  j1j2_matrix L1 L2 0 pbc s t = heisenberg_matrix false pbc [L1; L2] s t.
Proof. exact j1j2_zero. Qed.
Print Assumptions C67_heisenberg.
Example C67_heisenberg_ex : j1j2_grid 3 4 true /\ heisenberg_matrix false false [2; 1] [1; -1]%Z [-1; 1]%Z = RtoC 2.
Proof. split; [split; lia|]. reflexivity. Qed.

(** C67: the matrix does not change under rotations and mirror images of square grids, the global flip, and on periodic grids translations. *)
Theorem C67_symmetries : forall (j2 : R),
  (forall N pbc s t s' t', j1j2_grid N N pbc -> In s (spin_configs (N * N)) -> In t (spin_configs (N * N)) ->
     (turned N N s s' /\ turned N N t t') \/ (mirrored N N s s' /\ mirrored N N t t') -> j1j2_matrix N N j2 pbc s' t' = j1j2_matrix N N j2 pbc s t) /\
  (forall L1 L2 pbc s t, j1j2_matrix L1 L2 j2 pbc (map Z.opp s) (map Z.opp t) = j1j2_matrix L1 L2 j2 pbc s t) /\
  (forall L1 L2 a s t s' t', j1j2_grid L1 L2 true -> In s (spin_configs (L1 * L2)) -> In t (spin_configs (L1 * L2)) ->
     translated [L1; L2] a s s' -> translated [L1; L2] a t t' -> j1j2_matrix L1 L2 j2 true s' t' = j1j2_matrix L1 L2 j2 true s t).
Proof.
  intros j2. split; [|split].
  - intros N pbc s t s' t' G Hs Ht [[A B]|[A B]].
    + apply turned_rot in A. apply turned_rot in B. rewrite rotl_rot in A, B. injection A as ->. injection B as ->.
      now apply (j1j2_rotl N j2 pbc G).
    + apply mirrored_mir in A. apply mirrored_mir in B. rewrite mirl_mir in A, B. injection A as ->. injection B as ->.
      now apply (j1j2_mirl N j2 pbc G).
  - intros L1 L2 pbc s t. assert (E : forall u, map Z.opp u = neg u) by (intros u; apply map_ext; intros; lia). rewrite !E. apply j1j2_flip.
  - intros L1 L2 a s t s' t' G Hs Ht A B. assert (V : volume [L1; L2] = L1 * L2) by (cbn; lia).
    assert (La := proj1 A). assert (Ls := spin_lengths _ _ Hs). assert (Lt := spin_lengths _ _ Ht). rewrite <- V in Ls, Lt.
    apply (translated_roll [L1; L2] a s s' Ls) in A. apply (translated_roll [L1; L2] a t t' Lt) in B.
    replace s' with (rolll [L1; L2] a s) by (unfold rolll; now rewrite <- A). replace t' with (rolll [L1; L2] a t) by (unfold rolll; now rewrite <- B).
    now apply (j1j2_rolll L1 L2 j2 a G).
Qed.
Print Assumptions C67_symmetries.
Example C67_symmetries_ex : j1j2_grid 2 2 false /\ turned 2 2 [1; 1; -1; 1]%Z [1; 1; 1; -1]%Z.
Proof. split; [split; [lia|discriminate]|]. split; [reflexivity|]. intros [|[|i]] [|[|j]] Hi Hj; try lia; reflexivity. Qed.

(** C67: the energy of the wave function symmetrised over the square (examples/j1j2_2d_monte_carlo_4.py) is estimated rightly with samples
    of the unsymmetrised one; so it is with the global flip as well (experiments/run_evaluation.py). *)
Theorem C67_evaluation : forall (N B : nat) (j2 : R) (pbc : bool) (psi : list nat * list Z -> C) M g W,
  j1j2_grid N N pbc -> 0 < B -> model_of psi M -> new_j1j2 [N; N] j2 pbc = Ok (g, W) ->
  evaluated_rightly [N; N] B psi (make_2d_obc_invariants true M) (j1j2_matrix N N j2 pbc) (j1j2_operator [N; N] g W) /\
  evaluated_rightly [N; N] B psi (evaluation_model M) (j1j2_matrix N N j2 pbc) (j1j2_operator [N; N] g W).
Proof.
  intros N B j2 pbc psi M g W G HB A E. destruct (C67_operator N N j2 pbc G) as (g' & W' & E' & _ & O). rewrite E in E'. injection E' as <- <-. split.
  - apply (rightly _ _ _ _ (fun s => obc_psi true psi ([N; N], s)) _ _ (eight_maps N)); rewrite ?square_volume; auto.
    + intros xs. exact (obc_batch M psi true N N xs (fun b _ => A b)).
    + exact (obc_symmetrised N psi).
    + now apply j1j2_eight.
    + intros s T Hs HT. apply (eight_abs N); [now apply spin_lengths|exact HT].
  - apply (rightly _ _ _ _ (fun s => flip_psi (obc_psi true psi) ([N; N], s)) _ _ (composed flip_maps (eight_maps N))); rewrite ?square_volume; auto.
    + exact (evaluation_rows M psi N (fun b _ => A b)).
    + exact (evaluation_symmetrised N psi).
    + apply composed_symmetries; [apply flip_maps_permute|apply j1j2_flips|now apply j1j2_eight].
    + intros s V Hs HV. apply in_composed in HV. destruct HV as (U & T & HU & HT & ->).
      assert (FU := flip_maps_permute (N * N)). rewrite Forall_forall in FU.
      rewrite (eight_abs N); [now apply flip_abs|now apply map_length_permutes, Hs; apply FU|exact HT].
Qed.
Print Assumptions C67_evaluation.
Example C67_evaluation_ex : j1j2_grid 4 4 false /\ model_of (fun x => RtoC (IZR (nth 0 (snd x) 0%Z))) (fun b => Ok (map (fun x => RtoC (IZR (nth 0 (snd x) 0%Z))) b)).
Proof. split; [split; [lia|discriminate]|]. intros b. reflexivity. Qed.
