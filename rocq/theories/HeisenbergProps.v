(** Properties C21, C22, C23 (operators/heisenberg.py). *)
From Coq Require Import List ZArith QArith Lia Arith Bool Permutation.
From Verif Require Import Base LatticeSpec HeisenbergModel HeisenbergProofs.
Import ListNotations.
Local Open Scope Z_scope.

(** C21: whatever calls came before, the used connections of a sample [s] sum, for every [t], to <s|H|t>;
    the sample is connection 0 and in use; every other used connection conserves the magnetisation, differs from
    the sample and carries the off-diagonal strength; unused connections carry 0. *)
Theorem C21_matrix_row : forall (shape : list nat) (rot pbc : bool) (batches : list (list (list Z))) (sample : list (list Z)),
  chain_or_grid shape ->
  exists H H1 ref,
    run_calls (heisenberg_init shape rot pbc) batches = Ok H /\
    heisenberg_find_conn H sample = Ok (H1, ref) /\
    length (read_result H1 ref) = length sample /\
    forall i s r, nth_error sample i = Some s -> nth_error (read_result H1 ref) i = Some r ->
      spins (sites_of shape) s ->
      length (all_conn r) = max_number_of_local_connections shape /\
      nth 0 (all_conn r) [] = s /\ nth 0 (all_use r) false = true /\
      (forall t, used_row_sum (all_conn r) (all_mel r) (all_use r) t =
                 heisenberg_element (if rot then -2 else 2) (shape_bonds shape pbc) s t) /\
      (forall k, (0 < k < length (all_conn r))%nat ->
         if nth k (all_use r) false then
           nth k (all_mel r) 0 = (if rot then -2 else 2) /\ sumZ (nth k (all_conn r) []) = sumZ s /\
           nth k (all_conn r) [] <> s /\ spins (sites_of shape) (nth k (all_conn r) [])
         else nth k (all_mel r) 0 = 0).
Proof. exact heisenberg_rows. Qed.
Print Assumptions C21_matrix_row.
Example C21_matrix_row_ex : chain_or_grid [2; 3]%nat /\ spins (sites_of [2; 3]%nat) [1; -1; 1; 1; -1; -1].
Proof.
  split.
  - right. exists 2%nat, 3%nat. repeat split; lia.
  - split; [reflexivity|]. unfold is_spin. repeat constructor; lia.
Qed.

(** C21: the specified matrix is symmetric for the bonds of chains and grids. *)
Theorem C21_symmetric : forall (off : Z) (n : nat) (bonds : list (nat * nat)) (s t : list Z),
  bonds_ok n bonds -> length s = n -> length t = n ->
  heisenberg_element off bonds s t = heisenberg_element off bonds t s.
Proof. exact heisenberg_symmetric. Qed.
Print Assumptions C21_symmetric.
Example C21_symmetric_ex : bonds_ok 6 (grid_bonds 2 3 true).
Proof. exact (grid_bonds_ok 2 3 true). Qed.

(** C22: the result of a call does not depend on the calls made before. *)
Theorem C22_history_independent : forall (shape : list nat) (rot pbc : bool) (batches : list (list (list Z))) (sample : list (list Z)),
  chain_or_grid shape ->
  exists H H1 H2 ref1 ref2,
    run_calls (heisenberg_init shape rot pbc) batches = Ok H /\
    heisenberg_find_conn H sample = Ok (H1, ref1) /\
    heisenberg_find_conn (heisenberg_init shape rot pbc) sample = Ok (H2, ref2) /\
    read_result H1 ref1 = read_result H2 ref2.
Proof. exact history_independent. Qed.
Print Assumptions C22_history_independent.
Example C22_history_independent_ex : chain_or_grid [4]%nat.
Proof. left. exists 4%nat. split; [reflexivity|lia]. Qed.

(** C22: the returned arrays are overwritten by the next call with the same batch size, and by no other. *)
Theorem C22_results_alias : forall (shape : list nat) (rot pbc : bool) (s1 s2 : list (list Z)),
  chain_or_grid shape ->
  exists H1 H2 ref1 ref2,
    heisenberg_find_conn (heisenberg_init shape rot pbc) s1 = Ok (H1, ref1) /\
    heisenberg_find_conn H1 s2 = Ok (H2, ref2) /\
    (length s1 = length s2 -> read_result H2 ref1 = read_result H2 ref2) /\
    (length s1 <> length s2 -> read_result H2 ref1 = read_result H1 ref1).
Proof. exact overwritten. Qed.
Print Assumptions C22_results_alias.
Example C22_results_alias_ex : chain_or_grid [2; 2]%nat /\ length [[1; 1; 1; -1]] = length [[-1; 1; 1; -1]].
Proof. split; [|reflexivity]. right. exists 2%nat, 2%nat. repeat split; lia. Qed.

(** C22: a result held across a later call can change: the claim that results are snapshots is false. *)
Theorem C22_snapshot_refuted : exists H1 H2 ref1 ref2,
  heisenberg_find_conn (heisenberg_init [2]%nat true false) [[1; 1]] = Ok (H1, ref1) /\
  heisenberg_find_conn H1 [[1; -1]] = Ok (H2, ref2) /\
  map all_mel (read_result H1 ref1) = [[1; 0; 0]] /\ map all_mel (read_result H2 ref1) = [[-1; -2; 0]].
Proof. eexists _, _, _, _. split; [reflexivity|]. split; [reflexivity|]. split; reflexivity. Qed.
Print Assumptions C22_snapshot_refuted.

(** C22: the first call appends a dimension to the declared shape of a chain operator. *)
Theorem C22_shape_mutation : forall (shape : list nat) (rot pbc : bool) (sample : list (list Z)), chain_or_grid shape ->
  exists H1 ref, heisenberg_find_conn (heisenberg_init shape rot pbc) sample = Ok (H1, ref) /\
    ham_shape H1 = (if (length shape =? 1)%nat then shape ++ [1%nat] else shape).
Proof. exact shape_mutation. Qed.
Print Assumptions C22_shape_mutation.
Example C22_shape_mutation_ex : chain_or_grid [5]%nat.
Proof. left. exists 5%nat. split; [reflexivity|lia]. Qed.

(** C23: zero magnetisation on an even number of sites gives spin states with sum zero. *)
Theorem C23_zero_magnetisation : forall (n : nat) (shuffles : list (list Z -> list Z)) (total_sz : Q),
  (total_sz == 0)%Q -> Nat.even n = true ->
  (forall f, In f shuffles -> forall l, Permutation (f l) l) ->
  exists states, random_states n total_sz shuffles = Ok states /\ length states = length shuffles /\
    forall s, In s states -> spins n s /\ sumZ s = 0.
Proof. exact (fun n sh q => random_states_zero n sh q). Qed.
Print Assumptions C23_zero_magnetisation.
Example C23_zero_magnetisation_ex : forall l : list Z, Permutation (rev l) l.
Proof. intros l. symmetry. apply Permutation_rev. Qed.

(** C23: every other request raises: no state with a non zero requested magnetisation is ever produced. *)
Theorem C23_other_requests_raise : forall (n : nat) (shuffles : list (list Z -> list Z)) (total_sz : Q),
  shuffles <> [] -> (forall f, In f shuffles -> forall l, Permutation (f l) l) ->
  ~ (total_sz == 0)%Q \/ Nat.even n = false ->
  exists e, random_states n total_sz shuffles = Err e.
Proof. exact random_states_other. Qed.
Print Assumptions C23_other_requests_raise.
Example C23_other_requests_raise_ex : random_states 4 1 [fun l => l] = Err AssertionError.
Proof. reflexivity. Qed.
