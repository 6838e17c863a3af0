(** Property C90 (examples/j1j2_2d_exact_4.py:22-42, 83, 93): the total spin that the example logs, and the conserved total spin. *)
From Coq Require Import String List ZArith Lia Bool Arith Reals Lra Permutation.
From Verif Require Import Base Cplx LatticeSpec HeisenbergProofs AutoregressiveSpec ObservableModel ObservableSpec ObservableProofs ExactModel ExactSpec ExactProofs
  ExactOperatorProofs ExactCallbackModel ExactCallbackProps J1J2Model J1J2Spec NetketModel NetketProofs J1J2OperatorModel J1J2OperatorProofs RotationProofs
  TotalSpinModel TotalSpinSpec TotalSpinProofs.
Import ListNotations.
Local Open Scope nat_scope.

(** C90: the operator is constructed whatever configuration is drawn, keeps its one connection over every history of calls, and is the number of sites
    times the identity. *)
Theorem C90_operator : forall shape r, In r (spin_configs (sites_of shape)) ->
  exists g W, new_total_spin shape r = Ok (g, W) /\
    (forall batches, (forall b, In b batches -> b <> [] /\ forall s, In s b -> In s (spin_configs (sites_of shape))) -> netket_calls g W batches = Ok W) /\
    operator_represents (sites_of shape) (scalar_matrix (INR (sites_of shape))) (total_spin_operator g W).
Proof.
  intros shape r Hr. eexists _, _. split; [now apply new_total_spin_ok|]. split; [intros batches HB; now apply self_history|apply self_represents].
Qed.
Print Assumptions C90_operator.
Example C90_operator_ex : In [1; -1; -1; 1]%Z (spin_configs (sites_of [2; 2])) /\ self_edges [2; 2] = [(0, 0, 1); (1, 1, 1); (2, 2, 1); (3, 3, 1)].
Proof. split; [vm_compute; tauto|reflexivity]. Qed.

(** C90: so the callback of the example logs the number of sites for every wave function. *)
Theorem C90_logged : forall shape r g W n H op batch past e lp t, n = sites_of shape -> (n <= 31)%nat -> operator_represents n H op ->
  good_batch_size n batch -> built n op batch past e -> In r (spin_configs n) -> new_total_spin shape r = Ok (g, W) ->
  exists c cs w, new_observable e (total_spin_operator g W) "total_spin" false = Ok c /\
    exact_evaluate [c] {| variation := new_variational e; machine := lp; time := t |} = Ok (cs, w, [("observables/total_spin", INR n)%string]).
Proof.
  intros shape r g W n H op batch past e lp t -> Hn HO HB HE Hr E. rewrite (new_total_spin_ok shape r Hr) in E. injection E as <- <-.
  destruct (C61_observable _ H op batch past e lp t _ _ "total_spin" Hn HO (self_represents shape false) HB HE) as (c & cs & w & E1 & E2).
  exists c, cs, w. split; [exact E1|]. rewrite E2. do 4 f_equal.
  rewrite (eigen_expectation _ _ (INR (sites_of shape))); [reflexivity|]. intros s Hs. now apply scalar_apply.
Qed.
Print Assumptions C90_logged.
Example C90_logged_ex : sites_of [3; 3] = 9 /\ In [1; 1; 1; 1; 1; 1; 1; 1; 1]%Z (spin_configs 9) /\
  exists H op batch past e, 9 <= 31 /\ operator_represents 9 H op /\ good_batch_size 9 batch /\ built 9 op batch past e.
Proof.
  split; [reflexivity|]. split; [now left|]. assert (G : good_shape [3; 3] false) by (right; exists 3, 3; split; [reflexivity|lia]).
  pose proof (ising_operator_represents 1 1 false [3; 3] G) as HO. assert (HB : good_batch_size 9 64) by (split; [lia|reflexivity]).
  destruct (built_ok 9 _ _ 64 [] ltac:(lia) HO HB) as (e & He & _). eexists _, _, 64, [], e. split; [lia|]. split; [exact HO|]. now split.
Qed.

(** C90: that is not the total spin: for every number of sites the wave function with equal amplitudes has 4 S(S+1) = n (n + 2), and two spins have a
    singlet with total spin 0. *)
Theorem C90_total_spin_refuted :
  (forall n, 0 < n -> expectation n (total_spin_matrix n) (fun _ => C0) = RtoC (INR (n * (n + 2))) /\
     expectation n (scalar_matrix (INR n)) (fun _ => C0) = RtoC (INR n) /\ INR (n * (n + 2)) <> INR n) /\
  (forall s, In s (spin_configs 2) -> apply_matrix 2 (total_spin_matrix 2) singlet s = C0 /\ apply_matrix 2 (scalar_matrix (INR 2)) singlet s = (RtoC 2 * singlet s)%C) /\
  singlet [1; -1]%Z = C1.
Proof.
  split; [|split; [|reflexivity]].
  - intros n Hn. split; [|split].
    + apply eigen_expectation. intros s Hs. now apply (uniform_total n (fun _ => Cexp C0)).
    + apply eigen_expectation. intros s Hs. now apply scalar_apply.
    + apply not_INR. nia.
  - intros s Hs. split; [now apply singlet_total|]. rewrite scalar_apply by exact Hs. reflexivity.
Qed.
Print Assumptions C90_total_spin_refuted.

(** C90: the total spin is conserved: it commutes with the unrotated Heisenberg matrix of every chain and grid and with the J1-J2 matrix ... *)
Theorem C90_conserved : forall psi,
  (forall shape pbc s, chain_or_grid shape -> In s (spin_configs (sites_of shape)) ->
     let n := sites_of shape in let H := heisenberg_matrix false pbc shape in
     apply_matrix n (total_spin_matrix n) (apply_matrix n H psi) s = apply_matrix n H (apply_matrix n (total_spin_matrix n) psi) s) /\
  (forall L1 L2 j2 pbc s, j1j2_grid L1 L2 pbc -> In s (spin_configs (L1 * L2)) ->
     let n := L1 * L2 in let H := j1j2_matrix L1 L2 j2 pbc in
     apply_matrix n (total_spin_matrix n) (apply_matrix n H psi) s = apply_matrix n H (apply_matrix n (total_spin_matrix n) psi) s).
Proof. intros psi. split; intros; [now apply heisenberg_conserves|now apply j1j2_conserves_spin]. Qed.
Print Assumptions C90_conserved.
Example C90_conserved_ex : chain_or_grid [3; 4] /\ j1j2_grid 4 4 false /\ In [1; -1; 1]%Z (spin_configs (sites_of [3])).
Proof. split; [right; exists 3, 4; split; [reflexivity|lia]|]. split; [split; [lia|discriminate]|vm_compute; tauto]. Qed.

(** ... but not with the rotated one, which is the default: already on the open chain of three sites. *)
Theorem C90_rotated_refuted : exists psi s, In s (spin_configs 3) /\
  apply_matrix 3 (total_spin_matrix 3) (apply_matrix 3 (heisenberg_matrix true false [3]) psi) s <>
  apply_matrix 3 (heisenberg_matrix true false [3]) (apply_matrix 3 (total_spin_matrix 3) psi) s.
Proof. exists (fun _ => C1), [-1; 1; 1]%Z. split; [vm_compute; tauto|exact rotated_not_conserved]. Qed.
Print Assumptions C90_rotated_refuted.
