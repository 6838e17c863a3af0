(** Property C89 (operators/heisenberg.py:9-14): the unitary rotation of the Heisenberg operator. *)
From Coq Require Import List ZArith Lia Bool Arith Reals Lra.
From Verif Require Import Base Cplx LatticeSpec HeisenbergModel HeisenbergProofs AutoregressiveSpec ObservableModel ObservableSpec ObservableProofs ExactModel ExactSpec ExactProofs
  ExactOperatorProofs ExactProps RotationSpec RotationProofs RotationWitnessProofs.
Import ListNotations.
Local Open Scope R_scope.

(** C89: without odd rings the rotated matrix is the unrotated one between the signs of the sublattice. *)
Theorem C89_rotation : forall shape pbc s t, chain_or_grid shape -> bipartite shape pbc ->
  In s (spin_configs (sites_of shape)) -> In t (spin_configs (sites_of shape)) ->
  (sublattice_sign shape s = 1 \/ sublattice_sign shape s = -1)%Z /\
  heisenberg_matrix true pbc shape s t =
    (RtoC (IZR (sublattice_sign shape s)) * heisenberg_matrix false pbc shape s t * RtoC (IZR (sublattice_sign shape t)))%C.
Proof. intros shape pbc s t G B Hs _. apply spins_in in Hs. split; [now apply sign_values|now apply matrix_rotation]. Qed.
Print Assumptions C89_rotation.
Example C89_rotation_ex : chain_or_grid [2; 3]%nat /\ bipartite [2; 3]%nat false /\ bipartite [4; 1]%nat true /\
  sublattice_sign [2; 3]%nat [1; -1; 1; 1; -1; 1]%Z = (-1)%Z /\ heisenberg_matrix true false [2%nat] [1; -1]%Z [-1; 1]%Z = RtoC (-2).
Proof.
  split; [right; exists 2%nat, 3%nat; split; [reflexivity|lia]|]. split; [now left|].
  split; [right; constructor; [right; now exists 2%nat|constructor; [now left|constructor]]|]. split; reflexivity.
Qed.

(** C89: then every wave function has, for the rotated operator, the energy that the wave function with the signs has for the unrotated one, with the
    same probabilities; so both operators have the same lower bounds of the energy. *)
Theorem C89_energies : forall shape pbc, chain_or_grid shape -> bipartite shape pbc ->
  (forall lp, expectation (sites_of shape) (heisenberg_matrix true pbc shape) lp =
              expectation (sites_of shape) (heisenberg_matrix false pbc shape) (rotated shape lp) /\
              forall s, probability (sites_of shape) (rotated shape lp) s = probability (sites_of shape) lp s) /\
  (forall lambda, (forall lp, lambda <= Re (expectation (sites_of shape) (heisenberg_matrix true pbc shape) lp)) <->
                  (forall lp, lambda <= Re (expectation (sites_of shape) (heisenberg_matrix false pbc shape) lp))).
Proof.
  intros shape pbc G B. split.
  - intros lp. split; [now apply expectation_rotated|]. intros s. unfold probability. now rewrite rotated_born, norm2_rotated.
  - intros lambda. split; intros H lp.
    + specialize (H (rotated shape lp)). rewrite expectation_rotated in H by assumption.
      replace (expectation (sites_of shape) (heisenberg_matrix false pbc shape) lp)
        with (expectation (sites_of shape) (heisenberg_matrix false pbc shape) (rotated shape (rotated shape lp))); [exact H|].
      unfold expectation. rewrite !norm2_rotated. f_equal. unfold braket, apply_matrix. apply Csum_ext. intros s Hs. apply spins_in in Hs.
      rewrite rotated_twice by assumption. f_equal. apply Csum_ext. intros t Ht. apply spins_in in Ht. now rewrite rotated_twice.
    + rewrite expectation_rotated by assumption. apply H.
Qed.
Print Assumptions C89_energies.
Example C89_energies_ex : chain_or_grid [4; 4]%nat /\ bipartite [4; 4]%nat true.
Proof. split; [right; exists 4%nat, 4%nat; split; [reflexivity|lia]|]. right. constructor; [right; now exists 2%nat|]. constructor; [right; now exists 2%nat|constructor]. Qed.

(** C89 for the energies that ExactVariational reports with the two operators of the code. *)
Theorem C89_reported : forall shape pbc calls calls' Ham Ham' batch past past' lp, chain_or_grid shape -> bipartite shape pbc ->
  (sites_of shape <= 31)%nat -> good_batch_size (sites_of shape) batch ->
  run_calls (heisenberg_init shape true pbc) calls = Ok Ham -> run_calls (heisenberg_init shape false pbc) calls' = Ok Ham' ->
  exists e e' f f', built (sites_of shape) (heisenberg_operator Ham) batch past e /\ machine_updated lp e = Ok e' /\
    built (sites_of shape) (heisenberg_operator Ham') batch past' f /\ machine_updated (rotated shape lp) f = Ok f' /\
    current_energy e' = current_energy f'.
Proof.
  intros shape pbc calls calls' Ham Ham' batch past past' lp G B Hn HB E1 E2.
  destruct (C33_heisenberg shape true pbc calls Ham batch past lp G Hn HB E1) as (e & e' & He & He' & Ee).
  destruct (C33_heisenberg shape false pbc calls' Ham' batch past' (rotated shape lp) G Hn HB E2) as (f & f' & Hf & Hf' & Ef).
  exists e, e', f, f'. split; [exact He|]. split; [exact He'|]. split; [exact Hf|]. split; [exact Hf'|]. rewrite Ee, Ef. now apply expectation_rotated.
Qed.
Print Assumptions C89_reported.
Example C89_reported_ex : chain_or_grid [4%nat] /\ bipartite [4%nat] true /\ (sites_of [4%nat] <= 31)%nat /\ good_batch_size (sites_of [4%nat]) 8 /\
  run_calls (heisenberg_init [4%nat] true true) [] = Ok (heisenberg_init [4%nat] true true).
Proof.
  split; [left; exists 4%nat; split; [reflexivity|lia]|]. split; [right; constructor; [right; now exists 2%nat|constructor]|].
  split; [cbn; lia|]. split; [split; [lia|reflexivity]|reflexivity].
Qed.

(** C89: the condition is exact: some invertible diagonal matrix takes one operator to the other only if there is no odd ring. *)
Theorem C89_exactly_bipartite : forall shape pbc, chain_or_grid shape ->
  same_up_to_diagonal (sites_of shape) (heisenberg_matrix true pbc shape) (heisenberg_matrix false pbc shape) <-> bipartite shape pbc.
Proof. intros shape pbc G. split; [now apply bipartite_if_same|now apply same_if_bipartite]. Qed.
Print Assumptions C89_exactly_bipartite.
Example C89_exactly_bipartite_ex : chain_or_grid [7%nat] /\ ~ bipartite [7%nat] true.
Proof.
  split; [left; exists 7%nat; split; [reflexivity|lia]|]. intros [H|H]; [discriminate|]. inversion H as [|? ? [E|[k E]] _]; subst; [discriminate|lia].
Qed.

(** C89: on the ring of three spins the default operator has wave functions with an energy below every energy of the Heisenberg model. *)
Theorem C89_odd_ring_refuted : exists lp, forall lp',
  Re (expectation 3 (heisenberg_matrix true true [3%nat]) lp) < -3 <= Re (expectation 3 (heisenberg_matrix false true [3%nat]) lp').
Proof. exists mixed_first. intros lp'. split; [exact ring_three_rotated|apply ring_three_bound]. Qed.
Print Assumptions C89_odd_ring_refuted.

(** C89: with the rotation, on every chain and grid, and for the Ising operator with h >= 0, taking the phases away does not raise the energy. *)
Theorem C89_modulus : forall shape pbc lp,
  Re (expectation (sites_of shape) (heisenberg_matrix true pbc shape) (modulus lp)) <= Re (expectation (sites_of shape) (heisenberg_matrix true pbc shape) lp) /\
  forall J h, 0 <= h ->
    Re (expectation (sites_of shape) (ising_matrix J h pbc shape) (modulus lp)) <= Re (expectation (sites_of shape) (ising_matrix J h pbc shape) lp).
Proof.
  intros shape pbc lp. split.
  - apply (modulus_lowers _ (fun s t => IZR (heisenberg_element (-2) (shape_bonds shape pbc) s t))). intros s t _ _. apply rotated_offdiagonal.
  - intros J h Hh. apply (modulus_lowers _ (ising_element J h (shape_bonds shape pbc))). intros s t Hs Ht. apply spins_in in Hs. apply spins_in in Ht.
    destruct Hs as [Ls _]. destruct Ht as [Lt _]. apply ising_offdiagonal; auto. congruence.
Qed.
Print Assumptions C89_modulus.
Example C89_modulus_ex : modulus singlet_like [1; -1]%Z = C0 /\ singlet_like [1; -1]%Z <> C0.
Proof. split; [reflexivity|]. intros E. apply (f_equal snd) in E. cbn in E. pose proof PI_RGT_0. lra. Qed.

(** C89: without the rotation it does: two spins have a wave function below the energies of all positive ones. *)
Theorem C89_unrotated_refuted : exists lp, forall lp',
  Re (expectation 2 (heisenberg_matrix false false [2%nat]) lp) < Re (expectation 2 (heisenberg_matrix false false [2%nat]) (modulus lp')).
Proof. exists singlet_like. exact singlet_two. Qed.
Print Assumptions C89_unrotated_refuted.
