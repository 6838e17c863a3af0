(** C93: early stopping with several workers. *)
From Coq Require Import List ZArith Reals Bool Arith String Lra Lia.
From Verif Require Import Base Cplx LatticeSpec AutoregressiveSpec ObservableModel ObservableSpec ExactModel ExactSpec ExactOperatorProofs CheckpointModel CallbackModel CallbackProps
  MonteCarloModel MonteCarloProofs EigenStoppingSpec EigenStoppingProofs.
Import ListNotations.
Local Open Scope R_scope.

(** The logs of one worker that BadEigenStateStopping reads. *)
Definition worker_logs (st : step) : logs := [("energy/energy", Re (energy_of_step st)); ("energy/local_energy_variance", variance_of_step st)]%string.

Lemma worker_decides st bound vt tol me k : bound <> 0 ->
  ((me <= k)%nat /\ bound + tol * Rabs bound < Re (energy_of_step st) /\ variance_of_step st < vt -> asks_to_stop bound vt tol me k (worker_logs st)) /\
  (~ ((me <= k)%nat /\ bound + tol * Rabs bound < Re (energy_of_step st) /\ variance_of_step st < vt) -> lets_continue bound vt tol me k (worker_logs st)).
Proof.
  intros Hb. split.
  - intros (A & B & D) w W. destruct (C54_early_stopping bound vt tol me k w (worker_logs st) (Re (energy_of_step st)) (variance_of_step st) Hb) as (w' & E & S & _ & T & _);
      [right; repeat split|]. exists w'. split; [exact E|]. split; [apply S; right; auto|apply T; auto].
  - intros N w. destruct (C54_early_stopping bound vt tol me k w (worker_logs st) (Re (energy_of_step st)) (variance_of_step st) Hb) as (w' & E & _ & _ & _ & T); [right; repeat split|].
    rewrite E, T; [reflexivity|]. destruct (le_lt_dec me k) as [A|A]; [|now left]. right. destruct (Rlt_dec (bound + tol * Rabs bound) (Re (energy_of_step st))); [|now left]. right. tauto.
Qed.

(** With horovod the energy is averaged over the workers but the variance is not. So workers with the same weights and the same reported energy can decide
    differently: here the first asks to stop and the second goes on, and waits for the first in its next step. *)
Theorem C93_workers_refuted : forall (h : R), 2 / 15 <= h ->
  let op := ising_operator 1 h false [1%nat] in
  exists st1 st2, horovod_next_batches op tilted [[[1]; [1]]; [[1]; [-1]]]%Z = Ok [st1; st2] /\
    energy_of_step st1 = energy_of_step st2 /\ Re (energy_of_step st1) = - (7 / 8) * h /\ variance_of_step st1 = 0 /\ variance_of_step st2 = 9 / 16 * h ^ 2 /\
    forall k, (10 <= k)%nat -> asks_to_stop (- h) (1 / 100) (1 / 10) 10 k (worker_logs st1) /\ lets_continue (- h) (1 / 100) (1 / 10) 10 k (worker_logs st2).
Proof.
  intros h Hh op. set (H := ising_matrix 1 h false [1%nat]).
  assert (HO : operator_represents 1 H op).
  { apply (ising_operator_represents 1 h false [1%nat]). left. exists 1%nat. split; [reflexivity|]. right. split; [reflexivity|lia]. }
  destruct (tilted_local h) as [U D]. fold H in U, D.
  assert (I : forall s, In s (List.concat [[[1]; [1]]; [[1]; [-1]]]%Z) -> In s (spin_configs 1)).
  { intros s Is. cbn in Is. destruct Is as [<- | [<- | [<- | [<- | []]]]]; [now left|now left|now left|right; now left]. }
  assert (F : Forall (fun c : list (list Z) => List.length c = 2%nat) [[[1]; [1]]; [[1]; [-1]]]%Z) by (repeat constructor).
  pose proof (horovod_ok 1 H op tilted 2 [[[1]; [1]]; [[1]; [-1]]]%Z ltac:(lia) ltac:(discriminate) F HO I) as E. cbn [map List.concat app] in E.
  eexists _, _. split; [exact E|]. cbn [energy_of_step variance_of_step].
  assert (M : Re (spec_energy 1 H tilted [[1]; [1]; [1]; [-1]]%Z) = - (7 / 8) * h).
  { unfold spec_energy. rewrite Re_scale, Re_Csum. cbn [Rsum fold_right map List.length]. rewrite U, D. cbn [Re RtoC fst INR]. field. }
  assert (V1 : Rvar [Re (local_energy 1 H tilted [1]%Z); Re (local_energy 1 H tilted [1]%Z)] = 0).
  { unfold Rvar, Rmean. rewrite U. cbn [Re RtoC fst Rsum fold_right map List.length INR]. field. }
  assert (V2 : Rvar [Re (local_energy 1 H tilted [1]%Z); Re (local_energy 1 H tilted [-1]%Z)] = 9 / 16 * h ^ 2).
  { unfold Rvar, Rmean. rewrite U, D. cbn [Re RtoC fst Rsum fold_right map List.length INR]. field. }
  split; [reflexivity|]. split; [exact M|]. split; [exact V1|]. split; [exact V2|]. intros k K. split.
  - apply worker_decides; [lra|]. cbn [energy_of_step variance_of_step]. rewrite M, V1, Rabs_Ropp, Rabs_right by lra. split; [exact K|]. split; lra.
  - apply worker_decides; [lra|]. cbn [energy_of_step variance_of_step]. rewrite V2. intros (_ & _ & B). nra.
Qed.
Print Assumptions C93_workers_refuted.
Example C93_workers_ex : 2 / 15 <= 1 /\ (10 <= 10)%nat.
Proof. split; [lra|lia]. Qed.
