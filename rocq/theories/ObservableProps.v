(** Properties C26, C27, C28 (observables/monte_carlo, optimization/variational_monte_carlo.py, loss.py). *)
From Coq Require Import List ZArith Reals Lra Lia Bool Arith.
From Verif Require Import Base Cplx AutoregressiveSpec LatticeSpec IsingModel HeisenbergModel HeisenbergProofs
  ObservableModel ObservableSpec ObservableProofs.
Import ListNotations.

(** C26: both evaluation paths, hence [local_values] whatever the threshold decides, return
    sum_k mel_k psi(s_k)/psi(s) for every sample. *)
Theorem C26_both_paths : forall (log_psi : list Z -> C) (K : nat) (c : connections) (samples : list (list Z)),
  rectangular K (length samples) c -> 0 < K -> first_is_sample samples c -> unused_vanish K (length samples) c ->
  let result := map (fun b => local_energy_of log_psi K c b (nth b samples [])) (seq 0 (length samples)) in
  local_values_unbalanced log_psi (length samples) c = Ok result /\
  local_values_balanced log_psi (length samples) c = Ok result /\
  local_values log_psi (length samples) c = Ok result.
Proof.
  intros lp K c samples R HK HF HU result. split; [now apply unbalanced_ok|].
  split; [now apply balanced_ok | now apply local_values_ok].
Qed.
Print Assumptions C26_both_paths.
Definition C26_case : connections :=
  {| conns := [[[1; -1]; [1; 1]]; [[-1; 1]; [1; 1]]]%Z; mels := [[RtoC 1; RtoC 2]; [RtoC 3; C0]];
     uses := [[true; true]; [true; false]] |}.
Example C26_both_paths_ex : rectangular 2 2 C26_case /\ first_is_sample [[1; -1]; [1; 1]]%Z C26_case /\ unused_vanish 2 2 C26_case.
Proof.
  split; [|split].
  - unfold rectangular, arrays. repeat split; repeat constructor.
  - intros [|[|[|b]]] s H; cbn in H; try discriminate; injection H as <-; split; reflexivity.
  - intros [|[|k]] [|[|b]] Hk Hb; try lia; cbn; try discriminate; reflexivity.
Qed.

(** C26: for arrays that represent the rows of a matrix, the local values are (H psi)(s) / psi(s). *)
Theorem C26_matrix : forall (n K : nat) (H : list Z -> list Z -> C) (samples : list (list Z)) (c : connections) (log_psi : list Z -> C),
  0 < K -> represents n K H samples c ->
  local_values log_psi (length samples) c = Ok (map (local_energy n H log_psi) samples).
Proof. exact local_values_matrix. Qed.
Print Assumptions C26_matrix.
Example C26_matrix_ex : exists conn mel use, ising_find_conn 1 (PyFloat 2) true [2; 2] [[1; -1; 1; 1]; [1; 1; 1; 1]]%Z = Ok (conn, mel, use) /\
  represents (sites_of [2; 2]) (ising_max_conn [2; 2])
    (fun s t => RtoC (ising_element 1 2 (shape_bonds [2; 2] true) s t)) [[1; -1; 1; 1]; [1; 1; 1; 1]]%Z (of_real_arrays conn mel use).
Proof.
  apply ising_represents; [right; exists 2, 2; repeat split; lia|].
  intros s [<-|[<-|[]]]; (split; [reflexivity|]); unfold is_spin; repeat constructor; lia.
Qed.

(** C26 for the Ising operator. *)
Theorem C26_ising : forall (J h : R) (pbc : bool) (shape : list nat) (samples : list (list Z)) (log_psi : list Z -> C),
  good_shape shape pbc -> (forall s, In s samples -> spins (sites_of shape) s) ->
  exists conn mel use, ising_find_conn J (PyFloat h) pbc shape samples = Ok (conn, mel, use) /\
    local_values log_psi (length samples) (of_real_arrays conn mel use) =
    Ok (map (local_energy (sites_of shape) (fun s t => RtoC (ising_element J h (shape_bonds shape pbc) s t)) log_psi) samples).
Proof.
  intros J h pbc shape samples lp G Hs. destruct (ising_represents J h pbc shape samples G Hs) as (conn & mel & use & E & HR).
  exists conn, mel, use. split; [exact E|]. apply (local_values_matrix _ (ising_max_conn shape)); [|exact HR].
  unfold ising_max_conn. lia.
Qed.
Print Assumptions C26_ising.
Example C26_ising_ex : good_shape [2; 2] true /\ spins (sites_of [2; 2]) [1; -1; 1; 1]%Z.
Proof.
  split; [right; exists 2, 2; repeat split; lia|]. split; [reflexivity|]. unfold is_spin. repeat constructor; lia.
Qed.

(** C26 for the Heisenberg operator, whatever calls were made before. *)
Theorem C26_heisenberg : forall (shape : list nat) (rot pbc : bool) (batches : list (list (list Z))) (samples : list (list Z))
    (log_psi : list Z -> C),
  chain_or_grid shape -> (forall s, In s samples -> spins (sites_of shape) s) ->
  exists H H1 ref,
    run_calls (heisenberg_init shape rot pbc) batches = Ok H /\
    heisenberg_find_conn H samples = Ok (H1, ref) /\
    local_values log_psi (length samples)
      (of_samples (max_number_of_local_connections shape) (map (fun r => (all_conn r, all_mel r, all_use r)) (read_result H1 ref))) =
    Ok (map (local_energy (sites_of shape)
      (fun s t => RtoC (IZR (heisenberg_element (if rot then -2 else 2) (shape_bonds shape pbc) s t))) log_psi) samples).
Proof.
  intros shape rot pbc batches samples lp G Hs.
  destruct (heisenberg_represents shape rot pbc batches samples G Hs) as (H & H1 & ref & E1 & E2 & HR).
  exists H, H1, ref. split; [exact E1|]. split; [exact E2|].
  apply (local_values_matrix _ (max_number_of_local_connections shape)); [|exact HR].
  unfold max_number_of_local_connections. lia.
Qed.
Print Assumptions C26_heisenberg.
Example C26_heisenberg_ex : chain_or_grid [4] /\ spins (sites_of [4]) [1; -1; 1; 1]%Z.
Proof.
  split; [left; exists 4; split; [reflexivity|lia]|]. split; [reflexivity|]. unfold is_spin. repeat constructor; lia.
Qed.

(** C26 without the hypothesis on unused connections fails: an operator that leaves a non zero element in an unused
    connection gets different local energies from the two paths. *)
Theorem C26_unused_element_refuted : exists c : connections,
  rectangular 2 1 c /\ first_is_sample [[1]]%Z c /\
  local_values_unbalanced (fun _ => C0) 1 c = Ok [RtoC 1] /\ local_values_balanced (fun _ => C0) 1 c = Ok [RtoC 2].
Proof.
  exists {| conns := [[[1]]; [[-1]]]%Z; mels := [[RtoC 1]; [RtoC 1]]; uses := [[true]; [false]] |}.
  assert (E : Cexp (C0 - C0)%C = C1) by (replace (C0 - C0)%C with C0 by ring; exact Cexp_0).
  split; [|split; [|split]].
  - unfold rectangular, arrays. repeat split; repeat constructor.
  - intros [|[|b]] s H; cbn in H; try discriminate; injection H as <-; split; reflexivity.
  - unfold local_values_unbalanced. cbn -[Cexp Cminus C0 Cmult RtoC]. rewrite E. do 2 f_equal.
    unfold Cmult, Cplus, RtoC, C1, C0. cbn [fst snd]. f_equal; ring.
  - unfold local_values_balanced. cbn -[Cexp Cminus C0 Cmult RtoC]. rewrite E. do 2 f_equal.
    unfold Cmult, Cplus, RtoC, C1, C0. cbn [fst snd]. f_equal; ring.
Qed.
Print Assumptions C26_unused_element_refuted.

(** C26: a sample without used connection makes the unbalanced path raise. *)
Theorem C26_no_used_connection_raises : forall (log_psi : list Z -> C) (s : list Z) (m : C),
  local_values log_psi 1 {| conns := [[s]]; mels := [[m]]; uses := [[false]] |} = Err IndexError.
Proof. reflexivity. Qed.
Print Assumptions C26_no_used_connection_raises.
Example C26_no_used_connection_raises_ex :
  local_values (fun _ => C0) 1 {| conns := [[[1]%Z]]; mels := [[C0]]; uses := [[false]] |} = Err IndexError.
Proof. reflexivity. Qed.

Local Open Scope R_scope.

(** C27: if log_psi is an eigenstate then all local values and their mean are the eigenvalue and the variance is 0. *)
Theorem C27_eigenstate : forall (n K : nat) (H : list Z -> list Z -> C) (samples : list (list Z)) (c : connections)
    (log_psi : list Z -> C) (E : C),
  (0 < K)%nat -> represents n K H samples c -> samples <> [] -> (forall s, In s samples -> In s (spin_configs n)) ->
  eigenstate n H E log_psi ->
  exists l, local_values log_psi (length samples) c = Ok l /\ (forall z, In z l -> z = E) /\
    mean_value (estimate l) = E /\ variance (estimate l) = 0.
Proof. exact zero_variance. Qed.
Print Assumptions C27_eigenstate.
(** The constant function is the ground state of the field alone: one spin, J = 0, h = 1, energy -1. *)
Example C27_eigenstate_ex :
  eigenstate 1 (fun s t => RtoC (ising_element 0 1 (shape_bonds [1%nat] false) s t)) (RtoC (-1)) (fun _ => C0) /\
  exists conn mel use, ising_find_conn 0 (PyFloat 1) false [1%nat] [[1]; [-1]]%Z = Ok (conn, mel, use) /\
    represents (sites_of [1%nat]) (ising_max_conn [1%nat])
      (fun s t => RtoC (ising_element 0 1 (shape_bonds [1%nat] false) s t)) [[1]; [-1]]%Z (of_real_arrays conn mel use).
Proof.
  split.
  - intros s [<-|[<-|[]]]; unfold apply_matrix, spin_configs; cbn [strings flat_map map app];
      unfold Csum, ising_element; cbn -[Cexp]; rewrite Cexp_0;
      unfold Cmult, Cplus, RtoC, C1, C0, Rsum; cbn [fst snd fold_right]; f_equal; ring.
  - apply ising_represents.
    + left. exists 1%nat. split; [reflexivity|]. right. split; [reflexivity|lia].
    + intros s [<-|[<-|[]]]; (split; [reflexivity|]); unfold is_spin; repeat constructor; lia.
Qed.

(** C27: the variance is never negative, and it vanishes only if all local values have the same real part. *)
Theorem C27_variance_nonneg : forall l : list C, l <> [] ->
  0 <= variance (estimate l) /\
  (variance (estimate l) = 0 -> forall z, In z l -> Re z = Re (mean_value (estimate l))).
Proof. exact variance_facts. Qed.
Print Assumptions C27_variance_nonneg.
Example C27_variance_nonneg_ex : [RtoC 1; RtoC 2] <> [].
Proof. discriminate. Qed.

(** C27: zero variance does not imply an eigenstate: the variance ignores imaginary parts. One spin in a transverse
    field with psi(-1) = i psi(1), both configurations sampled. *)
Theorem C27_converse_refuted :
  exists conn mel use l, ising_find_conn 0 (PyFloat (-1)) false [1%nat] [[1]; [-1]]%Z = Ok (conn, mel, use) /\
    local_values tilted 2 (of_real_arrays conn mel use) = Ok l /\ l = [(0, 1); (0, -1)] /\
    variance (estimate l) = 0 /\
    forall E, ~ eigenstate 1 (fun s t => RtoC (ising_element 0 (-1) (shape_bonds [1%nat] false) s t)) E tilted.
Proof. exact variance_blind. Qed.
Print Assumptions C27_converse_refuted.

(** C28: the coefficients of a batch sum to zero and adding a constant to log psi does not change the loss. *)
Theorem C28_centred : forall (B : nat) (l : list C), l <> [] ->
  Csum (fun z => z) (loss_coefficients B (mean_value (estimate l)) l) = C0 /\
  forall (predictions : list C) (k : C), length l = length predictions ->
    let ys := loss_coefficients B (mean_value (estimate l)) l in
    batch_loss ys (map (fun p => (p + k)%C) predictions) = batch_loss ys predictions.
Proof. exact (fun B l N => conj (centred B l N) (fun ps k L => shift_no_loss B l ps k N L)). Qed.
Print Assumptions C28_centred.
Example C28_centred_ex : [(1, 2); (3, -1)] <> [] /\ length [(1, 2); (3, -1)] = length [RtoC 1; RtoC 5].
Proof. split; [discriminate|reflexivity]. Qed.

(** C28: with workers of equal batch size the coefficients of all workers together sum to zero, and the average of the
    workers' losses is the number of workers times the loss on the union of the batches (the coefficients are divided
    by the batch size and Keras divides by it again). *)
Theorem C28_workers : forall (B : nat) (ls ps : list (list C)), (0 < B)%nat -> ls <> [] ->
  Forall2 (fun l p => length l = length p /\ length l = B) ls ps ->
  let n := length ls in
  Csum (fun z => z) (concat (horovod_coefficients B ls)) = C0 /\
  average (map2 batch_loss (horovod_coefficients B ls) ps) =
  INR n * batch_loss (loss_coefficients (n * B) (mean_value (estimate (concat ls))) (concat ls)) (concat ps).
Proof.
  intros B ls ps HB N F n. split; [|now apply workers].
  apply (workers_centred B); auto. clear N n. induction F as [|? ? ? ? [] ]; constructor; auto.
Qed.
Print Assumptions C28_workers.
Example C28_workers_ex : Forall2 (fun l p : list C => length l = length p /\ length l = 2%nat)
  [[C1; C0]; [C0; C1]] [[C1; C1]; [C0; C0]].
Proof. repeat constructor. Qed.

(** C28 as stated is false: two workers with one sample each. *)
Theorem C28_equal_to_union_refuted : exists ls ps : list (list C),
  Forall2 (fun l p => length l = length p /\ length l = 1%nat) ls ps /\
  average (map2 batch_loss (horovod_coefficients 1 ls) ps) = 1 /\
  batch_loss (loss_coefficients 2 (mean_value (estimate (concat ls))) (concat ls)) (concat ps) = 1 / 2.
Proof.
  exists [[RtoC 1]; [RtoC (-1)]], [[RtoC 1]; [C0]]. split; [repeat constructor|].
  unfold average, batch_loss, Rmean, horovod_coefficients, reduced_energy, loss_coefficients, loss_for_energy_minimization,
    estimate, Cmean, Rmean, Rsum, Csum, Cscale, Cconj, Cminus, Cmult, Cplus, RtoC, Re, Im, C0.
  cbn [map map2 concat app length fold_right fst snd mean_value]. simpl INR. split; field.
Qed.
Print Assumptions C28_equal_to_union_refuted.

(** C28: with unequal batch sizes the reduced energy is not the mean over the union and the coefficients are not centred. *)
Theorem C28_unequal_batches_refuted : exists ls : list (list C),
  reduced_energy (map (fun vs => mean_value (estimate vs)) ls) <> mean_value (estimate (concat ls)) /\
  Csum (fun z => z) (concat (map (fun l => loss_coefficients 1 (reduced_energy (map (fun vs => mean_value (estimate vs)) ls)) l) ls)) <> C0.
Proof.
  exists [[RtoC 1]; [C0; C0]].
  unfold reduced_energy, loss_coefficients, estimate, Cmean, Rmean, Rsum, Csum, Cscale, Cconj, Cminus, Cmult, Cplus, RtoC, Re, Im, C0.
  cbn [map concat app length fold_right fst snd mean_value]. simpl INR. split; intros E; injection E as E _; field_simplify in E; lra.
Qed.
Print Assumptions C28_unequal_batches_refuted.
