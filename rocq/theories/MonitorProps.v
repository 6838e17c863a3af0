(** C92: what the monitors of Keras see of the statistics of the library. *)
From Coq Require Import List ZArith Reals Bool Arith Lia Lra String.
From Verif Require Import Base Cplx IsingModel TrainingModel CheckpointModel CallbackModel CallbackSpec CallbackProofs MonitorModel MonitorSpec MonitorProofs.
Import ListNotations.

(** A training for the examples: the energies after 0, 1, 2, ... updates are 0, 5, 3, 3, ... *)
Definition example_energy (u : nat) : R := match u with 0 => 0%R | 1 => 5%R | _ => 3%R end.
Definition example_training : run :=
  {| seen := {| train := {| served := match new_generator 4 None with Ok g => g | Err _ => empty_generator end;
                            current_energy := fun k => RtoC (example_energy (k - 1)); current_local_energy_variance := fun _ => RtoC 0;
                            observable_value := fun _ _ => RtoC 0; start_time := fun _ => 0%R; sampling_end_time := fun _ => 1%R; local_energy_end_time := fun _ => 2%R |};
                val := {| served := empty_generator; current_energy := fun _ => RtoC 0; current_local_energy_variance := fun _ => RtoC 0;
                          observable_value := fun _ _ => RtoC 0; start_time := fun _ => 0%R; sampling_end_time := fun _ => 0%R; local_energy_end_time := fun _ => 0%R |};
                clock := fun k => INR k; reads := 0; stop_training := false; stopped_epoch := None |};
     diagnostics := Some (fun _ => (1, 0, 1, 1)%R); updates := 0; saved := [] |}.
Lemma example_new : new_run 4 example_training. Proof. split; [reflexivity|]. split; [discriminate|reflexivity]. Qed.
Lemma example_measures : measures example_energy (train (seen example_training)).
Proof. intros k. cbn [example_training seen train current_energy]. replace (S k - 1) with k by lia. reflexivity. Qed.

Lemma monitored_mon ib e0 m1 b m2 d p : map train_begin (monitored ib e0 m1 b m2 d p) = mon ib e0 m1 b m2 d p None 0.
Proof. reflexivity. Qed.

(** The callbacks of custom_keras_model.py log per batch (the default of log_in_batch_or_epoch), and nothing but the loss is in the logs of an epoch. So
    whatever key of the library the two monitors watch, and whatever the energies are, no weights are ever saved and the training never stops early. *)
Theorem C92_batch_logging_refuted : forall loss e0 m1 best m2 d p B steps n r, m1 <> "loss"%string -> m2 <> "loss"%string -> new_run B r ->
  exists cs' r' ls, keras_fit loss (monitored true e0 m1 best m2 d p) steps n r = Ok (cs', r', ls) /\
    saved r' = saved r /\ List.length ls = n /\ updates r' = steps * n /\ stop_training (seen r') = false /\
    (forall l key v, In l ls -> lookup key l = Some v -> key = "loss"%string).
Proof.
  intros loss e0 m1 best m2 d p B steps n r N1 N2 (F & D & U). unfold keras_fit. rewrite monitored_mon.
  destruct (run_mon_batch loss e0 m1 best m2 d p None 0 steps N1 N2 n 0 (with_world (set_stop false (seen r)) r)) as (r' & ls & G1 & G2 & G3 & G4 & G5 & G6);
    [reflexivity|exact (fresh_whole _ _ F)|exact D|].
  eexists _, r', ls. split; [exact G1|]. split; [exact G3|]. split; [exact G2|]. split; [rewrite G5; cbn [with_world updates]; lia|]. split; [exact G4|].
  intros l key v Hl Hk. rewrite Forall_forall in G6. destruct (G6 l Hl) as [x ->]. cbn [lookup] in Hk. destruct (String.eqb_spec "loss" key); congruence.
Qed.
Print Assumptions C92_batch_logging_refuted.
Example C92_batch_logging_ex : new_run 4 example_training /\
  custom_keras_model_callbacks true (-10) = monitored true (-10) "energy/energy" None "energy/relative_error" (1 / 100000) 0.
Proof. split; [exact example_new|reflexivity]. Qed.

(** With log_in_batch_or_epoch=False the checkpoint file holds the weights of the end of the epoch whose last batch had the lowest energy estimate (the first
    such epoch among those that were run). These weights have had one update more than those that the estimate belongs to. *)
Theorem C92_checkpoint : forall loss e0 d p B steps n r, p <= 1 -> 0 < steps -> 0 < n -> new_run B r ->
  exists cs' r' ls, keras_fit loss (monitored false e0 "energy/energy" None "energy/relative_error" d p) steps n r = Ok (cs', r', ls) /\
    0 < List.length ls /\
    let E := epoch_energy (train (seen r)) steps in
    (forall j, j < List.length ls -> lookup "energy/energy" (nth j ls []) = Some (E j)) /\
    exists i, last (saved r') (0, 0) = (i, steps * S i) /\ i < List.length ls /\
      (forall j, j < List.length ls -> (E i <= E j)%R) /\ (forall j, j < i -> (E i < E j)%R) /\
      (forall energy, measures energy (train (seen r)) -> E i = energy (steps * S i - 1)).
Proof.
  intros loss e0 d p B steps n r P S0 N0 (F & D & U). unfold keras_fit. rewrite monitored_mon. set (r0 := with_world (set_stop false (seen r)) r).
  destruct (fresh_cases _ _ _ F) as (_ & _ & _ & _ & F0). destruct n as [|n]; [lia|].
  destruct (run_mon loss (train (seen r)) e0 d p steps P S0 (S n) 0 r0 None None 0) as (cs' & r' & ls & G & M);
    [reflexivity|exact (fresh_whole _ _ F)|exact D|cbn [r0 with_world seen set_stop train]; lia|cbn [r0 with_world updates]; lia|apply same_refl|left; auto|reflexivity|intros j Hj; lia|].
  cbv zeta in M. cbn [Nat.add] in M. destruct M as (M1 & M2 & M3 & M4 & M5 & M6).
  assert (L0 : 0 < List.length ls). { destruct (stop_training (seen r')); [destruct M4; lia|destruct M4 as [M4 _]; lia]. }
  exists cs', r', ls. split; [exact G|]. split; [exact L0|]. cbv zeta. split; [intros j Hj; exact (proj1 (M6 j Hj))|].
  destruct M5 as [b [[Z _]|(i & (I1 & I2 & I3) & _ & La)]]; [lia|]. exists i. repeat (split; [assumption|]).
  intros energy Me. unfold epoch_energy. destruct (steps * S i) as [|k] eqn:K; [nia|]. rewrite Me. f_equal. lia.
Qed.
Print Assumptions C92_checkpoint.
Example C92_checkpoint_ex : new_run 4 example_training /\ measures example_energy (train (seen example_training)) /\ epoch_energy (train (seen example_training)) 1 1 = 5%R.
Proof. split; [exact example_new|]. split; [exact example_measures|reflexivity]. Qed.

(** So the file need not hold the best of the weights at the ends of the epochs, although the generator measures the energies without noise. *)
Theorem C92_best_weights_refuted : exists energy B steps n r, new_run B r /\ measures energy (train (seen r)) /\
  forall loss, exists cs' r' ls i u j, keras_fit loss (custom_keras_model_callbacks false (-10)) steps n r = Ok (cs', r', ls) /\
    List.length ls = n /\ last (saved r') (0, 0) = (i, u) /\ j < n /\ (energy (steps * S j)%nat < energy u)%R.
Proof.
  exists example_energy, 4, 1, 2, example_training. split; [exact example_new|]. split; [exact example_measures|]. intros loss.
  unfold keras_fit, custom_keras_model_callbacks. rewrite monitored_mon. set (r0 := with_world (set_stop false (seen example_training)) example_training).
  destruct (run_mon loss (train (seen example_training)) (-10) (1 / 100000) 0 1 ltac:(lia) ltac:(lia) 2 0 r0 None None 0) as (cs' & r' & ls & G & M);
    [reflexivity|exact (fresh_whole _ _ (proj1 example_new))|discriminate|reflexivity|reflexivity|apply same_refl|left; auto|reflexivity|intros j Hj; lia|].
  cbv zeta in M. cbn [Nat.add] in M. destruct M as (M1 & M2 & M3 & M4 & [b M5] & M6).
  assert (L : List.length ls = 2). { destruct (stop_training (seen r')); destruct M4; lia. } rewrite L in M5.
  destruct M5 as [[Z _]|(i & (I1 & I2 & _) & _ & La)]; [discriminate Z|].
  assert (I0 : i = 0).
  { destruct i as [|[|i]]; [reflexivity| |lia]. specialize (I2 0 ltac:(lia)). exfalso.
    change (epoch_energy (train (seen example_training)) 1 1) with 5%R in I2. change (epoch_energy (train (seen example_training)) 1 0) with 0%R in I2. lra. }
  subst i. exists cs', r', ls, 0, 1, 1. split; [exact G|]. split; [exact L|]. split; [exact La|]. split; [lia|]. cbn [example_energy Nat.mul Nat.add]. lra.
Qed.
Print Assumptions C92_best_weights_refuted.

(** EarlyStopping without patience and with log_in_batch_or_epoch=False: the training ends after the first epoch whose relative error is not below that of the
    epoch before by more than min_delta, and otherwise runs all epochs. Both errors come from a single batch. *)
Theorem C92_early_stopping : forall loss e0 d p B steps n r, p <= 1 -> 0 < steps -> new_run B r ->
  exists cs' r' ls, keras_fit loss (monitored false e0 "energy/energy" None "energy/relative_error" d p) steps n r = Ok (cs', r', ls) /\
    let m := List.length ls in
    let err := epoch_error e0 (train (seen r)) steps in
    m <= n /\ updates r' = steps * m /\
    (forall j, j < m -> lookup "energy/relative_error" (nth j ls []) = Some (err j)) /\
    (forall j, S j < m - 1 -> (err (S j) + d < err j)%R) /\
    (stop_training (seen r') = true -> 2 <= m /\ (err (m - 2)%nat <= err (m - 1)%nat + d)%R) /\
    (stop_training (seen r') = false -> m = n /\ forall j, S j < m -> (err (S j) + d < err j)%R).
Proof.
  intros loss e0 d p B steps n r P S0 (F & D & U). unfold keras_fit. rewrite monitored_mon. set (r0 := with_world (set_stop false (seen r)) r).
  destruct (fresh_cases _ _ _ F) as (_ & _ & _ & _ & F0).
  destruct (run_mon loss (train (seen r)) e0 d p steps P S0 n 0 r0 None None 0) as (cs' & r' & ls & G & M);
    [reflexivity|exact (fresh_whole _ _ F)|exact D|cbn [r0 with_world seen set_stop train]; lia|cbn [r0 with_world updates]; lia|apply same_refl|left; auto|reflexivity|intros j Hj; lia|].
  cbv zeta in M. cbn [Nat.add] in M. destruct M as (M1 & M2 & M3 & M4 & M5 & M6). exists cs', r', ls. split; [exact G|]. cbv zeta. split; [exact M1|]. split; [exact M2|].
  split; [intros j Hj; exact (proj2 (M6 j Hj))|]. split; [exact M3|]. destruct (stop_training (seen r')).
  - split; [intros _|discriminate]. destruct M4 as [A1 A2]. split; [exact A1|]. apply Rnot_lt_le in A2. lra.
  - split; [discriminate|]. intros _. exact M4.
Qed.
Print Assumptions C92_early_stopping.
Example C92_early_stopping_ex : new_run 4 example_training /\
  (epoch_error (-10) (train (seen example_training)) 1 0 <= epoch_error (-10) (train (seen example_training)) 1 1 + 1 / 100000)%R.
Proof. split; [exact example_new|]. unfold epoch_error, epoch_energy. cbn -[Rdiv Rle Rplus Rminus IZR]. unfold RtoC. cbn -[Rdiv Rle Rplus Rminus IZR]. lra. Qed.

(** MCMCStats with a sampler that has no calc_r_hat_value (the autoregressive ones): the first batch raises AttributeError. *)
Theorem C92_mcmc_refuted : forall loss ib e0 m1 best m2 d p B steps n r, 0 < steps -> 0 < n -> fresh B None (train (seen r)) -> diagnostics r = None ->
  keras_fit loss (monitored ib e0 m1 best m2 d p) steps n r = Err AttributeError.
Proof.
  intros loss ib e0 m1 best m2 d p B steps n r S0 N0 F D. destruct steps as [|s]; [lia|]. destruct n as [|n]; [lia|]. unfold keras_fit. rewrite monitored_mon.
  destruct (whole_next _ (fresh_whole _ _ F)) as [_ F1]. cbn [run_epochs with_world seen set_stop stop_training train_steps].
  rewrite (batch_mon_none ib e0 m1 best m2 d p None 0 0 _ _ (fetched (train (seen r)))); [reflexivity|exact F1|exact D].
Qed.
Print Assumptions C92_mcmc_refuted.
Example C92_mcmc_ex : fresh 4 None (train (seen example_training)).
Proof. exact (proj1 example_new). Qed.

(** MCMCStats writes its four values after each batch, or at the end of each epoch, and nothing else. *)
Theorem C92_mcmc_logged : forall (ib : bool) b e r l f k r_hat correlations effective acceptance, gen_fetched (served (train (seen r))) = S k -> diagnostics r = Some f ->
  f (S k) = (r_hat, correlations, effective, acceptance) ->
  (if ib then epoch_end e else batch_end b) (McmcStats ib) r l = Ok (McmcStats ib, r, l) /\
  exists l', (if ib then batch_end b else epoch_end e) (McmcStats ib) r l = Ok (McmcStats ib, r, l') /\
    lookup "mcmc/acceptance_ratio" l' = Some acceptance /\ lookup "mcmc/energy_r_hat" l' = Some r_hat /\
    lookup "mcmc/energy_effective_sample_size" l' = Some effective /\ lookup "mcmc/energy_correlations_sum" l' = Some correlations /\
    forall key, String.prefix "mcmc/" key = false -> lookup key l' = lookup key l.
Proof.
  intros ib b e r l f k q1 q2 q3 q4 F D Q. split; [destruct ib; reflexivity|].
  assert (A : add_mcmc_logs_to r l = Ok (set_log "mcmc/energy_correlations_sum" q2 (set_log "mcmc/energy_effective_sample_size" q3
            (set_log "mcmc/energy_r_hat" q1 (set_log "mcmc/acceptance_ratio" q4 l))))).
  { unfold add_mcmc_logs_to, attribute. rewrite D, F. cbn [bind]. rewrite Q. reflexivity. }
  eexists. split; [destruct ib; cbn [batch_end epoch_end]; rewrite A; reflexivity|].
  assert (N : forall key m v t, key <> m -> lookup key (set_log m v t) = lookup key t) by (intros; now apply lookup_set_other).
  assert (Y : forall key v t, lookup key (set_log key v t) = Some v) by (intros; apply lookup_set_same).
  split; [rewrite !N by discriminate; apply Y|]. split; [rewrite !N by discriminate; apply Y|]. split; [rewrite !N by discriminate; apply Y|]. split; [apply Y|].
  intros key K. rewrite !N; [reflexivity|..]; intros ->; discriminate K.
Qed.
Print Assumptions C92_mcmc_logged.
Example C92_mcmc_logged_ex : gen_fetched (served (vmc_next (train (seen example_training)))) = 1 /\ diagnostics example_training <> None.
Proof. split; [reflexivity|discriminate]. Qed.

(** The direction that the monitors take for the keys of the library: larger is better for the acceptance ratio, smaller for everything else. *)
Theorem C92_mode : forall x y,
  (better "mcmc/acceptance_ratio" x (Some y) = true <-> (y < x)%R) /\
  (forall key, In key ["energy/energy"; "energy/local_energy_variance"; "energy/relative_error"; "val_energy/energy"; "val_energy/relative_error";
                       "observables/sigma_z"; "observables/abs_sigma_z"; "mcmc/energy_r_hat"; "mcmc/energy_effective_sample_size"; "mcmc/energy_correlations_sum"; "loss"]%string ->
     (better key x (Some y) = true <-> (x < y)%R)).
Proof.
  intros x y. split.
  - unfold better. change (higher_is_better "mcmc/acceptance_ratio") with true. cbv iota. destruct (Rlt_dec y x); split; (easy || lra).
  - intros key K. unfold better. replace (higher_is_better key) with false; [destruct (Rlt_dec x y); split; (easy || lra)|].
    cbn [In] in K. repeat (destruct K as [<-|K]; [reflexivity|]). destruct K.
Qed.
Print Assumptions C92_mode.
Example C92_mode_ex : better "mcmc/acceptance_ratio" 1 (Some 0%R) = true /\ better "mcmc/energy_effective_sample_size" 1 (Some 0%R) = false.
Proof.
  split; [apply (proj1 (C92_mode 1 0)); lra|]. destruct (better "mcmc/energy_effective_sample_size" 1 (Some 0%R)) eqn:H; [|reflexivity].
  apply (proj2 (C92_mode 1 0) "mcmc/energy_effective_sample_size"%string ltac:(cbn; tauto)) in H. lra.
Qed.
