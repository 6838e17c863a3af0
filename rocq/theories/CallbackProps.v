(** C53, C54: evaluation and the callbacks of Monte Carlo training. *)
From Coq Require Import List ZArith Reals Bool Arith Lia Lra String.
From Verif Require Import Base Cplx IsingModel TrainingModel CheckpointModel CallbackModel CallbackSpec CallbackProofs.
Import ListNotations.

(** A world for the examples: the energy of the k-th batch is k. *)
Definition example_vmc (B : nat) (mini : option nat) : vmc :=
  {| served := match new_generator B mini with Ok g => g | Err _ => empty_generator end;
     current_energy := fun k => RtoC (INR k); current_local_energy_variance := fun k => RtoC 0; observable_value := fun _ _ => RtoC 0;
     start_time := fun _ => 0%R; sampling_end_time := fun _ => 1%R; local_energy_end_time := fun _ => 2%R |}.
Definition example_world (mini : option nat) : world :=
  {| train := example_vmc 4 None; val := example_vmc 4 mini; clock := fun k => INR k; reads := 0; stop_training := false; stopped_epoch := None |}.

(** * C53 *)

(** For every list of callbacks: when all steps log the keys of the first step, the result has these keys, each with the mean over the steps. *)
Theorem C53_mean : forall cs steps w l ls, logged cs steps 0 w = Ok (l :: ls) -> (forall key m, has key l -> In m ls -> has key m) ->
  exists w' r, evaluate cs None steps w = Ok (w', r) /\ map fst r = map fst l /\
    forall key, has key l -> lookup key r = Some (Rsum (value key) (l :: ls) / INR steps)%R.
Proof.
  intros cs steps w l ls E H. destruct (evaluate_loop_logged cs steps 0 w [] _ E) as [w' G]. cbn [app] in G. rewrite mean_logs_none, mean_logs_keys_ok in G.
  - cbn [bind] in G. eexists w', _. split; [exact G|]. split; [rewrite map_map; cbn [fst]; apply map_id|]. intros key K.
    rewrite lookup_map_key by (now apply has_In). unfold mean. rewrite map_length, (logged_length _ _ _ _ _ E). rewrite Rsum_map. reflexivity.
  - intros key m Hk [<-|Hm]; [now apply has_In|]. apply H; [now apply has_In|exact Hm].
Qed.
Print Assumptions C53_mean.
Example C53_mean_ex : exists l ls, logged [LocalEnergyStats None false false 1] 2 0 (example_world None) = Ok (l :: ls) /\ (forall key m, has key l -> In m ls -> has key m).
Proof. eexists. eexists. split; [reflexivity|]. intros key m Hk [<-|[]]. apply has_In in Hk. apply has_In. exact Hk. Qed.

(** Otherwise it raises KeyError; without steps IndexError; an error in a callback is passed on. *)
Theorem C53_missing_key : forall cs steps w l ls key m, logged cs steps 0 w = Ok (l :: ls) -> has key l -> In m ls -> ~ has key m ->
  evaluate cs None steps w = Err KeyError.
Proof.
  intros cs steps w l ls key m E K Hm N. destruct (evaluate_loop_logged cs steps 0 w [] _ E) as [w' G]. cbn [app] in G. rewrite mean_logs_none, mean_logs_keys_err in G; [exact G|].
  exists key, m. split; [now apply has_In|]. split; [now right|exact N].
Qed.
Print Assumptions C53_missing_key.
Example C53_missing_key_ex : evaluate [GeneratorIterator 2; LocalEnergyStats None false true 2] None 1 (example_world None) <> Err KeyError /\
  evaluate [GeneratorIterator 2; LocalEnergyStats None false true 2] None 2 (example_world None) = Err KeyError.
Proof. split; [vm_compute; discriminate|vm_compute; reflexivity]. Qed.
Theorem C53_no_steps : forall cs w, evaluate cs None 0 w = Err IndexError.
Proof. reflexivity. Qed.
Print Assumptions C53_no_steps.
Theorem C53_errors : forall cs steps w e, logged cs steps 0 w = Err e -> evaluate cs None steps w = Err e.
Proof. intros cs steps w e. apply evaluate_loop_err. Qed.
Print Assumptions C53_errors.
Example C53_errors_ex : logged [LocalEnergyStats None false true 1] 2 0 (example_world None) = Err AttributeError.
Proof. reflexivity. Qed.

(** Keys for the progress bar change nothing when every step logs them, and raise KeyError otherwise. *)
Theorem C53_progress_bar : forall cs keys steps w ls, logged cs steps 0 w = Ok ls ->
  ((forall key l, In key keys -> In l ls -> has key l) -> evaluate cs (Some keys) steps w = evaluate cs None steps w) /\
  ((exists key l, In key keys /\ In l ls /\ ~ has key l) -> evaluate cs (Some keys) steps w = Err KeyError).
Proof.
  intros cs keys steps w ls E. split; intros H.
  - now apply (evaluate_loop_keys cs keys steps 0 w [] ls E).
  - now apply (evaluate_loop_keys_err cs keys steps 0 w [] ls E).
Qed.
Print Assumptions C53_progress_bar.
Example C53_progress_bar_ex : evaluate [LocalEnergyStats None false false 1] (Some ["energy/energy"%string]) 2 (example_world None) <> Err KeyError.
Proof. discriminate. Qed.

(** The default callbacks: the mean energy and so on over the batches, for both settings of log_in_batch_or_epoch; the mean times add up. A generator
    that is used with mini batches of size m shows each batch B / m times. *)
Theorem C53_default : forall e0 ib p B m q steps w, 0 < steps -> 0 < m -> 0 < q -> B = m * q -> fresh B (Some m) (train w) ->
  exists w' r, evaluate (default_callbacks false e0 ib p) None steps w = Ok (w', r) /\
    let batch i := (i + q) / q in
    lookup "energy/energy" r = Some (average (fun i => Re (current_energy (train w) (batch i))) steps) /\
    lookup "energy/local_energy_variance" r = Some (average (fun i => Re (current_local_energy_variance (train w) (batch i))) steps) /\
    lookup "observables/sigma_z" r = Some (average (fun i => Re (observable_value (train w) "sigma_z" (batch i))) steps) /\
    lookup "observables/abs_sigma_z" r = Some (average (fun i => Re (observable_value (train w) "abs_sigma_z" (batch i))) steps) /\
    (value "times/total" r = value "times/sampling" r + value "times/local_energy" r + value "times/gradients" r)%R /\
    match e0 with
    | None => lookup "energy/relative_error" r = None
    | Some x => lookup "energy/relative_error" r = Some (average (fun i => (x - Re (current_energy (train w) (batch i))) / x)%R steps)
    end.
Proof.
  intros e0 ib p B m q steps w S0 Hm Hq HB Fr.
  pose proof (fresh_cases _ _ _ Fr) as FC. cbv beta iota zeta in FC. rewrite Nat.min_l in FC by nia. destruct FC as (_ & F2 & F3 & F4 & F5).
  pose proof (logged_default e0 ib p steps 0 w (fresh_ready _ _ _ Fr)) as L.
  assert (Hn : forall i, fetched (nexts (train w) (S i)) = (i + q) / q).
  { intros i. destruct (nexts_mini (train w) m q (S i) Hm Hq F3) as (_ & _ & N & _); [congruence|congruence|exact F5|]. rewrite N. f_equal. lia. }
  destruct (evaluate_loop_logged _ steps 0 w [] _ L) as [w' G]. cbn [app] in G. destruct steps as [|n]; [lia|].
  set (entry := fun j => step_entries e0 (train w) ((j + q) / q) (clock w (reads w + j))).
  replace (map _ (seq 0 (S n))) with (map entry (seq 0 (S n))) in G by (apply map_ext; intros j; unfold entry; now rewrite Hn).
  cbn [seq map] in G. rewrite mean_logs_none in G. rewrite mean_logs_keys_ok in G.
  2:{ intros k l Hk Hl. change (entry 0 :: map entry (seq 1 n)) with (map entry (seq 0 (S n))) in Hl. apply in_map_iff in Hl. destruct Hl as [j [<- _]].
      apply has_In. revert Hk. unfold entry. destruct e0; exact (fun h => h). }
  cbn [bind] in G. eexists w', _. split; [exact G|]. change (entry 0 :: map entry (seq 1 n)) with (map entry (seq 0 (S n))). cbv zeta.
  assert (A : forall key (f : nat -> R), (forall j, value key (entry j) = f j) -> mean (map (value key) (map entry (seq 0 (S n)))) = average f (S n)).
  { intros key f Hf. unfold mean, average. rewrite map_map, map_length, seq_length, Rsum_map. f_equal. apply Rsum_ext. intros j _. apply Hf. }
  split; [rewrite lookup_map_key by (now left); now rewrite (A _ (fun i => Re (current_energy (train w) ((i + q) / q)))) by reflexivity|].
  split; [rewrite lookup_map_key by (right; now left); now rewrite (A _ (fun i => Re (current_local_energy_variance (train w) ((i + q) / q)))) by reflexivity|].
  assert (K : forall key, In key ["observables/sigma_z"; "observables/abs_sigma_z"; "times/sampling"; "times/local_energy"; "times/gradients"; "times/total"]%string -> In key (map fst (entry 0))).
  { intros key Hk. unfold entry, step_entries. rewrite !map_app. apply in_app_iff. right. apply in_app_iff. right. exact Hk. }
  split. { rewrite lookup_map_key by (apply K; cbn; tauto). rewrite (A _ (fun i => Re (observable_value (train w) "sigma_z" ((i + q) / q)))); [reflexivity|]. intros j. destruct e0; reflexivity. }
  split. { rewrite lookup_map_key by (apply K; cbn; tauto). rewrite (A _ (fun i => Re (observable_value (train w) "abs_sigma_z" ((i + q) / q)))); [reflexivity|]. intros j. destruct e0; reflexivity. }
  split.
  { unfold value at 1 3 5 7. rewrite !lookup_map_key by (apply K; cbn; tauto).
    rewrite (A "times/total"%string (fun j => clock w (reads w + j) - start_time (train w) ((j + q) / q))%R) by (intros j; destruct e0; reflexivity).
    rewrite (A "times/sampling"%string (fun j => sampling_end_time (train w) ((j + q) / q) - start_time (train w) ((j + q) / q))%R) by (intros j; destruct e0; reflexivity).
    rewrite (A "times/local_energy"%string (fun j => local_energy_end_time (train w) ((j + q) / q) - sampling_end_time (train w) ((j + q) / q))%R) by (intros j; destruct e0; reflexivity).
    rewrite (A "times/gradients"%string (fun j => clock w (reads w + j) - local_energy_end_time (train w) ((j + q) / q))%R) by (intros j; destruct e0; reflexivity).
    unfold average. unfold Rdiv. rewrite <- !Rmult_plus_distr_r, <- !Rsum_plus. f_equal. apply Rsum_ext. intros j _. lra. }
  destruct e0 as [x|].
  - rewrite lookup_map_key by (right; right; now left). now rewrite (A _ (fun i => (x - Re (current_energy (train w) ((i + q) / q))) / x)%R) by reflexivity.
  - destruct (lookup "energy/relative_error" (map _ (map fst (entry 0)))) eqn:Z; [|reflexivity]. discriminate Z.
Qed.
Print Assumptions C53_default.
Example C53_default_ex : fresh (2 * 2) (Some 2) (example_vmc 4 (Some 2)) /\ average (fun i => INR ((i + 2) / 2)) 4 = (3 / 2)%R.
Proof. split; [reflexivity|]. unfold average. cbn [Rsum seq fold_right map]. change ((0 + 2) / 2) with 1. change ((1 + 2) / 2) with 1. change ((2 + 2) / 2) with 2. change ((3 + 2) / 2) with 2. cbn. lra. Qed.

(** train.py:148 asks for the relative error in the progress bar; when no true ground state energy is given (the default) the evaluation raises KeyError. *)
Theorem C53_relative_error_refuted : forall ib p B mini keys steps w, 0 < steps -> fresh B mini (train w) -> In "energy/relative_error"%string keys ->
  evaluate (default_callbacks false None ib p) (Some keys) steps w = Err KeyError.
Proof.
  intros ib p B mini keys steps w S0 Fr K. pose proof (logged_default None ib p steps 0 w (fresh_ready _ _ _ Fr)) as L. apply (C53_progress_bar _ keys _ _ _ L). destruct steps as [|n]; [lia|].
  eexists "energy/relative_error"%string, _. split; [exact K|]. split; [now left|]. intros [v Hv]. discriminate Hv.
Qed.
Print Assumptions C53_relative_error_refuted.
Example C53_relative_error_ex : fresh 4 None (train (example_world None)).
Proof. reflexivity. Qed.

(** Default callbacks with a validation generator and a period above 1 cannot be evaluated for more than one step. *)
Theorem C53_validation_period_refuted : forall e0 ib p B1 m1 B2 m2 steps w, 1 < p -> 1 < steps -> fresh B1 m1 (train w) -> fresh B2 m2 (val w) ->
  evaluate (default_callbacks true e0 ib p) None steps w = Err KeyError.
Proof.
  intros e0 ib p B1 m1 B2 m2 steps w P S1 F1 F2.
  destruct (logged_validation e0 ib p steps ltac:(lia) 0 w (fresh_ready _ _ _ F1) (fresh_ready _ _ _ F2) (or_introl eq_refl)) as (ls & L & H).
  pose proof (logged_length _ _ _ _ _ L) as Len. destruct ls as [|l [|m t]]; [cbn in Len; lia|cbn in Len; lia|].
  apply (C53_missing_key _ _ _ l (m :: t) "val_energy/energy"%string m L).
  - apply (proj2 (H 0 ltac:(lia))). cbn [Nat.add]. apply Nat.mod_0_l. lia.
  - now left.
  - intros K. apply (proj1 (H 1 ltac:(lia))) in K. cbn [Nat.add] in K. rewrite Nat.mod_1_l in K by lia. lia.
Qed.
Print Assumptions C53_validation_period_refuted.
Example C53_validation_period_ex : fresh 4 None (train (example_world None)) /\ fresh 4 (Some 2) (val (example_world (Some 2))).
Proof. split; reflexivity. Qed.

(** * C54 *)

(** Training with the default callbacks and a validation generator with full batches: in exactly the epochs divisible by the period one fresh validation
    batch is drawn, and its statistics are logged in that epoch; in the other epochs nothing is logged for the validation. *)
Theorem C54_validation_schedule : forall e0 ib p B1 m1 B2 steps n e w, 0 < p -> 0 < steps -> stop_training w = false -> fresh B1 m1 (train w) -> fresh B2 None (val w) ->
  exists w' ls, fit_generator (default_callbacks true e0 ib p) steps n e w = Ok (w', ls) /\ List.length ls = n /\
    gen_fetched (served (val w')) = validations p e n /\
    (forall j, j < n ->
      let l := nth j ls [] in
      let count := validations p e (S j) in
      ((e + j) mod p = 0 ->
         lookup "val_energy/energy" l = Some (Re (current_energy (val w) count)) /\
         lookup "val_energy/local_energy_variance" l = Some (Re (current_local_energy_variance (val w) count)) /\
         lookup "val_energy/relative_error" l = option_map (fun x => (x - Re (current_energy (val w) count)) / x)%R e0 /\
         lookup "val_observables/sigma_z" l = Some (Re (observable_value (val w) "sigma_z" count)) /\
         lookup "val_observables/abs_sigma_z" l = Some (Re (observable_value (val w) "abs_sigma_z" count))) /\
      ((e + j) mod p <> 0 -> forall key, String.prefix "val_" key = true -> lookup key l = None)).
Proof.
  intros e0 ib p B1 m1 B2 steps n e w P St NS F1 F2.
  destruct (fit_default e0 ib p steps P St n e w NS (fresh_ready _ _ _ F1) (fresh_whole _ _ F2)) as (w' & ls & A & B & C & D).
  destruct (fresh_cases _ _ _ F2) as (_ & _ & _ & _ & Z). rewrite Z in C, D. exists w', ls. split; [exact A|]. split; [exact B|]. split; [exact C|].
  intros j Hj. exact (D j Hj).
Qed.
Print Assumptions C54_validation_schedule.
Example C54_validation_schedule_ex : fresh 4 None (val (example_world None)) /\ validations 3 5 1 = 0 /\ validations 3 5 2 = 1 /\ validations 3 5 5 = 2.
Proof. repeat split; reflexivity. Qed.

(** The batches used are all different: the counts of two validation epochs differ. *)
Theorem C54_fresh_batches : forall p e i j, i < j -> (e + j) mod p = 0 -> validations p e (S i) < validations p e (S j).
Proof.
  intros p e i j H M. unfold validations. replace (S j) with (S i + (j - i)) by lia. rewrite seq_app, filter_app, app_length.
  assert (In (e + j) (filter (fun k => k mod p =? 0) (seq (e + S i) (j - i)))) as I.
  { apply filter_In. split; [apply in_seq; lia|]. now apply Nat.eqb_eq. }
  destruct (filter _ (seq (e + S i) (j - i))); [destruct I|]. cbn [List.length]. lia.
Qed.
Print Assumptions C54_fresh_batches.
Example C54_fresh_batches_ex : validations 3 5 2 < validations 3 5 5. Proof. apply (C54_fresh_batches 3 5 1 4); [lia|reflexivity]. Qed.

(** With a validation generator that has mini batches the claim is false: the second validation epoch shows the first batch again. *)
Theorem C54_mini_batches_refuted :
  match fit_generator (default_callbacks true None false 1) 1 2 0 (example_world (Some 2)) with
  | Ok (w', [l1; l2]) => gen_fetched (served (val w')) = 1 /\ lookup "val_energy/energy" l1 = Some 1%R /\ lookup "val_energy/energy" l2 = Some 1%R
  | _ => False
  end.
Proof. vm_compute. repeat split; reflexivity. Qed.
Print Assumptions C54_mini_batches_refuted.

(** The order of the callbacks matters: the statistics before the iterator read a batch that does not exist. *)
Theorem C54_order : forall e0 p e w, 0 < p -> e mod p = 0 -> 0 < gen_fetched (served (train w)) -> gen_fetched (served (val w)) = 0 ->
  call_all (fun c => on_epoch_end c e) [LocalEnergyStats e0 false true p; GeneratorIterator p] w [] = Err AttributeError.
Proof.
  intros e0 p e w P H T V. cbn [call_all on_epoch_end is_validation_epoch]. unfold divides. rewrite (proj2 (Nat.eqb_neq p 0)) by lia. rewrite H. cbn [Nat.eqb bind].
  unfold add_energy_stats_to_logs, attribute. rewrite V. destruct (gen_fetched (served (train w))); [lia|]. destruct e0; reflexivity.
Qed.
Print Assumptions C54_order.
Example C54_order_ex : gen_fetched (served (train (advance_train (example_world None)))) = 1 /\ gen_fetched (served (val (advance_train (example_world None)))) = 0.
Proof. split; reflexivity. Qed.

(** A period of 0 fails at the first epoch end. *)
Theorem C54_period_zero : forall e0 ib e w, call_all (fun c => on_epoch_end c e) (default_callbacks true e0 ib 0) w [] = Err ZeroDivisionError.
Proof. reflexivity. Qed.
Print Assumptions C54_period_zero.

(** Early stopping: with the energy E and variance V of the validation if it was logged, otherwise of the training, it asks to stop iff the epoch is at
    least min_epoch, E exceeds the bound by more than the given fraction of |bound|, and the variance is below its tolerance. Never otherwise, and it
    never withdraws a stop. *)
Theorem C54_early_stopping : forall bound vt tol min_epoch epoch w l E V, bound <> 0%R ->
  (lookup "val_energy/energy" l = Some E /\ lookup "val_energy/local_energy_variance" l = Some V \/
   lookup "val_energy/energy" l = None /\ lookup "energy/energy" l = Some E /\ lookup "energy/local_energy_variance" l = Some V) ->
  exists w', on_epoch_end (BadEigenStateStopping bound vt tol min_epoch) epoch w l = Ok (w', l) /\
    (stop_training w' = true <-> stop_training w = true \/ (min_epoch <= epoch /\ (bound + tol * Rabs bound < E)%R /\ (V < vt)%R)) /\
    (stop_training w' = false -> w' = w) /\
    (min_epoch <= epoch -> (bound + tol * Rabs bound < E)%R -> (V < vt)%R -> stopped_epoch w' = Some epoch) /\
    (epoch < min_epoch \/ ~ (bound + tol * Rabs bound < E)%R \/ ~ (V < vt)%R -> w' = w).
Proof.
  intros bound vt tol me epoch w l E V Hb H.
  assert (G : energy_and_variance l = Ok (Some (E, V))).
  { unfold energy_and_variance, get_log. destruct H as [[-> ->]|[-> [-> ->]]]; reflexivity. }
  cbn [on_epoch_end]. rewrite G. cbn [bind].
  assert (X : (tol < (E - bound) / Rabs bound)%R <-> (bound + tol * Rabs bound < E)%R).
  { assert (A : (0 < Rabs bound)%R) by now apply Rabs_pos_lt. split; intros K.
    - apply (Rmult_lt_compat_r (Rabs bound)) in K; [|exact A]. unfold Rdiv in K. rewrite Rmult_assoc, Rinv_l in K by lra. lra.
    - apply (Rmult_lt_reg_r (Rabs bound)); [exact A|]. unfold Rdiv. rewrite Rmult_assoc, Rinv_l by lra. lra. }
  destruct (Nat.ltb_spec epoch me).
  - exists w. split; [reflexivity|]. split; [|split; [auto|split; [lia|auto]]]. split; [now left|]. intros [K|[K _]]; [exact K|lia].
  - unfold exceeds. destruct (Req_EM_T bound 0); [contradiction|]. destruct (Rlt_dec tol ((E - bound) / Rabs bound)) as [K|K]; destruct (Rlt_dec V vt) as [Q|Q]; cbn [andb].
    + exists (stop_at epoch w). split; [reflexivity|]. split; [split; [intros _; right; tauto|reflexivity]|]. split; [discriminate|].
      split; [reflexivity|]. intros [Y|[Y|Y]]; [lia|tauto|tauto].
    + exists w. split; [reflexivity|]. split; [|split; [auto|split; [tauto|auto]]]. split; [now left|intros [Y|(_ & _ & Y)]; [exact Y|contradiction]].
    + exists w. split; [reflexivity|]. split; [|split; [auto|split; [tauto|auto]]]. split; [now left|intros [Y|(_ & Y & _)]; [exact Y|tauto]].
    + exists w. split; [reflexivity|]. split; [|split; [auto|split; [tauto|auto]]]. split; [now left|intros [Y|(_ & Y & _)]; [exact Y|tauto]].
Qed.
Print Assumptions C54_early_stopping.
Example C54_early_stopping_ex : let l := [("energy/energy"%string, 2%R); ("energy/local_energy_variance"%string, 0%R); ("val_energy/energy"%string, (-5)%R); ("val_energy/local_energy_variance"%string, 0%R)] in
  lookup "val_energy/energy" l = Some (-5)%R /\ lookup "val_energy/local_energy_variance" l = Some 0%R /\ (-10 + 1 / 10 * Rabs (-10) < -5)%R.
Proof. repeat split. rewrite Rabs_left by lra. lra. Qed.

(** Without energies in the logs it does nothing; with an energy but no variance it raises KeyError. *)
Theorem C54_early_stopping_keys : forall bound vt tol min_epoch epoch w l,
  (lookup "val_energy/energy" l = None -> lookup "energy/energy" l = None -> on_epoch_end (BadEigenStateStopping bound vt tol min_epoch) epoch w l = Ok (w, l)) /\
  (forall E, lookup "val_energy/energy" l = Some E -> lookup "val_energy/local_energy_variance" l = None ->
     on_epoch_end (BadEigenStateStopping bound vt tol min_epoch) epoch w l = Err KeyError).
Proof.
  intros. cbn [on_epoch_end]. unfold energy_and_variance, get_log. split; [intros -> ->; reflexivity|intros E -> ->; reflexivity].
Qed.
Print Assumptions C54_early_stopping_keys.
Example C54_early_stopping_keys_ex : lookup "val_energy/energy" [("loss"%string, 1%R)] = None. Proof. reflexivity. Qed.

(** A stop is honoured: no further epoch is run. *)
Theorem C54_stop_ends_training : forall cs steps n e w, stop_training w = true -> fit_generator cs steps n e w = Ok (w, []).
Proof. intros cs steps [|n] e w H; [reflexivity|]. cbn [fit_generator]. now rewrite H. Qed.
Print Assumptions C54_stop_ends_training.
Example C54_stop_ends_training_ex : stop_training (stop_at 3 (example_world None)) = true. Proof. reflexivity. Qed.

(** The logged relative error (E0 - E) / E0 is the excess over the ground state in units of |E0| exactly when E0 is negative (or E = E0); for a positive
    ground state energy its sign is the opposite. *)
Theorem C54_relative_error_sign : forall e0 e, e0 <> 0%R ->
  (((e0 - e) / e0 = (e - e0) / Rabs e0)%R <-> (e0 < 0)%R \/ e = e0).
Proof.
  intros e0 e H. assert (0 < e0 \/ e0 < 0)%R as [K|K] by lra.
  - rewrite Rabs_right by lra. split.
    + intros Q. right. unfold Rdiv in Q. assert (I := Rinv_0_lt_compat e0 K). nra.
    + intros [Q| ->]; [lra|]. unfold Rdiv. ring.
  - rewrite Rabs_left by exact K. split; [tauto|]. intros _. field. exact H.
Qed.
Print Assumptions C54_relative_error_sign.
Example C54_relative_error_sign_ex : (((-10) - (-9)) / (-10) = 1 / 10)%R. Proof. lra. Qed.
