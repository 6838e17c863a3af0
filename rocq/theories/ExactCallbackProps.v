(** Property C61. *)
From Coq Require Import String List ZArith Reals Bool Arith Lia Lra Permutation.
From Verif Require Import Base Cplx LatticeSpec ExactUtilsSpec IsingModel AutoregressiveSpec ObservableModel ObservableSpec
  ExactModel ExactSpec ExactProofs ExactGeneratorProofs ExactOperatorProofs CallbackModel ExactCallbackModel ExactCallbackSpec ExactCallbackProofs ExactCallbackTrainProofs.
Import ListNotations.
Local Open Scope R_scope.

Lemma built_facts n H op batch past e : (n <= 31)%nat -> operator_represents n H op -> good_batch_size n batch -> built n op batch past e ->
  good_exact n H e /\ batch_size e = Nat.min batch (2 ^ n) /\ (0 < Nat.min batch (2 ^ n))%nat /\ (2 ^ n mod Nat.min batch (2 ^ n) = 0)%nat /\ states e = basis n.
Proof.
  intros Hn HO HB HE. destruct (built_good n H op batch past e Hn HO HB HE) as (G & B & _).
  split; [exact G|]. split; [exact B|]. destruct HB as [P D]. pose proof (ExactUtilsProofs.pow2_pos n).
  split; [lia|]. split; [exact D|apply (ge_states _ _ _ G)].
Qed.
Lemma waits n H B e t : good_exact n H e -> batch_size e = B -> waiting n H B t (new_variational e) t.
Proof. intros G E. split; [exact G|]. split; [exact E|]. exists 0%nat. reflexivity. Qed.

(** C61: evaluating a model with the default callbacks reports the energy, the variance and the magnetisations of that model, whatever was
    evaluated before and whatever the batch size; the four times are reported only per epoch or when a cycle is one batch. *)
Theorem C61_evaluate : forall n H op batch past e lp e0 in_batch t, (n <= 31)%nat -> operator_represents n H op ->
  good_batch_size n batch -> built n op batch past e ->
  exists cs w a b c now,
    exact_evaluate (default_exact_callbacks e e0 in_batch) {| variation := new_variational e; machine := lp; time := t |} =
      Ok (cs, w, energy_logs n H lp e0 ++ magnetisation_logs n lp ++
                 (if negb in_batch || (cycle_length n batch =? 1)%nat then time_logs a b c now else [])) /\
    (clock_monotone t -> a <= b <= c /\ c <= now).
Proof.
  intros n H op batch past e lp e0 in_batch t Hn HO HB HE. destruct (built_facts n H op batch past e Hn HO HB HE) as (G & B & P & D & _).
  destruct (evaluate_default n H _ t (new_variational e) e e0 in_batch lp (waits n H _ e t G B) P D G) as (w & ts & E & (a & b & c & now & M & T) & _).
  exists (default_exact_callbacks e e0 in_batch), w, a, b, c, now. split; [|exact M].
  rewrite E. unfold stats_of. rewrite <- app_assoc, T. reflexivity.
Qed.
Print Assumptions C61_evaluate.
Lemma small_built : exists n H op batch past e, (0 < n <= 31)%nat /\ operator_represents n H op /\ good_batch_size n batch /\ built n op batch past e.
Proof.
  set (op := ising_operator 1 2 true [2%nat]). set (H := ising_matrix 1 2 true [2%nat]).
  assert (HO : operator_represents 2 H op) by (apply (ising_operator_represents 1 2 true [2%nat]); left; exists 2%nat; split; [reflexivity|left; lia]).
  assert (HB : good_batch_size 2 2) by (split; [lia|reflexivity]).
  destruct (built_ok 2 H op 2 [fun _ => C0] ltac:(lia) HO HB) as (e & He & _).
  exists 2%nat, H, op, 2%nat, [fun _ => C0], e. split; [lia|]. split; [exact HO|]. split; [exact HB|exact He].
Qed.
Example C61_evaluate_ex : exists n H op batch past e, (0 < n <= 31)%nat /\ operator_represents n H op /\ good_batch_size n batch /\ built n op batch past e.
Proof. exact small_built. Qed.

(** C61: training with the default callbacks, logging per batch: batch b of epoch k logs the energy and the magnetisations iff the cycle length divides b, and
    they belong to the weights with which the cycle of that step began; the times appear iff the cycle length divides b + 1; nothing is
    logged per epoch. [machines g] is the model after g gradient steps. *)
Theorem C61_logged_per_batch : forall n H op batch past e e0 t machines steps epochs, (n <= 31)%nat -> operator_represents n H op ->
  good_batch_size n batch -> built n op batch past e ->
  exists s all,
    fit_exact machines steps epochs 0
      (start_training {| variation := new_variational e; machine := machines 0%nat; time := t |} (default_exact_callbacks e e0 true)) = Ok (s, all) /\
    List.length all = epochs /\
    forall k ls l, nth_error all k = Some (ls, l) -> l = [] /\ List.length ls = steps /\
      forall b lb, nth_error ls b = Some lb -> exists t0 t1 t2 now,
        let m := machines (cycle_start (cycle_length n batch) (k * steps + b)) in
        lb = (if (b mod cycle_length n batch =? 0)%nat then energy_logs n H m e0 ++ magnetisation_logs n m else []) ++
             (if ((b + 1) mod cycle_length n batch =? 0)%nat then time_logs t0 t1 t2 now else []) /\
        (clock_monotone t -> t0 <= t1 <= t2 /\ t2 <= now).
Proof.
  intros n H op batch past e e0 t machines steps epochs Hn HO HB HE. destruct (built_facts n H op batch past e Hn HO HB HE) as (G & B & P & D & _).
  set (w := {| variation := new_variational e; machine := machines 0%nat; time := t |}).
  destruct (fit_default n H (Nat.min batch (2 ^ n)) t e e0 machines P D G steps epochs 0 (start_training w (default_exact_callbacks e e0 true))) as (s & all & E & L & A).
  - cbn [Nat.mul]. split; [|split; [reflexivity|split; [reflexivity|split; [apply (waits n H _ e t G B)|intros F; now contradiction F]]]].
    cbn [start_training position variation arrays w new_variational]. rewrite (ge_n _ _ _ G). unfold num_of_states, place, cycle_of.
    pose proof (cyc_pos n _ P D) as C0. unfold cycle_of in C0. rewrite Nat.mod_small by lia.
    pose proof (Nat.div_mod (2 ^ n) (Nat.min batch (2 ^ n)) ltac:(lia)). rewrite Nat.add_0_l. rewrite Nat.sub_add by lia. nia.
  - exists s, all. split; [exact E|]. split; [exact L|]. intros k ls l El. destruct (A k ls l El) as (A1 & A2 & A3).
    split; [exact A1|]. split; [exact A2|]. intros b lb Eb. destruct (A3 b lb Eb) as (ts & F & t0 & t1 & t2 & now & M & T).
    exists t0, t1, t2, now. split; [|exact M]. rewrite F, T. reflexivity.
Qed.
Print Assumptions C61_logged_per_batch.
Example C61_logged_per_batch_ex : exists n H op batch past e, (0 < n <= 31)%nat /\ operator_represents n H op /\ good_batch_size n batch /\ built n op batch past e.
Proof. exact small_built. Qed.

(** C61: when the epoch is a whole number of cycles the weights are those just before the gradient step of the batch that logs. *)
Theorem C61_whole_cycles : forall n batch steps k b, good_batch_size n batch -> (steps mod cycle_length n batch = 0)%nat ->
  (b mod cycle_length n batch = 0)%nat -> cycle_start (cycle_length n batch) (k * steps + b) = (k * steps + b)%nat.
Proof.
  intros n batch steps k b [P D] Hs Hb. pose proof (ExactUtilsProofs.pow2_pos n). assert (P' : (0 < Nat.min batch (2 ^ n))%nat) by lia.
  pose proof (cyc_pos n _ P' D) as C0. change (cycle_of n (Nat.min batch (2 ^ n))) with (cycle_length n batch) in C0.
  apply start_here; [exact C0|]. rewrite Nat.add_mod, Nat.mul_mod, Hs, Nat.mul_0_r, Nat.mod_0_l, Hb, Nat.add_0_l, Nat.mod_0_l by lia. reflexivity.
Qed.
Print Assumptions C61_whole_cycles.
Example C61_whole_cycles_ex : good_batch_size 4 4 /\ (8 mod cycle_length 4 4 = 0)%nat /\ (4 mod cycle_length 4 4 = 0)%nat.
Proof. repeat split; try reflexivity; lia. Qed.

(** C61: logging per epoch: nothing at the batches; at the end of epoch k everything, with the weights with which the cycle of the last step began. *)
Theorem C61_logged_per_epoch : forall n H op batch past e e0 t machines steps epochs, (n <= 31)%nat -> operator_represents n H op ->
  good_batch_size n batch -> built n op batch past e -> (0 < steps)%nat ->
  exists s all,
    fit_exact machines steps epochs 0
      (start_training {| variation := new_variational e; machine := machines 0%nat; time := t |} (default_exact_callbacks e e0 false)) = Ok (s, all) /\
    List.length all = epochs /\
    forall k ls l, nth_error all k = Some (ls, l) -> ls = repeat [] steps /\
      exists t0 t1 t2 now,
        let m := machines (cycle_start (cycle_length n batch) (k * steps + steps - 1)) in
        l = energy_logs n H m e0 ++ magnetisation_logs n m ++ time_logs t0 t1 t2 now /\
        (clock_monotone t -> t0 <= t1 <= t2 /\ t2 <= now).
Proof.
  intros n H op batch past e e0 t machines steps epochs Hn HO HB HE Hs. destruct (built_facts n H op batch past e Hn HO HB HE) as (G & B & P & D & _).
  set (w := {| variation := new_variational e; machine := machines 0%nat; time := t |}).
  destruct (fit_silent n H (Nat.min batch (2 ^ n)) t e e0 machines P D G steps epochs Hs 0 (start_training w (default_exact_callbacks e e0 false))) as (s & all & E & L & A).
  - cbn [Nat.mul]. split; [|split; [reflexivity|split; [reflexivity|split; [apply (waits n H _ e t G B)|intros F; now contradiction F]]]].
    cbn [start_training position variation arrays w new_variational]. rewrite (ge_n _ _ _ G). unfold num_of_states, place, cycle_of.
    pose proof (cyc_pos n _ P D) as C0. unfold cycle_of in C0. rewrite Nat.mod_small by lia.
    pose proof (Nat.div_mod (2 ^ n) (Nat.min batch (2 ^ n)) ltac:(lia)). rewrite Nat.add_0_l. rewrite Nat.sub_add by lia. nia.
  - exists s, all. split; [exact E|]. split; [exact L|]. intros k ls l El. destruct (A k ls l El) as (A1 & ts & F & t0 & t1 & t2 & now & M & T).
    split; [exact A1|]. exists t0, t1, t2, now. split; [|exact M]. rewrite F, T. unfold stats_of. rewrite <- app_assoc. reflexivity.
Qed.
Print Assumptions C61_logged_per_epoch.
Example C61_logged_per_epoch_ex : exists n H op batch past e, (0 < n <= 31)%nat /\ operator_represents n H op /\ good_batch_size n batch /\ built n op batch past e.
Proof. exact small_built. Qed.

(** C61: MachineUpdated in front of the others. With the local energy the logs and the coefficients of every batch belong to the current weights (so the
    batches of one cycle use different weights); without it the magnetisations are current but the energy and the coefficients stay those of the cycle. *)
Theorem C61_machine_updated : forall n H op batch past e e0 t machines (with_energy : bool) steps, (n <= 31)%nat -> operator_represents n H op ->
  good_batch_size n batch -> built n op batch past e ->
  exists s batches ls,
    train_exact machines 0 0 steps
      (start_training {| variation := new_variational e; machine := machines 0%nat; time := t |}
         (MachineUpdated true with_energy :: default_exact_callbacks e e0 true)) = Ok (s, batches, ls) /\
    List.length batches = steps /\ List.length ls = steps /\
    (forall b y, nth_error batches b = Some y ->
       let m := machines (if with_energy then b else cycle_start (cycle_length n batch) b) in
       let i := (b mod cycle_length n batch * Nat.min batch (2 ^ n))%nat in
       y = (slice (states e) i (i + Nat.min batch (2 ^ n)), slice (map (gradient_coefficient n H m) (states e)) i (i + Nat.min batch (2 ^ n)))) /\
    (forall b lb, nth_error ls b = Some lb -> exists t0 t1 t2 now,
       lb = (if (b mod cycle_length n batch =? 0)%nat
             then energy_logs n H (machines (if with_energy then S b else cycle_start (cycle_length n batch) b)) e0 ++ magnetisation_logs n (machines (S b))
             else []) ++
            (if ((b + 1) mod cycle_length n batch =? 0)%nat then time_logs t0 t1 t2 now else []) /\
       (clock_monotone t -> t0 <= t1 <= t2 /\ t2 <= now)).
Proof.
  intros n H op batch past e e0 t machines u steps Hn HO HB HE. destruct (built_facts n H op batch past e Hn HO HB HE) as (G & B & P & D & ST).
  set (w := {| variation := new_variational e; machine := machines 0%nat; time := t |}).
  destruct (train_updated n H (Nat.min batch (2 ^ n)) t e e0 machines u P D G steps 0 0 (start_training w (MachineUpdated true u :: default_exact_callbacks e e0 true)))
    as (s & ls & E & L & A & _).
  - split; [|split; [reflexivity|split; [reflexivity|split; [apply (waits n H _ e t G B)|intros F; now contradiction F]]]].
    cbn [start_training position variation arrays w new_variational]. rewrite (ge_n _ _ _ G). unfold num_of_states, place, cycle_of.
    pose proof (cyc_pos n _ P D) as C0. unfold cycle_of in C0. rewrite Nat.mod_small by lia.
    pose proof (Nat.div_mod (2 ^ n) (Nat.min batch (2 ^ n)) ltac:(lia)). rewrite Nat.add_0_l. rewrite Nat.sub_add by lia. nia.
  - eexists s, _, ls. split; [exact E|]. split; [now rewrite map_length, seq_length|]. split; [exact L|]. split.
    + intros b y Ey. assert (Hb : (b < steps)%nat).
      { rewrite <- (seq_length steps 0), <- (map_length (updated_batch n H (Nat.min batch (2 ^ n)) machines u)). apply nth_error_Some. now rewrite Ey. }
      rewrite nth_error_map in Ey. rewrite (nth_error_nth' _ 0%nat) in Ey by now rewrite seq_length. rewrite seq_nth in Ey by exact Hb.
      cbn [option_map] in Ey. injection Ey as <-. unfold updated_batch. cbv zeta. rewrite ST. reflexivity.
    + intros b lb Eb. destruct (A b lb Eb) as (ts & F & t0 & t1 & t2 & now & M & T). exists t0, t1, t2, now. split; [|exact M]. rewrite F, T. reflexivity.
Qed.
Print Assumptions C61_machine_updated.
Example C61_machine_updated_ex : exists n H op batch past e, (0 < n <= 31)%nat /\ operator_represents n H op /\ good_batch_size n batch /\ built n op batch past e.
Proof. exact small_built. Qed.

(** C61: an observable callback that logs per epoch reports the expectation value of its own operator in the current state. *)
Theorem C61_observable : forall n H op batch past e lp t H2 op2 name, (n <= 31)%nat -> operator_represents n H op -> operator_represents n H2 op2 ->
  good_batch_size n batch -> built n op batch past e ->
  exists c cs w, new_observable e op2 name false = Ok c /\
    exact_evaluate [c] {| variation := new_variational e; machine := lp; time := t |} =
      Ok (cs, w, [("observables/" ++ name, Re (expectation n H2 lp))%string]).
Proof.
  intros n H op batch past e lp t H2 op2 name Hn HO HO2 HB HE. destruct (built_facts n H op batch past e Hn HO HB HE) as (G & B & P & D & _).
  assert (HB2 : good_batch_size n (batch_size e)). { rewrite B. split; [exact P|]. now replace (Nat.min (Nat.min batch (2 ^ n)) (2 ^ n)) with (Nat.min batch (2 ^ n)) by lia. }
  destruct (new_exact_ok n H2 op2 (batch_size e) Hn HO2 HB2) as (o & Eo & Go & _). unfold new_observable. rewrite (ge_n _ _ _ G), Eo. cbn [bind].
  destruct (evaluate_ready n H _ t (new_variational e) t lp (waits n H _ e t G B)) as (v & Ev & Rv).
  destruct (observable_epoch n H H2 lp lp _ t {| variation := v; machine := lp; time := after 3 t |} o name 1 Rv Go) as (o' & E' & _).
  eexists _, _, _. split; [reflexivity|]. unfold exact_evaluate. cbn [machine variation time]. rewrite Ev. cbn [bind call_exact exact_on_batch_end].
  rewrite E'. reflexivity.
Qed.
Print Assumptions C61_observable.
Example C61_observable_ex : exists n H op batch past e, (0 < n <= 31)%nat /\ operator_represents n H op /\ good_batch_size n batch /\ built n op batch past e.
Proof. exact small_built. Qed.

(** C61 refuted for the default arguments of the observable callback: logging per batch reads an attribute that does not exist, so evaluation and the first
    batch of training raise. *)
Theorem C61_observable_per_batch_refuted : forall n H op batch past e lp t H2 op2 name, (n <= 31)%nat -> operator_represents n H op -> operator_represents n H2 op2 ->
  good_batch_size n batch -> built n op batch past e ->
  exists c, new_observable e op2 name true = Ok c /\
    exact_evaluate [c] {| variation := new_variational e; machine := lp; time := t |} = Err AttributeError /\
    forall machines steps, (0 < steps)%nat ->
      train_exact machines 0 0 steps (start_training {| variation := new_variational e; machine := machines 0%nat; time := t |} [c]) = Err AttributeError.
Proof.
  intros n H op batch past e lp t H2 op2 name Hn HO HO2 HB HE. destruct (built_facts n H op batch past e Hn HO HB HE) as (G & B & P & D & _).
  assert (HB2 : good_batch_size n (batch_size e)). { rewrite B. split; [exact P|]. now replace (Nat.min (Nat.min batch (2 ^ n)) (2 ^ n)) with (Nat.min batch (2 ^ n)) by lia. }
  destruct (new_exact_ok n H2 op2 (batch_size e) Hn HO2 HB2) as (o & Eo & Go & _). unfold new_observable. rewrite (ge_n _ _ _ G), Eo. cbn [bind].
  eexists. split; [reflexivity|]. split.
  - destruct (evaluate_ready n H _ t (new_variational e) t lp (waits n H _ e t G B)) as (v & Ev & Rv).
    unfold exact_evaluate. cbn [machine variation time]. rewrite Ev. reflexivity.
  - intros machines [|steps] Hs; [lia|]. cbn [train_exact]. unfold train_on_batch, start_training. cbn [world_of variation new_variational arrays position machine time callbacks_of].
    rewrite Nat.ltb_irrefl.
    destruct (evaluate_ready n H _ t (new_variational e) t (machines 0%nat) (waits n H _ e t G B)) as (v & Ev & Rv).
    change {| arrays := e; norm_known := false; energy_known := false; started_at := None; wave_function_at := None; local_energy_at := None |} with (new_variational e).
    rewrite Ev. reflexivity.
Qed.
Print Assumptions C61_observable_per_batch_refuted.
Example C61_observable_per_batch_ex : exists n H op batch past e, (0 < n <= 31)%nat /\ operator_represents n H op /\ good_batch_size n batch /\ built n op batch past e.
Proof. exact small_built. Qed.

(** C61: the reported magnetisations of every state are consistent. *)
Theorem C61_magnetisation_bounds : forall n lp, (0 < n)%nat ->
  Rabs (mean_over n lp magnetisation) <= mean_over n lp (fun s => Rabs (magnetisation s)) <= 1.
Proof.
  intros n lp Hn. split.
  - unfold mean_over. eapply Rle_trans; [apply Rabs_Rsum|]. apply Req_le, Rsum_ext. intros s _. rewrite Rabs_mult. f_equal.
    apply Rabs_pos_eq, probability_nonneg.
  - rewrite <- (mean_over_const n lp 1). apply mean_over_le. intros s Hs. unfold magnetisation.
    pose proof (spin_length n s Hs) as L. apply spins_spin_string in Hs. destruct Hs as [_ Sp].
    unfold Rdiv. rewrite Rabs_mult, (Rabs_pos_eq (/ _)) by (left; apply Rinv_0_lt_compat, lt_0_INR; lia).
    apply (Rmult_le_reg_r (INR (List.length s))); [apply lt_0_INR; lia|]. rewrite Rmult_assoc, Rinv_l, Rmult_1_r, Rmult_1_l by (apply not_0_INR; lia).
    clear L Hn. rewrite <- abs_IZR, INR_IZR_INZ. apply IZR_le. induction s as [|x s IH]; [cbn; lia|].
    inversion Sp as [|? ? X Sx]; subst. specialize (IH Sx). cbn [low] in X.
    change (sumZ (x :: s)) with (x + sumZ s)%Z. cbn [List.length]. lia.
Qed.
Print Assumptions C61_magnetisation_bounds.
Example C61_magnetisation_ex : (0 < 2)%nat /\ magnetisation [1; -1]%Z = 0 /\ magnetisation [1; 1]%Z = 1.
Proof. unfold magnetisation. cbn. split; [lia|]. change (1 + (-1 + 0))%Z with 0%Z. change (1 + (1 + 0))%Z with 2%Z. split; lra. Qed.

(** C61: before the first evaluation the energy and the times do not exist, an observable cannot be divided by the norm, and the magnetisations are reported as zero. *)
Theorem C61_before_evaluation : forall n op batch e e0 k m t o name, new_exact n op batch = Ok e ->
  let w := {| variation := new_variational e; machine := m; time := t |} in
  exact_on_epoch_end (ExactLocalEnergy e0 false) k w [] = Err AttributeError /\
  exact_on_epoch_end (ExactRuntimeStats false) k w [] = Err AttributeError /\
  exact_on_epoch_end (ExactObservableCallback o name false) k w [] = Err TypeError /\
  exact_on_epoch_end (new_sigma_z e false) k w [] =
    Ok (new_sigma_z e false, w, [("observables/abs_sigma_z", 0); ("observables/sigma_z", 0)]%string).
Proof.
  intros n op batch e e0 k m t o name HE w. split; [reflexivity|]. split; [reflexivity|]. split; [reflexivity|].
  assert (Hp : exists N, probs e = repeat 0 N).
  { unfold new_exact in HE. cbv zeta in HE. destruct (set_batch_size _ _); [cbn [bind] in HE|discriminate HE].
    destruct (match declared_max op with Some k => _ | None => _ end); [cbn [bind] in HE|discriminate HE].
    match type of HE with bind ?x _ = _ => destruct x; [cbn [bind] in HE|discriminate HE] end.
    injection HE as <-. cbn [probs]. eexists. reflexivity. }
  destruct Hp as (N & Hp). cbn [exact_on_epoch_end new_sigma_z]. unfold add_sigma_z_logs. cbn [variation w new_variational arrays]. rewrite Hp.
  assert (Z0 : forall a M, fdot a (repeat 0 M) = 0).
  { intros a. induction a as [|x a IH]; intros [|M]; try reflexivity. unfold fdot in *. cbn [repeat map2]. rewrite Rsum_cons, IH. ring. }
  rewrite !Z0. reflexivity.
Qed.
Print Assumptions C61_before_evaluation.
Example C61_before_evaluation_ex : exists e, new_exact 2 (ising_operator 1 2 true [2%nat]) 2 = Ok e.
Proof.
  assert (HO : operator_represents 2 (ising_matrix 1 2 true [2%nat]) (ising_operator 1 2 true [2%nat]))
    by (apply (ising_operator_represents 1 2 true [2%nat]); left; exists 2%nat; split; [reflexivity|left; lia]).
  assert (HB : good_batch_size 2 2) by (split; [lia|reflexivity]).
  destruct (new_exact_ok 2 _ _ 2 ltac:(lia) HO HB) as (e & E & _). now exists e.
Qed.
