(** Property C91: training with sampled batches lowers the energy on average. *)
From Coq Require Import List ZArith Reals Lra Lia Bool Arith.
From Verif Require Import Base Cplx Vec LatticeSpec IsingModel OrderingModel OrderingSpec TensorModel AutoregressiveModel AutoregressiveSpec MachinesModel MachinesSpec MachinesProps
  GraphModel GraphSpec FastMachineModel FastMachineSpec FastMachineProps ObservableModel ObservableSpec ExactModel ExactSpec ExactGradientProofs ExactOperatorProofs
  TrainingModel TrainingSpec MonteCarloModel MonteCarloSpec MonteCarloProofs PipelineModel PipelineSpec PipelineProofs PipelineProps
  ExactTrainingModel ExactTrainingSpec ExactTrainingProofs ExactTrainingProps DescentModel DescentSpec DescentProofs DescentPathProofs.
Import ListNotations.
Local Open Scope R_scope.

(** C91: a run of the generator, the accumulating optimizer and SGD. For all random numbers the weights after k updates are those reached with the batches
    that the sampler drew, each with the weights reached before, with steps of length lr (gradients averaged) or lr times the number of mini batches (summed).
    A sequence of batches is drawn exactly if the uniform random numbers lie in certain intervals, one for each; the volume is its probability, and
    the probabilities sum to 1. *)
Theorem C91_run : forall (shape : list nat) (d : nat) (machine : list R -> tensor Z -> res (tensor (list C))) (model : list R -> graph * nat)
    (H : list Z -> list Z -> C) (op : operator) (lr : R) (sum : bool) (B mini : nat) (sample_gradient : list R -> list Z * C -> list R) (w0 : list R) (k : nat),
  (forall w, samplable (machine w) shape (model w)) -> operator_represents (volume shape) H op ->
  (0 < B)%nat -> (0 < mini)%nat -> (B < mini \/ B mod mini = 0)%nat -> length w0 = d -> (forall w x, length (sample_gradient w x) = d) ->
  let n := volume shape in
  let log_psi := fun w => predictions (conditionals (machine w) shape) in
  let runs := (B / Nat.min mini B)%nat in
  let a := lr * (if sum then INR runs else 1) in
  let reached := after n d H log_psi sample_gradient a w0 in
  let drawn random bs := forall j, (j < k)%nat ->
    fast_sampler_next shape (model (reached (firstn j bs))) B (Some mini) random (j * runs) = Ok ((j + 1) * runs, nth j bs [])%nat in
  (forall random, fresh_rows n random -> exists batches bs,
     (forall c w, sample_and_next_batch op (log_psi w) shape (model w) B (Some mini) random (c * runs) = Ok ((c + 1) * runs, batches c w)%nat) /\
     In bs (all_paths n B k) /\ drawn random bs /\
     exists G A Gn An, new_generator B (Some mini) = Ok G /\ gen_freq G = runs /\ convert_to_accumulate (sgd_of d lr) w0 (gen_freq G) = Ok A /\
       fit (sgd_of d lr) sum d batches sample_gradient G A (k * gen_freq G) = Ok (Gn, An) /\ inner An = reached bs) /\
  (forall bs, In bs (all_paths n B k) -> exists box : nat -> nat -> nat -> R * R,
     (forall j r i, (j < k)%nat -> 0 <= fst (box j r i) /\ snd (box j r i) <= 1) /\
     (forall random, fresh_rows n random -> (drawn random bs <->
        forall j r i, (j < k)%nat -> (r < B)%nat -> (i < n)%nat -> AutoregressiveSpec.inside (nth i (nth r (rows_of_batch random runs (Nat.min mini B) j) []) 0) (box j r i))) /\
     Rprod (fun j => Rprod (fun r => Rprod (fun i => len (box j r i)) (seq 0 n)) (seq 0 B)) (seq 0 k) = path_probability n d H log_psi sample_gradient a w0 bs) /\
  (forall bs, 0 <= path_probability n d H log_psi sample_gradient a w0 bs) /\
  Rsum (path_probability n d H log_psi sample_gradient a w0) (all_paths n B k) = 1.
Proof.
  intros shape d machine model H op lr sum B mini sg w0 k HS HO HB Hm HD Lw HL n log_psi runs a reached drawn.
  split; [|split; [|split]].
  - intros random F.
    destruct (training_end_to_end shape d machine model H op (list R) (sgd_of d lr) sum B mini sg w0 random HS HO HB Hm HD F) as (runs' & batches & E1 & E2).
    { intros s. cbn [sgd_of TrainingModel.weights]. now rewrite map_length, seq_length. } { exact HL. }
    destruct (E2 k) as (G & A & Gn & An & E3 & E4 & E5 & E6 & E7).
    assert (ER : runs' = runs).
    { pose proof (E1 0%nat w0) as E. destruct (generator_ok (machine w0) shape (model w0) (HS w0) B (Some mini) HB ltac:(intros X; injection X; lia) H op HO random 0
        (predictions (conditionals (machine w0) shape)) (eff_divides B mini HB Hm HD) F) as (b & _ & _ & EG).
      cbn [Nat.mul] in E, EG. rewrite E in EG. apply (f_equal (fun r => match r with Ok x => fst x | Err _ => 0%nat end)) in EG. cbn [fst] in EG.
      change (B / eff B (Some mini))%nat with runs in EG. lia. }
    clear E2. rewrite ER in E1, E6, E7. clear ER. destruct (run_path shape d machine model H op lr sum B mini sg w0 HS HO HB Hm HD Lw HL random batches F E1 k) as (bs & I & EB & S).
    exists batches, bs. split; [exact E1|]. split; [exact I|]. split; [exact S|]. exists G, A, Gn, An. split; [exact E3|]. split; [exact E6|]. split; [exact E4|]. split; [exact E5|].
    rewrite E7. exact EB.
  - intros bs I. apply (path_law shape d machine model H lr sum B mini sg w0); assumption.
  - intros bs. apply prob_nonneg.
  - apply prob_total.
Qed.
Print Assumptions C91_run.
Example C91_run_ex : exists model : list R -> graph * nat, (forall w, samplable (phase_machine w) [2%nat] (model w)) /\
  operator_represents (volume [2%nat]) (ising_matrix 1 2 false [2%nat]) (ising_operator 1 2 false [2%nat]) /\ (12 mod 4 = 0)%nat /\
  (forall w x, length (phase_gradient w x) = 1%nat) /\ length (all_paths 2 1 3) = 64%nat.
Proof. destruct C68_training_ex as (model & E1 & E2 & E3 & E4). exists model. repeat (split; [assumption|]). vm_compute. reflexivity. Qed.

(** C91: one update. On average over the batch the energy falls by the step times (B - 1) / B^2 times the square of the gradient, up to the square of the step
    times the mean square of the update. *)
Theorem C91_step : forall n d H op log_psi sample_gradient grad L a B w,
  (0 < B)%nat -> operator_represents n H op -> hermitian n H -> length w = d -> loss_gradient n d log_psi sample_gradient w ->
  energy_gradient_is n d H log_psi w (grad w) -> ExactTrainingSpec.smooth n d H log_psi grad L ->
  average_over (independent n (log_psi w)) n B (fun b => energy_at n H log_psi (descend n d H log_psi sample_gradient a w b)) <=
    energy_at n H log_psi w - a * ((INR B - 1) / INR B ^ 2) * square_norm d (grad w) +
    L / 2 * (a * a) * average_over (independent n (log_psi w)) n B (fun b => square_norm d (batch_gradient n d H log_psi sample_gradient w b)).
Proof. intros. eapply average_descent; eauto. Qed.
Print Assumptions C91_step.

(** C91: the mean square of the update is at most proportional to the fluctuation of the local energy, which is bounded for every operator and vanishes for
    eigenstates. *)
Theorem C91_noise : forall n d H log_psi sample_gradient B w D,
  (0 < B)%nat -> (forall x, length (sample_gradient w x) = d) ->
  (forall s t, In s (spin_configs n) -> square_norm d (sample_gradient w (s, t)) <= D * Cnorm2 t) ->
  average_over (independent n (log_psi w)) n B (fun b => square_norm d (batch_gradient n d H log_psi sample_gradient w b)) <=
    D * (INR B - 1) / INR B ^ 3 * fluctuation n H (log_psi w).
Proof. intros. now apply average_noise. Qed.
Print Assumptions C91_noise.
Theorem C91_fluctuation_bounded : forall n H, hermitian n H -> exists V, forall log_psi, fluctuation n H log_psi <= V.
Proof. exact fluctuation_bounded. Qed.
Print Assumptions C91_fluctuation_bounded.

(** C91: K updates. The mean over the updates and over all runs of the squared gradient is at most a term that falls like 1 / K plus a term proportional to
    the step and to 1 / B. *)
Theorem C91_convergence : forall n d H op log_psi sample_gradient grad L D V m a B w0,
  (2 <= B)%nat -> 0 < a -> 0 <= L -> 0 <= D -> operator_represents n H op -> hermitian n H -> length w0 = d ->
  (forall w x, length (sample_gradient w x) = d) -> (forall w, length w = d -> loss_gradient n d log_psi sample_gradient w) ->
  (forall w, length w = d -> energy_gradient_is n d H log_psi w (grad w)) -> ExactTrainingSpec.smooth n d H log_psi grad L ->
  (forall w s t, length w = d -> In s (spin_configs n) -> square_norm d (sample_gradient w (s, t)) <= D * Cnorm2 t) ->
  (forall w, length w = d -> m <= energy_at n H log_psi w /\ fluctuation n H (log_psi w) <= V) ->
  let mean := average_after n d H log_psi sample_gradient a B in
  forall K, (0 < K)%nat ->
    / INR K * Rsum (fun k => mean k w0 (fun w => square_norm d (grad w))) (seq 0 K) <=
      (energy_at n H log_psi w0 - m) * (INR B ^ 2 / (a * (INR B - 1))) / INR K + L * a * D * V / (2 * INR B) /\
    exists k, (k < K)%nat /\ mean k w0 (fun w => square_norm d (grad w)) <=
      (energy_at n H log_psi w0 - m) * (INR B ^ 2 / (a * (INR B - 1))) / INR K + L * a * D * V / (2 * INR B).
Proof.
  intros n d H op lp sg grad L D V m a B w0 HB Ha HL HDp HO HH Lw Ls HG DG HS HD HV mean K HK.
  assert (P2 : 2 <= INR B) by (apply (le_INR 2); exact HB). assert (PK : 0 < INR K) by (apply lt_0_INR; exact HK).
  set (b := INR B) in *. set (M := L / 2 * (a * a) * (D * (b - 1) / b ^ 3 * V)).
  assert (PB : 0 < b ^ 3) by (apply pow_lt; lra).
  assert (HM : forall w, length w = d -> L / 2 * (a * a) * average_over (independent n (lp w)) n B (fun b => square_norm d (batch_gradient n d H lp sg w b)) <= M).
  { intros w Lw'. apply Rmult_le_compat_l; [apply Rmult_le_pos; [lra|]; apply Rmult_le_pos; lra|].
    eapply Rle_trans; [apply (average_noise n d H lp sg w B D); [lia|apply Ls|intros; now apply HD]|]. apply Rmult_le_compat_l; [|now apply HV].
    apply Rmult_le_pos; [apply Rmult_le_pos; fold b; lra|]. left. now apply Rinv_0_lt_compat. }
  pose proof (telescope n d H lp sg a B Ls op grad L M ltac:(lia) HO HH HG DG HS HM w0 K Lw) as T. fold b in T.
  assert (ML : m <= average_after n d H lp sg a B K w0 (energy_at n H lp)).
  { rewrite <- (mean_const n d H lp sg a B K w0 m). apply mean_le; [exact Ls|exact Lw|]. intros v Lv. now apply HV. }
  fold mean in T, ML. set (S := Rsum (fun k => mean k w0 (fun w => square_norm d (grad w))) (seq 0 K)) in *.
  set (E := energy_at n H lp w0) in *. set (bound := (E - m) * (b ^ 2 / (a * (b - 1))) / INR K + L * a * D * V / (2 * b)).
  assert (X : / INR K * S <= bound).
  { apply (Rmult_le_reg_l (INR K * (a * ((b - 1) / b ^ 2)))).
    { apply Rmult_lt_0_compat; [exact PK|]. apply Rmult_lt_0_compat; [exact Ha|]. apply Rmult_lt_0_compat; [lra|]. apply Rinv_0_lt_compat, pow_lt. lra. }
    replace (INR K * (a * ((b - 1) / b ^ 2)) * (/ INR K * S)) with (a * ((b - 1) / b ^ 2) * S) by (field; lra).
    replace (INR K * (a * ((b - 1) / b ^ 2)) * bound) with (E - m + INR K * M) by (unfold bound, M; field; lra). lra. }
  split; [exact X|].
  destruct (Exists_dec (fun k => mean k w0 (fun w => square_norm d (grad w)) <= bound) (seq 0 K) (fun k => Rle_dec _ _)) as [Y|Y].
  - apply Exists_exists in Y. destruct Y as (k & I & Q). apply in_seq in I. exists k. split; [lia|exact Q].
  - exfalso. assert (ALL : forall k, (k < K)%nat -> bound < mean k w0 (fun w => square_norm d (grad w))).
    { intros k Hk. apply Rnot_le_lt. intros Q. apply Y. apply Exists_exists. exists k. split; [apply in_seq; lia|exact Q]. }
    assert (Z : INR K * bound < S).
    { unfold S. clearbody bound. clear - ALL HK. induction K as [|K IH]; [lia|]. rewrite seq_S, Rsum_app, Rsum_cons, Rsum_nil. cbn [Nat.add]. rewrite S_INR.
      pose proof (ALL K ltac:(lia)). destruct K as [|K]; [cbn [seq INR]; rewrite Rsum_nil; lra|].
      assert (INR (S K) * bound < Rsum (fun k => mean k w0 (fun w => square_norm d (grad w))) (seq 0 (S K))) by (apply IH; [lia|intros; apply ALL; lia]). lra. }
    apply (Rmult_lt_compat_l (/ INR K)) in Z; [|now apply Rinv_0_lt_compat]. rewrite <- Rmult_assoc, Rinv_l, Rmult_1_l in Z by lra. lra.
Qed.
Print Assumptions C91_convergence.
Example C91_convergence_ex : let H := ising_matrix 1 1 false [1%nat] in let grad := fun w => [2 * sin (2 * nth 0 w 0)] in
  operator_represents 1 H (ising_operator 1 1 false [1%nat]) /\ hermitian 1 H /\ (forall w x, length (one_spin_gradient w x) = 1%nat) /\
  (forall w, length w = 1%nat -> loss_gradient 1 1 one_spin one_spin_gradient w) /\
  (forall w, length w = 1%nat -> energy_gradient_is 1 1 H one_spin w (grad w)) /\ ExactTrainingSpec.smooth 1 1 H one_spin grad 8 /\
  (forall w s t, length w = 1%nat -> In s (spin_configs 1) -> square_norm 1 (one_spin_gradient w (s, t)) <= 4 * Cnorm2 t) /\
  exists V, forall w, length w = 1%nat -> -1 <= energy_at 1 H one_spin w /\ fluctuation 1 H (one_spin w) <= V.
Proof.
  intros H grad. split; [exact one_spin_operator|]. split; [exact (ising_matrix_hermitian 1 1 false [1%nat])|]. split; [reflexivity|].
  split; [intros w L; apply line_loss; [exact L|now apply one_spin_line]|]. split; [apply C88_convergence_ex|]. split; [apply C88_convergence_ex|]. split.
  - intros w s t _ Hs. unfold square_norm, inner_product, one_spin_gradient. cbn [seq fst snd]. rewrite Rsum_cons, Rsum_nil. cbn [nth]. unfold Cnorm2.
    assert (Q : IZR (nth 0 s 0%Z) * IZR (nth 0 s 0%Z) = 1). { cbn in Hs. destruct Hs as [<-|[<-|[]]]; cbn [nth]; ring. }
    fold (Re t) (Im t). pose proof (Rle_0_sqr (Re t)) as X. unfold Rsqr in X.
    replace (- (2 * IZR (nth 0 s 0%Z) * Im t) * - (2 * IZR (nth 0 s 0%Z) * Im t) + 0) with (4 * (IZR (nth 0 s 0%Z) * IZR (nth 0 s 0%Z)) * (Im t * Im t)) by ring. rewrite Q. lra.
  - destruct (C91_fluctuation_bounded 1 H (ising_matrix_hermitian 1 1 false [1%nat])) as [V HV]. exists V. intros w _. split; [|apply HV].
    unfold H. rewrite one_spin_energy. pose proof (COS_bound (2 * nth 0 w 0)). lra.
Qed.
Example C91_step_ex : let w := [/ 3] in length w = 1%nat /\ loss_gradient 1 1 one_spin one_spin_gradient w /\ (forall x, length (one_spin_gradient w x) = 1%nat) /\
  one_spin_gradient w ([1%Z], (0, 1)) = [- (2)].
Proof. intros w. split; [reflexivity|]. split; [apply C91_convergence_ex; reflexivity|]. split; [reflexivity|]. unfold one_spin_gradient, Im. cbn [nth fst snd]. f_equal. ring. Qed.

(** C91: with batches of one row nothing is learned: the weights stay for every sequence of batches. *)
Theorem C91_single_row_refuted : forall n d H log_psi sample_gradient a w0 k bs, length w0 = d -> loss_gradient n d log_psi sample_gradient w0 ->
  In bs (all_paths n 1 k) -> after n d H log_psi sample_gradient a w0 bs = w0.
Proof.
  intros n d H lp sg a w0 k bs Lw HG. revert k. induction bs as [|b bs IH]; intros k I; [reflexivity|]. apply all_paths_in in I. destruct I as [L A].
  destruct k as [|k]; [discriminate|]. injection L as L. unfold after. cbn [fold_left].
  assert (E : descend n d H lp sg a w0 b = w0).
  { assert (Hb : In b (all_batches n 1)) by (apply A; now left). apply all_batches_in in Hb. destruct Hb as [L1 A1]. destruct b as [|s [|]]; try discriminate.
    unfold descend, batch_gradient. cbv zeta. cbn [length map].
    assert (Z : Cscale (/ INR 1) (Cconj (local_energy n H (lp w0) s - Cscale (/ INR 1) (Csum (local_energy n H (lp w0)) [s]))%C) = C0).
    { unfold Csum. cbn [fold_right]. generalize (local_energy n H (lp w0) s). intros z. unfold Cscale, Cconj, Cminus, Cplus, C0. cbn [fst snd]. simpl INR. f_equal; field. }
    rewrite Z. apply vec_ext.
    - apply vadd_length. rewrite !vscale_length, vsum_length; [exact Lw|]. intros v [<-|[]]. apply HG.
    - intros i. rewrite nth_vadd by (rewrite !vscale_length, vsum_length; [exact Lw|intros v [<-|[]]; apply HG]). rewrite !nth_vscale, nth_vsum by (intros v [<-|[]]; apply HG).
      rewrite Rsum_cons, Rsum_nil. destruct (Nat.lt_ge_cases i d) as [Hi|Hi].
      + rewrite (loss_gradient_value n d lp sg w0 i s C0 HG Hi (A1 s (or_introl eq_refl))). unfold Cmult, C0, Re. cbn [fst snd]. ring.
      + rewrite (nth_overflow (sg _ _)) by (rewrite (proj1 HG); exact Hi). ring. }
  rewrite E. apply (IH k). apply all_paths_in. split; [exact L|]. intros c Hc. apply A. now right.
Qed.
Print Assumptions C91_single_row_refuted.
Example C91_single_row_refuted_ex : In [[[1%Z]]; [[(-1)%Z]]] (all_paths 1 1 2) /\ loss_gradient 1 1 one_spin one_spin_gradient [/ 3].
Proof. split; [vm_compute; tauto|]. apply C91_convergence_ex. reflexivity. Qed.
