(** Property C68: one training run of experiments/train.py, end to end. *)
From Coq Require Import List ZArith Reals Lra Lia Bool Arith.
From Verif Require Import Base Cplx Vec OrderingModel OrderingSpec TensorModel AutoregressiveModel AutoregressiveSpec LatticeSpec
  MachinesModel MachinesSpec MachinesProps GraphModel FastMachineModel FastMachineSpec FastMachineEndProofs FastMachineProps
  TrainingModel TrainingSpec TrainingProofs ObservableModel ObservableSpec ExactModel ExactSpec ExactOperatorProofs ExactGradientProofs
  MonteCarloModel MonteCarloSpec MonteCarloProofs PipelineModel PipelineSpec PipelineProofs.
Import ListNotations.

(** C68: the built-in machines can be used with the fast sampler, whatever their weights. *)
Theorem C68_machines :
  (forall (p : params_1d) (W : nat -> MachinesModel.weights R) (act : option (list R -> list R)) (n : nat), 1 <= ksize p -> 0 < n -> optionally keeps_length act ->
     exists model, samplable (simple_conv_net_1d p W act) [n] model) /\
  (forall (p : params_1d) (W : nat -> MachinesModel.weights C) (act : option (list C -> list C)) (n : nat), 1 <= ksize p -> 0 < n -> optionally keeps_length act ->
     exists model, samplable (complex_conv_net_1d p W act) [n] model) /\
  (forall (p : params_2d) (W : nat -> nat -> MachinesModel.weights R) (w_last : MachinesModel.weights R) (act : list R -> list R) (h w : nat),
     Nat.odd (ksize2 p) = true -> 0 < h -> 0 < w -> keeps_length act -> exists model, samplable (conv_net_2d p W w_last act) [h; w] model).
Proof.
  split; [|split].
  - intros p W act n Hk Hn HA. destruct (C66_real_1d p W act n Hk Hn HA) as (S & h & HG & _). exists (S, h).
    destruct (C15_real_machine_causal p W act n Hk Hn) as [HW HC]. split; [now left|]. split; [eexists; exact HG|]. split; [exact HW|]. now rewrite volume_1.
  - intros p W act n Hk Hn HA. destruct (C66_complex_1d p W act n Hk Hn HA) as (S & h & HG & _). exists (S, h).
    destruct (C15_complex_machine_causal p W act n Hk Hn) as [HW HC]. split; [now left|]. split; [eexists; exact HG|]. split; [exact HW|]. now rewrite volume_1.
  - intros p W wl act h w Hk Hh Hw HA. destruct (C66_conv_2d p W wl act h w Hk Hh Hw HA) as (S & k & HG & _). exists (S, k).
    destruct (C16_machine_causal p W wl act h w Hk Hh Hw) as [HW HC]. split; [now right|]. split; [eexists; exact HG|]. split; [exact HW|]. now rewrite volume_2.
Qed.
Print Assumptions C68_machines.
Example C68_machines_ex : Nat.odd (ksize2 {| depth2 := 20; channels2 := 32; ksize2 := 3 |}) = true /\ 0 < 12 /\ keeps_length relu.
Proof. split; [reflexivity|]. split; [lia|]. exact relu_keeps_length. Qed.

(** C68: the random numbers for which the sampler returns a given batch form a box whose volume is the product of the Born probabilities of the
    rows. The batch number [c] uses the runs of the sampling function from [c * (B / m)] on. When the mini batch size m does not divide
    the batch size B, fewer rows are returned. *)
Theorem C68_sampler : forall (machine : tensor Z -> res (tensor (list C))) (shape : list nat) (model : graph * nat) (B : nat) (mini : option nat),
  samplable machine shape model -> 0 < B -> mini <> Some 0 ->
  let n := volume shape in
  let m := match mini with None => B | Some m => Nat.min m B end in
  let runs := B / m in
  exists box : list (list Z) -> nat -> nat -> R * R,
    (forall b k i, 0 <= fst (box b k i) /\ snd (box b k i) <= 1)%R /\
    (forall random c b, fresh_rows n random -> In b (all_batches n (runs * m)) ->
       (fast_sampler_next shape model B mini random (c * runs) = Ok ((c + 1) * runs, b) <->
        forall k i, k < runs * m -> i < n -> inside (nth i (nth k (rows_of_batch random runs m c) []) 0%R) (box b k i))) /\
    (forall b, In b (all_batches n (runs * m)) ->
       Rprod (fun k => Rprod (fun i => len (box b k i)) (seq 0 n)) (seq 0 (runs * m)) =
       independent n (predictions (conditionals machine shape)) b).
Proof. intros machine shape model B mini HS HB Hm. exact (sampler_law machine shape model HS B mini HB Hm). Qed.
Print Assumptions C68_sampler.
Example C68_sampler_ex : (exists model, samplable (conv_net_2d {| depth2 := 5; channels2 := 8; ksize2 := 3 |} (fun _ => unit_weights) (unit_weights 0) relu) [3; 2] model) /\
  fresh_rows 6 (fun k m => repeat (repeat (/ 2)%R 6) m) /\ length (rows_of_batch (fun k m => repeat (repeat (/ 2)%R 6) m) 3 2 4) = 6.
Proof.
  split; [apply C68_machines; [reflexivity|lia|lia|exact relu_keeps_length]|]. split; [|reflexivity].
  intros k m. split; [apply repeat_length|]. intros u Hu. apply repeat_spec in Hu. subst u. split; [reflexivity|]. apply Forall_forall.
  intros x Hx. apply repeat_spec in Hx. subst x. lra.
Qed.

(** C68: when m divides B, the generator returns the batch of the sampler with the targets of variational_monte_carlo.py:38-50. *)
Theorem C68_generator : forall (machine : tensor Z -> res (tensor (list C))) (shape : list nat) (model : graph * nat) (B : nat) (mini : option nat)
    (H : list Z -> list Z -> C) (op : operator) (random : nat -> nat -> list (list R)) (c : nat),
  samplable machine shape model -> 0 < B -> mini <> Some 0 ->
  let n := volume shape in
  let m := match mini with None => B | Some m => Nat.min m B end in
  let runs := B / m in
  let log_psi := predictions (conditionals machine shape) in
  operator_represents n H op -> B mod m = 0 -> fresh_rows n random ->
  exists b, In b (all_batches n B) /\ fast_sampler_next shape model B mini random (c * runs) = Ok ((c + 1) * runs, b) /\
    let E := Cscale (/ INR B) (Csum (local_energy n H log_psi) b) in
    sample_and_next_batch op log_psi shape model B mini random (c * runs) =
      Ok ((c + 1) * runs, map (fun s => (s, Cscale (/ INR B) (Cconj (local_energy n H log_psi s - E)%C))) b).
Proof.
  intros machine shape model B mini H op random c HS HB Hm n m runs log_psi HO HD F.
  destruct (generator_ok machine shape model HS B mini HB Hm H op HO random c log_psi HD F) as (b & Hb & ES & EG).
  exists b. split; [exact Hb|]. split; [exact ES|]. cbv zeta. etransitivity; [exact EG|]. unfold target_of.
  apply all_batches_in in Hb. now rewrite (proj1 Hb).
Qed.
Print Assumptions C68_generator.
Example C68_generator_ex : 12 mod (Nat.min 4 12) = 0 /\ operator_represents 6 (ising_matrix 1 2 false [3; 2]) (ising_operator 1 2 false [3; 2]).
Proof. split; [reflexivity|]. apply (ising_operator_represents 1 2 false [3; 2]). right. exists 3, 2. split; [reflexivity|]. lia. Qed.

(** The example: two sites, one weight, the phase of the wave function is the weight times the first spin when the second is up. *)
Definition phase_weights (w : list R) (k : nat) : MachinesModel.weights R :=
  {| kernel_at := fun j => if j =? 2 then nth 0 w 0%R else 0%R; bias_at := fun _ => 0%R |}.
Definition one_layer : params_1d := {| depth := 2; num_of_channels := 4; ksize := 2; use_dilation := false; add_skip_connections := false; max_dilation_rate := None |}.
Definition phase_machine (w : list R) := simple_conv_net_1d one_layer (phase_weights w) None.
Definition phase_slope (s : list Z) : R := if (nth 1 s 0 =? 1)%Z then IZR (nth 0 s 0%Z) else 0%R.
Lemma phase_machine_value s : In s (spin_configs 2) -> exists c, forall w, predictions (conditionals (phase_machine w) [2]) s = (c, phase_slope s * nth 0 w 0)%R.
Proof.
  intros [<-|[<-|[<-|[<-|[]]]]]; eexists; intros [|a w]; cbv -[Rplus Rmult Rminus Rdiv Rinv IZR exp ln]; apply f_equal2; try reflexivity; ring.
Qed.

Definition phase_gradient (w : list R) (x : list Z * C) : list R := [- 2 * phase_slope (fst x) * Im (snd x)]%R.
Lemma phase_loss_gradient a : loss_gradient 2 1 (fun w => predictions (conditionals (phase_machine w) [2])) phase_gradient [a].
Proof.
  split; [reflexivity|]. intros i s t Hi Hs. assert (i = 0) by lia. subst i. cbn [upd nth].
  destruct (phase_machine_value s Hs) as (c & Ec).
  apply (limit_ext (fun v => 2 * c * Re t + - 2 * phase_slope s * Im t * v)%R).
  - intros v. rewrite Ec. cbn [nth]. unfold Cmult, Re, Im. cbn [fst snd]. ring.
  - unfold phase_gradient. cbn [nth fst snd].
    apply (limit_value _ _ (0 + - 2 * phase_slope s * Im t * 1)%R); [ring|].
    apply (derivable_pt_lim_plus (fun _ => 2 * c * Re t)%R (fun v => - 2 * phase_slope s * Im t * v)%R); [apply derivable_pt_lim_const|].
    apply (derivable_pt_lim_scal id), derivable_pt_lim_id.
Qed.
Lemma chain_represents : operator_represents 2 (ising_matrix 1 2 false [2]) (ising_operator 1 2 false [2]).
Proof. apply (ising_operator_represents 1 2 false [2]). left. exists 2. split; [reflexivity|]. right. split; [reflexivity|lia]. Qed.

(** C68: under the condition that train.py:100 asserts, training with mini batches and accumulated gradients makes exactly the updates of
    training with whole batches, the gradients multiplied by the number of mini batches in sum mode. *)
Theorem C68_training : forall (shape : list nat) (d : nat) (machine : list R -> tensor Z -> res (tensor (list C))) (model : list R -> graph * nat)
    (H : list Z -> list Z -> C) (op : operator) (St : Type) (O : optimizer St) (sum : bool) (B mini : nat)
    (sample_gradient : list R -> list Z * C -> list R) (s0 : St) (random : nat -> nat -> list (list R)),
  (forall w, samplable (machine w) shape (model w)) -> operator_represents (volume shape) H op ->
  0 < B -> 0 < mini -> B < mini \/ B mod mini = 0 -> fresh_rows (volume shape) random ->
  (forall s, length (TrainingModel.weights O s) = d) -> (forall w x, length (sample_gradient w x) = d) ->
  exists runs batches,
    (forall c w, sample_and_next_batch op (predictions (conditionals (machine w) shape)) shape (model w) B (Some mini) random (c * runs) =
       Ok ((c + 1) * runs, batches c w)) /\
    forall k, exists G A Gn An, new_generator B (Some mini) = Ok G /\ convert_to_accumulate O s0 (gen_freq G) = Ok A /\
      fit O sum d batches sample_gradient G A (k * gen_freq G) = Ok (Gn, An) /\ gen_freq G = runs /\
      inner An = full_batch_training O d (if sum then INR runs else 1%R) batches sample_gradient s0 k.
Proof. exact training_end_to_end. Qed.
Print Assumptions C68_training.
Example C68_training_ex : exists model : list R -> graph * nat, (forall w, samplable (phase_machine w) [2] (model w)) /\
  operator_represents (volume [2]) (ising_matrix 1 2 false [2]) (ising_operator 1 2 false [2]) /\ 12 mod 4 = 0 /\
  (forall w x, length (phase_gradient w x) = 1).
Proof.
  exists (fun w => match conditional_log_probs_graph (simple_conv_net_1d_graph one_layer (phase_weights w) None) false [2] with Ok m => m | Err _ => ([], 0) end).
  split; [|split; [exact chain_represents|split; reflexivity]]. intros w.
  destruct (C66_real_1d one_layer (phase_weights w) None 2 ltac:(cbn; lia) ltac:(lia) Logic.I) as (S & h & HG & _).
  destruct (C15_real_machine_causal one_layer (phase_weights w) None 2 ltac:(cbn; lia) ltac:(lia)) as [HW HC].
  rewrite (proj1 HG). split; [now left|]. split; [eexists; exact HG|]. split; [exact HW|]. exact HC.
Qed.

(** C68: the gradient of an update, as a function of the rows that the sampler drew, is on average (B - 1) / B^2 times the derivative of the
    energy with respect to every weight. *)
Theorem C68_update : forall (shape : list nat) (d : nat) (machine : list R -> tensor Z -> res (tensor (list C))) (model : list R -> graph * nat)
    (H : list Z -> list Z -> C) (op : operator) (B mini : nat) (sample_gradient : list R -> list Z * C -> list R) (w : list R),
  samplable (machine w) shape (model w) -> operator_represents (volume shape) H op -> hermitian (volume shape) H ->
  0 < B -> 0 < mini -> B < mini \/ B mod mini = 0 ->
  let n := volume shape in
  let log_psi := fun w => predictions (conditionals (machine w) shape) in
  let runs := B / Nat.min mini B in
  loss_gradient n d log_psi sample_gradient w ->
  exists update : list (list Z) -> list R,
    (forall random c, fresh_rows n random -> exists b pairs, In b (all_batches n B) /\
       fast_sampler_next shape (model w) B (Some mini) random (c * runs) = Ok ((c + 1) * runs, b) /\
       sample_and_next_batch op (log_psi w) shape (model w) B (Some mini) random (c * runs) = Ok ((c + 1) * runs, pairs) /\
       mean_gradient d sample_gradient w pairs = update b) /\
    forall i, i < d -> exists G, derivable_pt_lim (fun v => Re (expectation n H (log_psi (upd w i v)))) (nth i w 0%R) G /\
      average_over (independent n (log_psi w)) n B (fun b => nth i (update b) 0%R) = ((INR B - 1) / INR B ^ 2 * G)%R.
Proof. exact update_end_to_end. Qed.
Print Assumptions C68_update.
Example C68_update_ex : (exists model, samplable (phase_machine [/ 3]%R) [2] model) /\
  operator_represents (volume [2]) (ising_matrix 1 2 false [2]) (ising_operator 1 2 false [2]) /\ hermitian (volume [2]) (ising_matrix 1 2 false [2]) /\
  loss_gradient (volume [2]) 1 (fun w => predictions (conditionals (phase_machine w) [2])) phase_gradient [/ 3]%R /\ phase_slope [-1; 1]%Z = (-1)%R.
Proof.
  split; [apply C68_machines; [cbn; lia|lia|exact Logic.I]|]. split; [exact chain_represents|]. split; [exact (ising_matrix_hermitian 1 2 false [2])|].
  split; [exact (phase_loss_gradient _)|reflexivity].
Qed.
