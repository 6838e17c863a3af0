(** Property C88 for the machines of FlowKet (machines/simple_conv_net_autoregressive_1D.py, machines/complex_values_simple_conv_net_autoregressive_1D.py,
    machines/conv_net_autoregressive_2D.py): their gradients give the slope along every line, so that training on all configurations lowers the energy. *)
From Coq Require Import List ZArith Reals Bool Arith Lia Lra.
From Verif Require Import Base Cplx Vec LatticeSpec IsingModel TrainingModel TrainingSpec AutoregressiveModel AutoregressiveSpec ObservableModel ObservableSpec ExactModel ExactSpec
  ExactProofs ExactGradientProofs ExactGeneratorProofs ExactFinalProofs ExactOperatorProofs ExactCallbackModel PipelineSpec PipelineProofs
  MachinesModel MachinesSpec GradientModel GradientSpec GradientLossProofs GradientExamples
  ExactTrainingModel ExactTrainingSpec ExactTrainingProofs ExactTrainingProps LineGradientSpec LineGradientProofs.
Import ListNotations.
Local Open Scope R_scope.

(** If no activation function is at a point without a derivative, for any configuration and any single weight, then the gradient of the loss gives the slope along every line
    through the weights, whatever its direction. *)
Theorem C88_line_gradients :
  (forall p act dact places n w, real_activation act dact ->
     (forall i s, (i < length w)%nat -> In s (spin_configs n) -> all_smooth (real_1d_out p dact places n w (unit_vector (length w) i) s) [n] (length s) = true) ->
     line_gradient n (length w) (fun w => predictions (conditionals (simple_conv_net_1d p (fun l => layer_weights (places l) w) act) [n])) (real_1d_gradient p dact places n) w) /\
  (forall p act dact re im n w, complex_activation act dact ->
     (forall i s, (i < length w)%nat -> In s (spin_configs n) -> all_smooth (complex_1d_out p dact re im n w (unit_vector (length w) i) s) [n] (length s) = true) ->
     line_gradient n (length w) (fun w => predictions (conditionals (complex_conv_net_1d p (fun l => complex_layer_weights (re l) (im l) w) act) [n]))
       (complex_1d_gradient p dact re im n) w) /\
  (forall p places last h wd w,
     (forall i s, (i < length w)%nat -> In s (spin_configs (h * wd)) ->
        all_smooth (real_2d_out p places last h wd w (unit_vector (length w) i) s) [h; wd] (length s) = true) ->
     line_gradient (h * wd) (length w)
       (fun w => predictions (conditionals (conv_net_2d p (fun b j => layer_weights (places b j) w) (layer_weights last w) relu_row) [h; wd]))
       (real_2d_gradient p places last h wd) w).
Proof. split; [exact real_1d_line|]. split; [exact complex_1d_line|exact real_2d_line]. Qed.
Print Assumptions C88_line_gradients.
Example C88_line_gradients_ex :
  (forall i s, (i < 3)%nat -> In s (spin_configs 2) -> all_smooth (real_1d_out ex_params (Some relu_dual_row) ex_places 2 [3; 5; 1] (unit_vector 3 i) s) [2%nat] (length s) = true) /\
  (forall i s, (i < 2)%nat -> In s (spin_configs 2) ->
     all_smooth (complex_1d_out complex_ex_params (Some lncosh_dual_row) complex_ex_re complex_ex_im 2 [/ 2; 0] (unit_vector 2 i) s) [2%nat] (length s) = true) /\
  (forall i s, (i < 1)%nat -> In s (spin_configs (1 * 1)) ->
     all_smooth (real_2d_out corner_params last_ex_places last_ex 1 1 [2] (unit_vector 1 i) s) [1%nat; 1%nat] (length s) = true).
Proof. split; [exact ex_smooth|]. split; [exact complex_ex_smooth|exact last_ex_smooth]. Qed.

Lemma descent_lowers n H op batch past e lp sg sum w : (n <= 31)%nat -> operator_represents n H op -> hermitian n H -> good_batch_size n batch -> built n op batch past e ->
  (forall v x, length (sg v x) = length v) -> line_gradient n (length w) lp sg w -> cycle_lowers n H lp sg sum e w.
Proof.
  intros Hn HO HH HB HE Ls HG. destruct (C88_descent n H op batch past e lp sg (length w) sum w Hn HO HH HB HE eq_refl) as (G & D & _ & K); [intros v x L; now rewrite Ls|exact HG|].
  exists G. split; [exact D|]. intros NZ. destruct (K NZ) as (delta & P & Q). exists delta. split; [exact P|]. intros lr L. destruct (Q lr L) as (w' & E & F).
  rewrite Nat.mul_1_l in E. destruct (train_exactly _ _ _ _ _ _ _ _) as [[g A]|]; [|discriminate]. injection E as E. exists g, A. split; [reflexivity|]. now rewrite E.
Qed.

(** One cycle of training on all configurations with stochastic gradient descent lowers the energy of a machine, unless its gradient is zero. No assumption about
    back propagation is left. *)
Theorem C88_machines_descend : forall n H op batch past e (sum : bool) w,
  (n <= 31)%nat -> operator_represents n H op -> hermitian n H -> good_batch_size n batch -> built n op batch past e ->
  (forall p act dact places, real_activation act dact ->
     (forall i s, (i < length w)%nat -> In s (spin_configs n) -> all_smooth (real_1d_out p dact places n w (unit_vector (length w) i) s) [n] (length s) = true) ->
     cycle_lowers n H (fun w => predictions (conditionals (simple_conv_net_1d p (fun l => layer_weights (places l) w) act) [n])) (real_1d_gradient p dact places n) sum e w) /\
  (forall p act dact re im, complex_activation act dact ->
     (forall i s, (i < length w)%nat -> In s (spin_configs n) -> all_smooth (complex_1d_out p dact re im n w (unit_vector (length w) i) s) [n] (length s) = true) ->
     cycle_lowers n H (fun w => predictions (conditionals (complex_conv_net_1d p (fun l => complex_layer_weights (re l) (im l) w) act) [n])) (complex_1d_gradient p dact re im n) sum e w) /\
  (forall p places last h wd, n = (h * wd)%nat ->
     (forall i s, (i < length w)%nat -> In s (spin_configs n) -> all_smooth (real_2d_out p places last h wd w (unit_vector (length w) i) s) [h; wd] (length s) = true) ->
     cycle_lowers n H (fun w => predictions (conditionals (conv_net_2d p (fun b j => layer_weights (places b j) w) (layer_weights last w) relu_row) [h; wd]))
       (real_2d_gradient p places last h wd) sum e w).
Proof.
  intros n H op batch past e sum w Hn HO HH HB HE. split; [|split].
  - intros p act dact places HA HS. apply (descent_lowers n H op batch past); auto; [|now apply real_1d_line].
    intros v x. unfold real_1d_gradient, sample_loss_slope. now rewrite map_length, range_length.
  - intros p act dact re im HA HS. apply (descent_lowers n H op batch past); auto; [|now apply complex_1d_line].
    intros v x. unfold complex_1d_gradient, sample_loss_slope. now rewrite map_length, range_length.
  - intros p places last h wd E HS. subst n. apply (descent_lowers _ H op batch past); auto; [|now apply real_2d_line].
    intros v x. unfold real_2d_gradient, sample_loss_slope. now rewrite map_length, range_length.
Qed.
Print Assumptions C88_machines_descend.
Example C88_machines_descend_ex :
  operator_represents 2 (ising_matrix 1 1 false [2%nat]) (ising_operator 1 1 false [2%nat]) /\ hermitian 2 (ising_matrix 1 1 false [2%nat]) /\ good_batch_size 2 2 /\
  (exists e, built 2 (ising_operator 1 1 false [2%nat]) 2 [] e) /\ real_activation (Some relu_row) (Some relu_dual_row) /\
  (forall i s, (i < 3)%nat -> In s (spin_configs 2) -> all_smooth (real_1d_out ex_params (Some relu_dual_row) ex_places 2 [3; 5; 1] (unit_vector 3 i) s) [2%nat] (length s) = true).
Proof.
  assert (O : operator_represents 2 (ising_matrix 1 1 false [2%nat]) (ising_operator 1 1 false [2%nat])).
  { apply (ising_operator_represents 1 1 false [2%nat]). left. exists 2%nat. split; [reflexivity|]. right. split; [reflexivity|lia]. }
  assert (B : good_batch_size 2 2) by (split; [lia|reflexivity]).
  split; [exact O|]. split; [exact (ising_matrix_hermitian 1 1 false [2%nat])|]. split; [exact B|].
  split. { destruct (built_ok 2 _ _ 2 [] ltac:(lia) O B) as (e & E & _). exists e. exact E. }
  split; [right; split; reflexivity|exact ex_smooth].
Qed.
