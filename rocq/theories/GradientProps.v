(** C71: the gradients that training uses are the derivatives of the loss, through every layer of the machines. *)
From Coq Require Import List ZArith Arith Bool Reals Lra Lia.
From Verif Require Import Base Cplx OrderingModel OrderingSpec TensorModel AutoregressiveModel AutoregressiveSpec MachinesModel MachinesSpec ComplexModel WeightNormModel
  GraphModel FastMachineModel ObservableModel ExactModel ExactSpec MonteCarloModel MonteCarloSpec TrainingModel PipelineModel PipelineSpec PipelineProps GradientModel
  GradientSpec IsingModel ExactOperatorProofs ExactGradientProofs GradientProofs GradientLossProofs GradientExamples.
Import ListNotations.
Local Open Scope nat_scope.

(** C71: the convolutional machine in one dimension. Along any curve of weights, the log wave function has the derivative that the chain rule through the layers, the
    normalisation and the product of the conditionals gives, as long as no rectifier is at zero with a moving input. *)
Theorem C71_real_machine : forall (p : params_1d) (W : R -> nat -> MachinesModel.weights R) (V : nat -> MachinesModel.weights R) (x : R)
    (act : option (list R -> list R)) (dact : option (list (dual R) -> list (dual R))) (n : nat) (s : list Z),
  real_activation act dact -> (forall l, weights_derive (fun t => W t l) x (V l)) ->
  let out := conv_net_1d_features (dual_numbers real_numbers) p (fun l => weights_with_slope (W x l) (V l)) dact (add_skip_connections p) (depth p - 2) 4
               (constant_input real_numbers IZR [n] s) in
  all_smooth out [n] (length s) = true ->
  Cderive (fun t => predictions (conditionals (simple_conv_net_1d p (W t) act) [n]) s) x (log_psi_slope vector_to_complex out [n] s).
Proof. exact real_machine_derive. Qed.
Print Assumptions C71_real_machine.
Example C71_real_machine_ex : real_activation (Some relu_row) (Some relu_dual_row) /\
  (forall l, weights_derive (fun t => layer_weights (ex_places l) (upd [3; 5; 1]%R 1 t)) 5%R (layer_weights (ex_places l) (unit_vector 3 1))) /\
  all_smooth (real_1d_out ex_params (Some relu_dual_row) ex_places 2 [3; 5; 1]%R (unit_vector 3 1) [-1; 1]%Z) [2] 2 = true.
Proof.
  split; [right; split; reflexivity|]. split; [intros l; apply (layer_derive (ex_places l) [3; 5; 1]%R 1); cbn; lia|].
  apply (ex_smooth 1 [-1; 1]%Z); [lia|cbn; tauto].
Qed.

(** C71: the complex machine, whose weights are pairs of real numbers. Without activation, with lncosh (the default) or with crelu. *)
Theorem C71_complex_machine : forall (p : params_1d) (W : R -> nat -> MachinesModel.weights C) (V : nat -> MachinesModel.weights C) (x : R)
    (act : option (list C -> list C)) (dact : option (list (dual C) -> list (dual C))) (n : nat) (s : list Z),
  complex_activation act dact -> (forall l, complex_weights_derive (fun t => W t l) x (V l)) ->
  let out := conv_net_1d_features (dual_numbers complex_numbers) p (fun l => weights_with_slope (W x l) (V l)) dact false (depth p - 1) 2
               (constant_input complex_numbers (fun z => RtoC (IZR z)) [n] s) in
  all_smooth out [n] (length s) = true ->
  Cderive (fun t => predictions (conditionals (complex_conv_net_1d p (W t) act) [n]) s) x (log_psi_slope (fun v => v) out [n] s).
Proof. exact complex_machine_derive. Qed.
Print Assumptions C71_complex_machine.
Example C71_complex_machine_ex : complex_activation (Some lncosh_row) (Some lncosh_dual_row) /\
  (forall l, complex_weights_derive (fun t => complex_layer_weights (complex_ex_re l) (complex_ex_im l) (upd [/ 2; 0]%R 1 t)) 0%R
     (complex_layer_weights (complex_ex_re l) (complex_ex_im l) (unit_vector 2 1))) /\
  all_smooth (complex_1d_out complex_ex_params (Some lncosh_dual_row) complex_ex_re complex_ex_im 2 [/ 2; 0]%R (unit_vector 2 1) [-1; 1]%Z) [2] 2 = true.
Proof.
  split; [right; left; split; reflexivity|]. split; [intros l; apply (complex_layer_derive (complex_ex_re l) (complex_ex_im l) [/ 2; 0]%R 1); cbn; lia|].
  apply (complex_ex_smooth 1 [-1; 1]%Z); [lia|cbn; tauto].
Qed.

(** C71: the machine in two dimensions with its default activation. *)
Theorem C71_machine_2d : forall (p : params_2d) (W : R -> nat -> nat -> MachinesModel.weights R) (V : nat -> nat -> MachinesModel.weights R)
    (w_last : R -> MachinesModel.weights R) (v_last : MachinesModel.weights R) (x : R) (h w : nat) (s : list Z),
  (forall b j, weights_derive (fun t => W t b j) x (V b j)) -> weights_derive w_last x v_last ->
  let out := conv_net_2d_features (dual_numbers real_numbers) p (fun b j => weights_with_slope (W x b j) (V b j)) (weights_with_slope (w_last x) v_last) relu_dual_row
               (constant_input real_numbers IZR [h; w] s) in
  all_smooth out [h; w] (length s) = true ->
  Cderive (fun t => predictions (conditionals (conv_net_2d p (W t) (w_last t) relu_row) [h; w]) s) x (log_psi_slope vector_to_complex out [h; w] s).
Proof. exact machine_2d_derive. Qed.
Print Assumptions C71_machine_2d.
Example C71_machine_2d_ex : (forall b j, weights_derive (fun t => layer_weights (last_ex_places b j) (upd [2]%R 0 t)) 2%R (layer_weights (last_ex_places b j) (unit_vector 1 0))) /\
  weights_derive (fun t => layer_weights last_ex (upd [2]%R 0 t)) 2%R (layer_weights last_ex (unit_vector 1 0)) /\
  all_smooth (real_2d_out corner_params last_ex_places last_ex 1 1 [2]%R (unit_vector 1 0) [-1]%Z) [1; 1] 1 = true.
Proof.
  split; [intros b j; apply (layer_derive (last_ex_places b j) [2]%R 0); cbn; lia|]. split; [apply (layer_derive last_ex [2]%R 0); cbn; lia|].
  apply (last_ex_smooth 0 [-1]%Z); [lia|cbn; tauto].
Qed.

(** C71: the derivative of lncosh is tanh wherever its logarithm does not jump. *)
Theorem C71_lncosh : forall (f : R -> C) (x : R) (d : C), Cderive f x d ->
  (0 < Re (Cexp (f x) + Cexp (- f x))%C)%R \/ Im (Cexp (f x) + Cexp (- f x))%C <> 0%R ->
  Cderive (fun t => lncosh (f t)) x (d * ((Cexp (f x) - Cexp (- f x)) / (Cexp (f x) + Cexp (- f x))))%C.
Proof. exact lncosh_derive. Qed.
Print Assumptions C71_lncosh.
Example C71_lncosh_ex : Cderive (fun t => (t, 0)%R) 1%R (1, 0)%R /\ (0 < Re (Cexp (1, 0) + Cexp (- (1, 0)))%C)%R.
Proof. split; [split; [apply derivable_pt_lim_id|exact (const_limit 0%R 1%R)]|exact (twice_cosh_real (1, 0)%R eq_refl)]. Qed.

(** C71: with weight normalisation the kernels are functions of the variables v and g; these are their derivatives, unless the sum of squares is exactly 1e-12. *)
Theorem C71_normalized_kernel : forall (w : R -> wrapper) (dv : tensor R) (dg : list R) (x : R) (sh : list nat) (m : nat) (e : bool) (axes : list nat) (l : loc),
  (forall t, tshape (v (w t)) = sh) -> (forall t, length (g (w t)) = m) -> (forall t, exponential_norm (w t) = e) -> (forall t, kernel_norm_axes (w t) = axes) ->
  m = 1 \/ last l 0 < m ->
  (forall l, derivable_pt_lim (fun t => tval (v (w t)) l) x (tval dv l)) -> (forall k, derivable_pt_lim (fun t => nth k (g (w t)) 0%R) x (nth k dg 0%R)) ->
  square_sum axes (v (w x)) l <> l2_epsilon ->
  exists k : R -> tensor R, (forall t, compute_weights (Some (w t)) = Ok (k t)) /\ derivable_pt_lim (fun t => tval (k t) l) x (normalized_kernel_slope (w x) dv dg l).
Proof. exact normalized_kernel_limit. Qed.
Print Assumptions C71_normalized_kernel.
Example C71_normalized_kernel_ex :
  let w := fun t : R => {| normalize_per_output_channel := true; exponential_norm := true; kernel_norm_axes := [0];
                           v := {| tshape := [2; 1]; tval := fun l => if nth 0 l 0 =? 0 then t else 1%R |}; g := [t] |} in
  (forall l, derivable_pt_lim (fun t => tval (v (w t)) l) 3%R (if nth 0 l 0 =? 0 then 1%R else 0%R)) /\
  (forall k, derivable_pt_lim (fun t => nth k (g (w t)) 0%R) 3%R (nth k [1%R] 0%R)) /\ square_sum [0] (v (w 3%R)) [1; 0] <> l2_epsilon.
Proof.
  split; [|split].
  - intros l. cbn [v tval]. destruct (nth 0 l 0 =? 0); [apply derivable_pt_lim_id|apply const_limit].
  - intros [|k]; [apply derivable_pt_lim_id|]. cbn [g nth]. destruct k; apply const_limit.
  - unfold l2_epsilon. assert (E : square_sum [0] {| tshape := [2; 1]; tval := fun l => if nth 0 l 0 =? 0 then 3%R else 1%R |} [1; 0] = (3 * 3 + (1 * 1 + 0))%R)
      by reflexivity. cbn [v]. rewrite E. assert (L : (1 < 10 ^ 12)%R) by (apply Rlt_pow_R1; [lra|lia]).
    apply Rinv_lt_contravar in L; [|lra]. lra.
Qed.

(** C71: the vector that the optimizer gets is the gradient of the loss of a sample, for the three machines and any place of their weights in the vector of all
    weights. *)
Theorem C71_loss_gradient :
  (forall p act dact places n w, real_activation act dact ->
     (forall i s, i < length w -> In s (spin_configs n) -> all_smooth (real_1d_out p dact places n w (unit_vector (length w) i) s) [n] (length s) = true) ->
     loss_gradient n (length w) (fun w => predictions (conditionals (simple_conv_net_1d p (fun l => layer_weights (places l) w) act) [n]))
       (real_1d_gradient p dact places n) w) /\
  (forall p act dact re im n w, complex_activation act dact ->
     (forall i s, i < length w -> In s (spin_configs n) -> all_smooth (complex_1d_out p dact re im n w (unit_vector (length w) i) s) [n] (length s) = true) ->
     loss_gradient n (length w) (fun w => predictions (conditionals (complex_conv_net_1d p (fun l => complex_layer_weights (re l) (im l) w) act) [n]))
       (complex_1d_gradient p dact re im n) w) /\
  (forall p places last h wd w,
     (forall i s, i < length w -> In s (spin_configs (h * wd)) ->
        all_smooth (real_2d_out p places last h wd w (unit_vector (length w) i) s) [h; wd] (length s) = true) ->
     loss_gradient (h * wd) (length w)
       (fun w => predictions (conditionals (conv_net_2d p (fun b j => layer_weights (places b j) w) (layer_weights last w) relu_row) [h; wd]))
       (real_2d_gradient p places last h wd) w).
Proof. split; [exact real_1d_loss|]. split; [exact complex_1d_loss|exact real_2d_loss]. Qed.
Print Assumptions C71_loss_gradient.
Example C71_loss_gradient_ex :
  (forall i s, i < 3 -> In s (spin_configs 2) -> all_smooth (real_1d_out ex_params (Some relu_dual_row) ex_places 2 [3; 5; 1]%R (unit_vector 3 i) s) [2] (length s) = true) /\
  (forall i s, i < 2 -> In s (spin_configs 2) ->
     all_smooth (complex_1d_out complex_ex_params (Some lncosh_dual_row) complex_ex_re complex_ex_im 2 [/ 2; 0]%R (unit_vector 2 i) s) [2] (length s) = true) /\
  (forall i s, i < 1 -> In s (spin_configs (1 * 1)) ->
     all_smooth (real_2d_out corner_params last_ex_places last_ex 1 1 [2]%R (unit_vector 1 i) s) [1; 1] (length s) = true).
Proof. split; [exact ex_smooth|]. split; [exact complex_ex_smooth|exact last_ex_smooth]. Qed.

(** C71: in the first row the machine in two dimensions applies an activation to the bias alone, whatever the kernels and the input. *)
Theorem C71_first_row : forall (w : MachinesModel.weights R) (f : nat) (x y : ktensor R) (h wd c : nat), tshape (kt x) = [h; wd] ->
  conv_layer real_numbers w f [1; 1] [1; 1] (shift_layer real_numbers 0 x) = Ok y -> tval (kt y) [0; c] = map (bias_at w) (range f).
Proof. exact first_row. Qed.
Print Assumptions C71_first_row.
Example C71_first_row_ex : let x := {| kt := {| tshape := [2; 2]; tval := fun _ => [7%R] |}; features := 1 |} in
  exists y, conv_layer real_numbers {| kernel_at := fun _ => 4%R; bias_at := fun _ => 3%R |} 1 [1; 1] [1; 1] (shift_layer real_numbers 0 x) = Ok y /\
    tval (kt y) [0; 1] = [3%R] /\ tval (kt y) [1; 1] = [(7 * 4 + 0 + 3)%R].
Proof. eexists. split; [reflexivity|]. split; cbv -[Rplus Rmult IZR]; apply f_equal2; (ring || reflexivity). Qed.

(** C71: so with the initial value of the biases, zero, the log wave function need not have a derivative with respect to them. The number that back propagation
    reports there is zero. *)
Theorem C71_initial_bias_refuted : exists (p : params_2d) (W V : nat -> nat -> MachinesModel.weights R) (w_last : MachinesModel.weights R) (s : list Z),
  (forall b j, zero_bias (W b j)) /\ zero_bias w_last /\ (forall b j, V b j = if (b =? 1) && (j =? 3) then bias_direction 0 else no_direction) /\
  (~ exists d, Cderive (fun t => predictions (conditionals (conv_net_2d p (fun b j => moved (W b j) (V b j) t) w_last relu_row) [1; 1]) s) 0 d) /\
  log_psi_slope vector_to_complex
    (conv_net_2d_features (dual_numbers real_numbers) p (fun b j => weights_with_slope (W b j) (V b j)) (weights_with_slope w_last no_direction) relu_dual_row
      (constant_input real_numbers IZR [1; 1] s)) [1; 1] s = C0.
Proof.
  exists corner_params, corner_weights, corner_direction, corner_last, [1%Z]. split; [intros b j k; reflexivity|]. split; [intros k; reflexivity|]. split; [reflexivity|].
  split; [exact corner_has_no_derivative|exact (proj1 corner_reported)].
Qed.
Print Assumptions C71_initial_bias_refuted.

(** C71: one update of a machine in one dimension, from random numbers to the derivative of the energy, with no assumption about back propagation. *)
Theorem C71_update : forall (p : params_1d) (act : option (list R -> list R)) (dact : option (list (dual R) -> list (dual R))) (places : nat -> layout) (n : nat)
    (w : list R) (H : list Z -> list Z -> C) (op : operator) (B mini : nat),
  real_activation act dact -> 1 <= ksize p -> 0 < n -> operator_represents n H op -> hermitian n H ->
  0 < B -> 0 < mini -> B < mini \/ B mod mini = 0 ->
  (forall i s, i < length w -> In s (spin_configs n) -> all_smooth (real_1d_out p dact places n w (unit_vector (length w) i) s) [n] (length s) = true) ->
  let log_psi := fun w => predictions (conditionals (simple_conv_net_1d p (fun l => layer_weights (places l) w) act) [n]) in
  let runs := B / Nat.min mini B in
  exists (model : graph * nat) (update : list (list Z) -> list R),
    (forall random c, fresh_rows n random -> exists b pairs, In b (all_batches n B) /\
       fast_sampler_next [n] model B (Some mini) random (c * runs) = Ok ((c + 1) * runs, b) /\
       sample_and_next_batch op (log_psi w) [n] model B (Some mini) random (c * runs) = Ok ((c + 1) * runs, pairs) /\
       mean_gradient (length w) (real_1d_gradient p dact places n) w pairs = update b) /\
    forall i, i < length w -> exists G, derivable_pt_lim (fun v => Re (expectation n H (log_psi (upd w i v)))) (nth i w 0%R) G /\
      average_over (independent n (log_psi w)) n B (fun b => nth i (update b) 0%R) = ((INR B - 1) / INR B ^ 2 * G)%R.
Proof.
  intros p act dact places n w H op B mini HA Hk Hn Hop HH HB Hm Hd HS log_psi runs.
  assert (KL : FastMachineSpec.optionally FastMachineSpec.keeps_length act).
  { destruct HA as [[-> _]|[-> _]]; [exact Logic.I|]. intros v. apply map_length. }
  destruct (proj1 C68_machines p (fun l => layer_weights (places l) w) act n Hk Hn KL) as (model & Hs).
  assert (V : volume [n] = n) by (unfold volume; cbn [fold_right]; lia).
  pose proof (C68_update [n] (length w) (fun w => simple_conv_net_1d p (fun l => layer_weights (places l) w) act) (fun _ => model) H op B mini
    (real_1d_gradient p dact places n) w Hs) as U. rewrite V in U.
  destruct (U Hop HH HB Hm Hd (real_1d_loss p act dact places n w HA HS)) as (update & U1 & U2). exists model, update. split; [exact U1|exact U2].
Qed.
Print Assumptions C71_update.
Example C71_update_ex : real_activation (Some relu_row) (Some relu_dual_row) /\ operator_represents 2 (ising_matrix 1 2 false [2]) (ising_operator 1 2 false [2]) /\
  hermitian 2 (ising_matrix 1 2 false [2]) /\ 6 mod 3 = 0 /\
  (forall i s, i < 3 -> In s (spin_configs 2) -> all_smooth (real_1d_out ex_params (Some relu_dual_row) ex_places 2 [3; 5; 1]%R (unit_vector 3 i) s) [2] (length s) = true).
Proof.
  split; [right; split; reflexivity|]. split; [exact chain_represents|]. split; [exact (ising_matrix_hermitian 1 2 false [2])|]. split; [reflexivity|exact ex_smooth].
Qed.
