(** Properties C15, C16, C17. *)
From Coq Require Import List ZArith Arith Reals Lra Lia.
From Verif Require Import Base Cplx OrderingModel OrderingSpec OrderingProofs TensorModel AutoregressiveModel
  AutoregressiveSpec MachinesModel MachinesSpec MachinesProofs.
Import ListNotations.

(** The machine used in the examples: the default kernel size and dilations up to 4, with skip connections. *)
Definition example_params : params_1d :=
  {| depth := 5; num_of_channels := 4; ksize := 3; use_dilation := true; add_skip_connections := true;
     max_dilation_rate := Some 4 |}.

(** C15: the real valued 1D machine accepts every chain of length [n], gives two numbers per site, and what it says
    about site i depends on the sites before i only. *)
Theorem C15_real_machine_causal :
  forall (p : params_1d) (W : nat -> weights R) (act : option (list R -> list R)) (n : nat),
  1 <= ksize p -> 0 < n ->
  well_shaped (simple_conv_net_1d p W act) [n] /\
  autoregressive n (seq 0 n) (conditionals (simple_conv_net_1d p W act) [n]).
Proof. exact simple_conv_net_1d_causal. Qed.
Print Assumptions C15_real_machine_causal.
Example C15_real_ex : 1 <= ksize example_params /\ 0 < 10. Proof. cbn. lia. Qed.

(** C15: the complex valued 1D machine. *)
Theorem C15_complex_machine_causal :
  forall (p : params_1d) (W : nat -> weights C) (act : option (list C -> list C)) (n : nat),
  1 <= ksize p -> 0 < n ->
  well_shaped (complex_conv_net_1d p W act) [n] /\
  autoregressive n (seq 0 n) (conditionals (complex_conv_net_1d p W act) [n]).
Proof. exact complex_conv_net_1d_causal. Qed.
Print Assumptions C15_complex_machine_causal.
Example C15_complex_ex :
  let W : nat -> weights C := fun _ => {| kernel_at := fun _ => C1; bias_at := fun _ => C0 |} in
  1 <= ksize example_params /\ 0 < 10 /\ well_shaped (complex_conv_net_1d example_params W None) [10].
Proof. split; [cbn; lia|]. split; [lia|]. apply C15_complex_machine_causal; [cbn; lia|lia]. Qed.

(** C15 with C18: the wave functions of these machines are normalised, whatever the weights. *)
Theorem C15_real_machine_normalised :
  forall (p : params_1d) (W : nat -> weights R) (act : option (list R -> list R)) (n : nat),
  1 <= ksize p -> 0 < n ->
  Rsum (fun s => Cnorm2 (Cexp (predictions (conditionals (simple_conv_net_1d p W act) [n]) s))) (spin_configs n) = 1%R.
Proof. exact simple_conv_net_1d_normalised. Qed.
Print Assumptions C15_real_machine_normalised.
Theorem C15_complex_machine_normalised :
  forall (p : params_1d) (W : nat -> weights C) (act : option (list C -> list C)) (n : nat),
  1 <= ksize p -> 0 < n ->
  Rsum (fun s => Cnorm2 (Cexp (predictions (conditionals (complex_conv_net_1d p W act) [n]) s))) (spin_configs n) = 1%R.
Proof. exact complex_conv_net_1d_normalised. Qed.
Print Assumptions C15_complex_machine_normalised.
Example C15_normalised_ex : 1 <= ksize example_params /\ 0 < 10. Proof. cbn. lia. Qed.

(** The output is not constant: with unit weights the second site of a depth 2 machine sees the first. *)
Definition unit_weights : nat -> weights R := fun _ => {| kernel_at := fun _ => 1%R; bias_at := fun _ => 0%R |}.
Definition shallow_params : params_1d :=
  {| depth := 2; num_of_channels := 4; ksize := 3; use_dilation := true; add_skip_connections := false;
     max_dilation_rate := None |}.
Example C15_ex_sees_the_past :
  conditionals (simple_conv_net_1d shallow_params unit_weights None) [2] [1%Z; 1%Z] 1 <>
  conditionals (simple_conv_net_1d shallow_params unit_weights None) [2] [(-1)%Z; 1%Z] 1.
Proof.
  intros E. apply (f_equal (fun l => Re (nth 0 l C0))) in E. vm_compute in E. lra.
Qed.

(** C16: the 2D machine with an odd kernel size accepts every h x w grid and is autoregressive in raster order
    (site number i * w + j). *)
Theorem C16_machine_causal :
  forall (p : params_2d) (W : nat -> nat -> weights R) (w_last : weights R) (act : list R -> list R) (h w : nat),
  Nat.odd (ksize2 p) = true -> 0 < h -> 0 < w ->
  well_shaped (conv_net_2d p W w_last act) [h; w] /\
  autoregressive (h * w) (seq 0 (h * w)) (conditionals (conv_net_2d p W w_last act) [h; w]).
Proof. exact conv_net_2d_causal. Qed.
Print Assumptions C16_machine_causal.
Example C16_ex : Nat.odd (ksize2 {| depth2 := 20; channels2 := 32; ksize2 := 3 |}) = true. Proof. reflexivity. Qed.

Theorem C16_machine_normalised :
  forall (p : params_2d) (W : nat -> nat -> weights R) (w_last : weights R) (act : list R -> list R) (h w : nat),
  Nat.odd (ksize2 p) = true -> 0 < h -> 0 < w ->
  Rsum (fun s => Cnorm2 (Cexp (predictions (conditionals (conv_net_2d p W w_last act) [h; w]) s)))
    (spin_configs (h * w)) = 1%R.
Proof. exact conv_net_2d_normalised. Qed.
Print Assumptions C16_machine_normalised.
Example C16_normalised_ex : Nat.odd (ksize2 {| depth2 := 2; channels2 := 4; ksize2 := 5 |}) = true /\ 0 < 4 /\ 0 < 7. Proof. cbn. lia. Qed.

(** C16: an even kernel size always makes the construction of the machine raise. *)
Theorem C16_even_kernel_raises :
  forall (p : params_2d) (W : nat -> nat -> weights R) (w_last : weights R) (act : list R -> list R) (h w : nat) s,
  Nat.even (ksize2 p) = true -> 0 < ksize2 p -> 0 < h -> 0 < w ->
  conv_net_2d p W w_last act (input_array [h; w] s) = Err ValueError.
Proof. exact even_kernel_fails. Qed.
Print Assumptions C16_even_kernel_raises.
Example C16_even_ex : Nat.even (ksize2 {| depth2 := 5; channels2 := 8; ksize2 := 4 |}) = true. Proof. reflexivity. Qed.

(** C17: with any ordering of any shape the custom ordering machine is autoregressive along that ordering. *)
Theorem C17_machine_causal :
  forall (shape : list nat) (o : list (list nat)) (p : params_1d) (W : nat -> weights R)
    (act : option (list R -> list R)),
  1 <= ksize p -> 0 < volume shape -> ordering_of shape o ->
  well_shaped (custom_ordering_net o p W act) shape /\
  autoregressive (volume shape) (map (row_major shape) o) (conditionals (custom_ordering_net o p W act) shape).
Proof. exact custom_ordering_causal. Qed.
Print Assumptions C17_machine_causal.
Theorem C17_machine_normalised :
  forall (shape : list nat) (o : list (list nat)) (p : params_1d) (W : nat -> weights R)
    (act : option (list R -> list R)),
  1 <= ksize p -> 0 < volume shape -> ordering_of shape o ->
  Rsum (fun s => Cnorm2 (Cexp (predictions (conditionals (custom_ordering_net o p W act) shape) s)))
    (spin_configs (volume shape)) = 1%R.
Proof. exact custom_ordering_normalised. Qed.
Print Assumptions C17_machine_normalised.
Example C17_ex : 0 < volume [2; 2] /\ ordering_of [2; 2] [[1; 1]; [0; 0]; [0; 1]; [1; 0]].
Proof.
  split; [cbv; lia|]. split.
  - repeat constructor; simpl; intuition discriminate.
  - intros l. rewrite <- (proj2 (raster_ordering [2; 2]) l). cbv [raster range seq flat_map map app In]. tauto.
Qed.
