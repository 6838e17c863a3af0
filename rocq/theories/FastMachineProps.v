(** Property C66: the fast sampler on the built-in machines. *)
From Coq Require Import List ZArith Arith Bool Reals Lia Lra.
From Verif Require Import Base Cplx OrderingModel OrderingSpec OrderingProofs TensorModel TopologyModel AutoregressiveModel AutoregressiveSpec
  MachinesModel MachinesSpec MachinesProps GraphModel GraphSpec FastMachineModel FastMachineSpec FastMachineEndProofs CustomGraphProofs.
Import ListNotations.

(** An activation in the examples: relu on every feature. *)
Definition relu (v : list R) : list R := map (Rmax 0) v.
Lemma relu_keeps_length : keeps_length relu. Proof. intros v. apply map_length. Qed.

(** C66: the layers of the real 1D machine form a graph the fast sampler accepts, whose output is the conditional log probabilities of the
    machine, and the fast sampler draws every configuration with its Born probability. *)
Theorem C66_real_1d : forall (p : params_1d) (W : nat -> weights R) (act : option (list R -> list R)) (n : nat),
  1 <= ksize p -> 0 < n -> optionally keeps_length act ->
  exists S h, graph_of (simple_conv_net_1d_graph p W act) (simple_conv_net_1d p W act) [n] S h /\
    fast_samples_born [n] S h (predictions (conditionals (simple_conv_net_1d p W act) [n])).
Proof. exact simple_1d_graph. Qed.
Print Assumptions C66_real_1d.
Example C66_real_1d_ex : 1 <= ksize example_params /\ 0 < 10 /\ optionally keeps_length (Some relu) /\ add_skip_connections example_params = true.
Proof. split; [cbn; lia|]. split; [lia|]. split; [exact relu_keeps_length|reflexivity]. Qed.

(** C66: the complex 1D machine. *)
Theorem C66_complex_1d : forall (p : params_1d) (W : nat -> weights C) (act : option (list C -> list C)) (n : nat),
  1 <= ksize p -> 0 < n -> optionally keeps_length act ->
  exists S h, graph_of (complex_conv_net_1d_graph p W act) (complex_conv_net_1d p W act) [n] S h /\
    fast_samples_born [n] S h (predictions (conditionals (complex_conv_net_1d p W act) [n])).
Proof. exact complex_1d_graph. Qed.
Print Assumptions C66_complex_1d.
Example C66_complex_1d_ex : 1 <= ksize example_params /\ 0 < 7 /\ optionally keeps_length (Some (map Cconj)).
Proof. split; [cbn; lia|]. split; [lia|]. intros v. apply map_length. Qed.

(** C66: the 2D machine with an odd kernel size. *)
Theorem C66_conv_2d : forall (p : params_2d) (W : nat -> nat -> weights R) (w_last : weights R) (act : list R -> list R) (h w : nat),
  Nat.odd (ksize2 p) = true -> 0 < h -> 0 < w -> keeps_length act ->
  exists S k, graph_of (conv_net_2d_graph p W w_last act) (conv_net_2d p W w_last act) [h; w] S k /\
    fast_samples_born [h; w] S k (predictions (conditionals (conv_net_2d p W w_last act) [h; w])).
Proof. exact conv_2d_graph. Qed.
Print Assumptions C66_conv_2d.
Example C66_conv_2d_ex : Nat.odd (ksize2 {| depth2 := 20; channels2 := 32; ksize2 := 3 |}) = true /\ 0 < 4 /\ 0 < 6 /\ keeps_length relu.
Proof. split; [reflexivity|]. split; [lia|]. split; [lia|]. exact relu_keeps_length. Qed.

(** C66: with the same random numbers the fast sampler and the site by site sampler return the same configuration. *)
Theorem C66_same_as_site_by_site : forall construct machine (shape : list nat) (S : graph) (h : nat) (u : list R),
  graph_of construct machine shape S h -> length shape = 1 \/ length shape = 2 ->
  autoregressive (volume shape) (seq 0 (volume shape)) (conditionals machine shape) ->
  exists s, sampler_next shape false (conditional_log_probs (conditionals machine shape)) (raster shape) u = Ok s /\ fast_returns shape S h u s.
Proof. exact graph_site_by_site. Qed.
Print Assumptions C66_same_as_site_by_site.
Example C66_same_as_site_by_site_ex : exists S h,
  let machine := conv_net_2d {| depth2 := 5; channels2 := 8; ksize2 := 3 |} (fun _ => unit_weights) (unit_weights 0) relu in
  graph_of (conv_net_2d_graph {| depth2 := 5; channels2 := 8; ksize2 := 3 |} (fun _ => unit_weights) (unit_weights 0) relu) machine [3; 2] S h /\
  autoregressive (volume [3; 2]) (seq 0 (volume [3; 2])) (conditionals machine [3; 2]).
Proof.
  destruct (C66_conv_2d {| depth2 := 5; channels2 := 8; ksize2 := 3 |} (fun _ => unit_weights) (unit_weights 0) relu 3 2 eq_refl
    ltac:(lia) ltac:(lia) relu_keeps_length) as (S & h & HG & _).
  exists S, h. split; [exact HG|]. apply C16_machine_causal; [reflexivity|lia|lia].
Qed.

(** C66: when the 2D machine rejects its input (an even kernel size), the construction of the graph raises the same exception. *)
Theorem C66_same_exception : forall (p : params_2d) (W : nat -> nat -> weights R) (w_last : weights R) (act : list R -> list R) (h w : nat) s e equal,
  0 < h -> 0 < w -> keeps_length act -> conv_net_2d p W w_last act (input_array [h; w] s) = Err e ->
  conditional_log_probs_graph (conv_net_2d_graph p W w_last act) equal [h; w] = Err e.
Proof. intros p W w_last act h w s e equal Hh Hw HA. exact (follows_err _ _ _ _ s e equal (conv_2d_follows p W w_last act h w Hh Hw HA)). Qed.
Print Assumptions C66_same_exception.
Example C66_same_exception_ex : conv_net_2d {| depth2 := 5; channels2 := 8; ksize2 := 4 |} (fun _ => unit_weights) (unit_weights 0) relu
  (input_array [4; 3] []) = Err ValueError.
Proof. apply C16_even_kernel_raises; [reflexivity|cbn; lia|lia|lia]. Qed.

(** C66: with equal_up_down_spins=True the fast sampler cannot be used: the layer has no topology. *)
Theorem C66_equal_spins_unsupported : forall construct machine (shape : list nat) (S : graph) (h : nat) draw zeros,
  graph_of construct machine shape S h -> 0 < volume shape ->
  exists S' h', conditional_log_probs_graph construct true shape = Ok (S', h') /\
    fast_sample (keras_model (S', h')) zeros draw = Err UnsupportedLayer.
Proof. exact equal_spins_fails. Qed.
Print Assumptions C66_equal_spins_unsupported.
Example C66_equal_spins_ex : 0 < volume [10] /\ exists S h,
  graph_of (simple_conv_net_1d_graph example_params unit_weights None) (simple_conv_net_1d example_params unit_weights None) [10] S h.
Proof.
  split; [cbv; lia|]. destruct (C66_real_1d example_params unit_weights None 10) as (S & h & HG & _); [cbn; lia|lia|exact I|]. eauto.
Qed.

(** C66: the layers of the custom ordering machine compute its conditional log probabilities, ... *)
Theorem C66_custom_ordering_graph : forall (o : list (list nat)) (p : params_1d) (W : nat -> weights R) (act : option (list R -> list R))
    (shape : list nat), 1 <= ksize p -> 0 < volume shape -> ordering_of shape o -> optionally keeps_length act ->
  exists S h, conditional_log_probs_graph (custom_ordering_graph o p W act) false shape = Ok (S, h) /\
    (exists L, nth_error S h = Some L /\ out_shape (body L) = shape /\ lfeatures L = 2 /\ ldtype L = TReal) /\
    forall s i, i < volume shape -> tval (predict (keras_model (S, h)) (network_input shape s)) (location shape i) =
      VReals (conditional_log_probs (conditionals (custom_ordering_net o p W act) shape) s i).
Proof. exact custom_graph. Qed.
Print Assumptions C66_custom_ordering_graph.
Example C66_custom_ordering_graph_ex : 1 <= ksize example_params /\ 0 < volume [2; 2] /\ ordering_of [2; 2] [[1; 1]; [0; 0]; [0; 1]; [1; 0]] /\
  optionally keeps_length (Some relu).
Proof. split; [cbn; lia|]. split; [apply C17_ex|]. split; [apply C17_ex|exact relu_keeps_length]. Qed.

(** C66: but the fast sampler cannot use this machine: its Reshape layers raise. *)
Theorem C66_custom_ordering_raises : forall (o : list (list nat)) (p : params_1d) (W : nat -> weights R) (act : option (list R -> list R))
    (shape : list nat) (S : graph) (h : nat) draw zeros,
  0 < volume shape -> conditional_log_probs_graph (custom_ordering_graph o p W act) false shape = Ok (S, h) ->
  fast_sample (keras_model (S, h)) zeros draw = Err TypeError.
Proof. exact custom_ordering_fails. Qed.
Print Assumptions C66_custom_ordering_raises.
Example C66_custom_ordering_ex : 0 < volume [2; 2] /\ exists S h,
  conditional_log_probs_graph (custom_ordering_graph [[1; 1]; [0; 0]; [0; 1]; [1; 0]] shallow_params unit_weights (Some relu)) false [2; 2] = Ok (S, h).
Proof.
  split; [cbv; lia|].
  assert (E : match conditional_log_probs_graph (custom_ordering_graph [[1; 1]; [0; 0]; [0; 1]; [1; 0]] shallow_params unit_weights (Some relu)) false [2; 2] with
              | Ok _ => true | Err _ => false end = true) by (lazy; reflexivity).
  destruct (conditional_log_probs_graph _ _ _) as [[S h]|]; [eauto|discriminate].
Qed.
