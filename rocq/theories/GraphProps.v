(** Properties C11, C12. *)
From Coq Require Import List ZArith Arith Lia Relations Reals Lra.
From Verif Require Import Base OrderingModel OrderingSpec TensorModel TopologyModel TopologySpec TopologyProofs
  AutoregressiveModel AutoregressiveSpec MachinesSpec GraphModel GraphSpec GraphProofs.
Import ListNotations.
Local Open Scope nat_scope.

(** Layers of the examples, on rows of one integer. *)
Definition input_layer (n : nat) : layer Z :=
  {| inbound := []; out_shape := [n]; get_spatial_dependency := fun _ => Ok []; apply_single := fun _ _ => Err GenericException;
     run := fun _ => {| tshape := [n]; tval := fun _ => 0%Z |} |}.
Definition pointwise_layer (k n : nat) (f : Z -> Z) : layer Z :=
  {| inbound := [k]; out_shape := [n]; get_spatial_dependency := one_to_one_dependencies [[n]];
     apply_single := fun _ vs => Ok (f (nth 0 vs 0%Z)); run := fun ts => merge (fun vs => f (nth 0 vs 0%Z)) ts [n] |}.
Definition down_shift_layer (k n : nat) : layer Z :=
  {| inbound := [k]; out_shape := [n]; get_spatial_dependency := shift_dependencies 0; apply_single := shift_apply 0%Z 0;
     run := fun ts => shift 0%Z 0 (nth 0 ts {| tshape := [n]; tval := fun _ => 0%Z |}) |}.
(** The input is shifted, then a function is applied: autoregressive. *)
Definition causal_example (n : nat) : kmodel Z :=
  {| klayers := [input_layer n; down_shift_layer 0 n; pointwise_layer 1 n (fun v => 3 * v + 1)%Z]; output := 2 |}.
(** Without the shift every site depends on itself. *)
Definition cyclic_example (n : nat) : kmodel Z :=
  {| klayers := [input_layer n; pointwise_layer 0 n (fun v => 3 * v + 1)%Z]; output := 1 |}.
Definition anything : nat -> Z -> Prop := fun _ _ => True.
Definition zero_rows : nat -> Z := fun _ => 0%Z.

Lemma pointwise_ok k n f (t : tensor Z) : tshape t = [n] ->
  let L := pointwise_layer k n f in
  tshape (run L [t]) = [n] /\ agrees [t] (get_spatial_dependency L) (apply_single L) (run L [t]).
Proof.
  intros E L. split; [reflexivity|]. unfold L. cbn [get_spatial_dependency apply_single run pointwise_layer].
  pose proof (merge_agrees (fun vs => f (nth 0 vs 0%Z)) [t] [n]) as H. cbn [map] in H. rewrite E in H. apply H.
  constructor; [|constructor]. rewrite E. repeat constructor.
Qed.
Lemma down_shift_ok k n (t : tensor Z) : 0 < n -> tshape t = [n] ->
  let L := down_shift_layer k n in
  tshape (run L [t]) = [n] /\ agrees [t] (get_spatial_dependency L) (apply_single L) (run L [t]).
Proof.
  intros Hn E L. unfold L. cbn [get_spatial_dependency apply_single run down_shift_layer nth].
  destruct (shift_agrees 0%Z 0 t) as [H1 H2]; [rewrite E; cbn; lia|rewrite E; cbn; lia|]. rewrite H1. auto.
Qed.
Lemma causal_example_wf n : 0 < n -> well_formed anything zero_rows (causal_example n).
Proof.
  intros Hn. split; [|split].
  - eexists. split; [reflexivity|]. split; [reflexivity|]. eexists. split; [reflexivity|]. split; [reflexivity|cbn; lia].
  - intros k. exact I.
  - intros [|[|[|k]]] L E Hk; [lia| | |destruct k; discriminate]; injection E as <-.
    + split; [discriminate|]. split; [intros i [<-|[]]; lia|]. intros ts F.
      inversion F as [|i t is' ts' (Li & E & Es & _) F']; subst. inversion F'; subst. injection E as <-. cbn in Es.
      destruct (down_shift_ok 0 n t Hn Es). split; [assumption|]. split; [intros; exact I|assumption].
    + split; [discriminate|]. split; [intros i [<-|[]]; lia|]. intros ts F.
      inversion F as [|i t is' ts' (Li & E & Es & _) F']; subst. inversion F'; subst. injection E as <-. cbn in Es.
      destruct (pointwise_ok 1 n (fun v => 3 * v + 1)%Z t Es). split; [assumption|]. split; [intros; exact I|assumption].
Qed.
Lemma cyclic_example_wf n : 0 < n -> well_formed anything zero_rows (cyclic_example n).
Proof.
  intros Hn. split; [|split].
  - eexists. split; [reflexivity|]. split; [reflexivity|]. eexists. split; [reflexivity|]. split; [reflexivity|cbn; lia].
  - intros k. exact I.
  - intros [|[|k]] L E Hk; [lia| |destruct k; discriminate]; injection E as <-.
    split; [discriminate|]. split; [intros i [<-|[]]; lia|]. intros ts F.
    inversion F as [|i t is' ts' (Li & E & Es & _) F']; subst. inversion F'; subst. injection E as <-. cbn in Es.
    destruct (pointwise_ok 0 n (fun v => 3 * v + 1)%Z t Es). split; [assumption|]. split; [intros; exact I|assumption].
Qed.

(** C11: assert_valid_probabilistic_model returns normally for every model, cyclic or not ... *)
Theorem C11_never_raises_refuted : forall (V : Type) (valid : nat -> V -> Prop) (zeros : nat -> V) (M : kmodel V),
  well_formed valid zeros M -> assert_valid_probabilistic_model M = Ok tt.
Proof. exact @assert_valid_never_raises. Qed.
Print Assumptions C11_never_raises_refuted.
Example C11_never_raises_ex : well_formed anything zero_rows (cyclic_example 3) /\ well_formed anything zero_rows (causal_example 3).
Proof. split; [apply cyclic_example_wf|apply causal_example_wf]; lia. Qed.
(** ... and there are models every site of which depends on itself. *)
Theorem C11_cyclic_model_accepted_refuted : exists (M : kmodel Z) G, well_formed anything zero_rows M /\
  build_graph M = Ok G /\ has_cycle (edges G) /\ assert_valid_probabilistic_model M = Ok tt.
Proof.
  exists (cyclic_example 3). eexists. split; [apply cyclic_example_wf; lia|]. split; [vm_compute; reflexivity|].
  split; [|vm_compute; reflexivity]. exists (0, [1]). eapply t_trans with (y := (1, [1])); apply t_step; cbn; tauto.
Qed.
Print Assumptions C11_cyclic_model_accepted_refuted.

(** C11: running networkx.topological_sort to its end succeeds exactly on the acyclic graphs, with a topological order,
    and raises NetworkXUnfeasible on the others. *)
Theorem C11_sort_detects_cycles : forall (A : Type) (dec : eq_dec A) (G : digraph A), proper_graph (nodes G) (edges G) ->
  (~ has_cycle (edges G) /\ exists order, run_generator (topological_sort dec G) = Ok order /\
     topological_order (nodes G) (edges G) order) \/
  (has_cycle (edges G) /\ run_generator (topological_sort dec G) = Err NetworkXUnfeasible).
Proof. exact @sort_cases. Qed.
Print Assumptions C11_sort_detects_cycles.
Example C11_sort_ex :
  run_generator (topological_sort Nat.eq_dec {| nodes := [1; 2; 3; 4]; edges := [(1, 2); (2, 3); (1, 3); (4, 3)] |}) = Ok [4; 1; 2; 3] /\
  run_generator (topological_sort Nat.eq_dec {| nodes := [1; 2; 3]; edges := [(1, 2); (2, 3); (3, 2)] |}) = Err NetworkXUnfeasible.
Proof. split; vm_compute; reflexivity. Qed.
Example C11_proper_ex : proper_graph [1; 2; 3] [(1, 2); (2, 3); (3, 2)].
Proof.
  split; [repeat constructor; cbn; intuition discriminate|]. split; [repeat constructor; cbn; intuition discriminate|].
  intros u v [E|[E|[E|[]]]]; injection E as <- <-; cbn; auto.
Qed.

(** C11: the error surfaces later, in the fast sampler. *)
Theorem C11_fast_sampler_rejects_cycles : forall (V : Type) (valid : nat -> V -> Prop) (zeros : nat -> V) (M : kmodel V)
    (draw : loc -> V -> V) (G : digraph node),
  well_formed valid zeros M -> build_graph M = Ok G -> has_cycle (edges G) ->
  fast_sample M zeros draw = Err NetworkXUnfeasible.
Proof. exact @fast_sample_cyclic. Qed.
Print Assumptions C11_fast_sampler_rejects_cycles.
Example C11_fast_sampler_ex : well_formed anything zero_rows (cyclic_example 2) /\
  fast_sample (cyclic_example 2) zero_rows (fun _ v => v) = Err NetworkXUnfeasible.
Proof. split; [apply cyclic_example_wf; lia|vm_compute; reflexivity]. Qed.

(** C12: evaluating the graph in any topological order gives an input x in which every entry is the value drawn from
    the logits that the whole network assigns to x; there is only one such input. *)
Theorem C12_any_topological_order : forall (V : Type) (valid : nat -> V -> Prop) (zeros : nat -> V) (M : kmodel V)
    (draw : loc -> V -> V) (G : digraph node) (order : list node),
  well_formed valid zeros M -> draws_valid valid M draw -> build_graph M = Ok G ->
  topological_order (nodes G) (edges G) order ->
  exists st, sampling_loop M zeros draw order [] = Ok st /\
    let x := fun l => activation zeros st (0, l) in
    valid_input valid M x /\ consistent M draw x /\
    forall y, valid_input valid M y -> consistent M draw y -> forall l, in_shape (input_shape M) l -> y l = x l.
Proof. exact @any_order_samples. Qed.
Print Assumptions C12_any_topological_order.

(** C12: the fast sampler succeeds on every acyclic model and returns that input. *)
Theorem C12_fast_sampler : forall (V : Type) (valid : nat -> V -> Prop) (zeros : nat -> V) (M : kmodel V)
    (draw : loc -> V -> V) (G : digraph node),
  well_formed valid zeros M -> draws_valid valid M draw -> build_graph M = Ok G -> ~ has_cycle (edges G) ->
  exists x, fast_sample M zeros draw = Ok x /\ valid_input valid M x /\ consistent M draw x /\
    forall y, valid_input valid M y -> consistent M draw y -> forall l, in_shape (input_shape M) l -> y l = x l.
Proof. exact @fast_sample_ok. Qed.
Print Assumptions C12_fast_sampler.
(** Hypotheses met: the example is well formed, its graph is acyclic, and the values follow the recursion
    x_0 = 10 * 0 + 1, x_l = 10 * l + 3 * x_(l-1) + 1. *)
Lemma causal_example_acyclic : exists G, build_graph (causal_example 4) = Ok G /\ ~ has_cycle (edges G).
Proof.
  destruct (build_graph_proper _ _ _ (causal_example_wf 4 ltac:(lia))) as (G & E & PG). exists G. split; [exact E|].
  destruct (sort_cases node_dec G PG) as [[H _]|[_ H]]; [exact H|exfalso].
  assert (E2 : (do G <- build_graph (causal_example 4); run_generator (topological_sort node_dec G)) = Err NetworkXUnfeasible)
    by (rewrite E; exact H).
  vm_compute in E2. discriminate.
Qed.
Example C12_fast_sampler_ex : well_formed anything zero_rows (causal_example 4) /\
  draws_valid anything (causal_example 4) (fun l v => (10 * Z.of_nat (nth 0 l 0%nat) + v)%Z) /\
  (do x <- fast_sample (causal_example 4) zero_rows (fun l v => (10 * Z.of_nat (nth 0 l 0%nat) + v)%Z);
   Ok (map x (raster [4]))) = Ok [1; 14; 63; 220]%Z.
Proof.
  split; [apply causal_example_wf; lia|]. split; [intros l v _; exact I|vm_compute; reflexivity].
Qed.

(** C12: the order in which a topological order visits the sites is an autoregressive order of the network ... *)
Theorem C12_graph_order_autoregressive : forall (V : Type) (valid : nat -> V -> Prop) (zeros : nat -> V) (M : kmodel V)
    (enc : Z -> V) (logit : V -> R) (G : digraph node) (order : list node),
  well_formed valid zeros M -> (forall z, valid 0 (enc z)) -> build_graph M = Ok G ->
  topological_order (nodes G) (edges G) order ->
  ordering_of (input_shape M) (visited_sites order) /\
  autoregressive (volume (input_shape M)) (map (row_major (input_shape M)) (visited_sites order))
    (site_log_probs M enc logit).
Proof. exact @graph_order_autoregressive. Qed.
Print Assumptions C12_graph_order_autoregressive.
Example C12_order_ex : exists G order, well_formed anything zero_rows (causal_example 4) /\ build_graph (causal_example 4) = Ok G /\
  topological_order (nodes G) (edges G) order.
Proof.
  destruct causal_example_acyclic as (G & E & NC). pose proof (causal_example_wf 4 ltac:(lia)) as WF.
  destruct (build_graph_proper _ _ _ WF) as (G' & E' & PG). rewrite E in E'. injection E' as <-.
  destruct (sort_cases node_dec G PG) as [[_ (order & _ & TO)]|[H _]]; [|contradiction].
  exists G, order. split; [exact WF|]. split; [exact E|exact TO].
Qed.

(** ... and with the same uniform random numbers the fast sampler and the site by site sampler, in any autoregressive
    order of the sites, return the same configuration. *)
Theorem C12_fast_equals_site_by_site : forall (V : Type) (valid : nat -> V -> Prop) (zeros : nat -> V) (M : kmodel V)
    (enc : Z -> V) (logit : V -> R) (zero_base : bool) (u : list R) (G : digraph node) (sites : list loc),
  well_formed valid zeros M -> (forall z, valid 0 (enc z)) -> build_graph M = Ok G -> ~ has_cycle (edges G) ->
  length (input_shape M) = 1 \/ length (input_shape M) = 2 ->
  ordering_of (input_shape M) sites ->
  autoregressive (volume (input_shape M)) (map (row_major (input_shape M)) sites) (site_log_probs M enc logit) ->
  exists x s, fast_sample M zeros (draw_with M enc logit zero_base u) = Ok x /\
    sampler_next (input_shape M) zero_base (site_log_probs M enc logit) sites u = Ok s /\
    length s = volume (input_shape M) /\
    forall l, in_shape (input_shape M) l -> x l = enc (nth (row_major (input_shape M) l) s 0%Z).
Proof. exact @fast_equals_site_by_site. Qed.
Print Assumptions C12_fast_equals_site_by_site.
Example C12_fast_equals_ex : exists sites, 
  well_formed anything zero_rows (causal_example 4) /\ length (input_shape (causal_example 4)) = 1 /\
  ordering_of (input_shape (causal_example 4)) sites /\
  autoregressive (volume (input_shape (causal_example 4))) (map (row_major (input_shape (causal_example 4))) sites)
    (site_log_probs (causal_example 4) (fun z => z) IZR).
Proof.
  destruct causal_example_acyclic as (G & E & NC). pose proof (causal_example_wf 4 ltac:(lia)) as WF.
  destruct (build_graph_proper _ _ _ WF) as (G' & E' & PG). rewrite E in E'. injection E' as <-.
  destruct (sort_cases node_dec G PG) as [[_ (order & _ & TO)]|[H _]]; [|contradiction].
  exists (visited_sites order). split; [exact WF|]. split; [reflexivity|].
  exact (graph_order_autoregressive anything zero_rows (causal_example 4) (fun z => z) IZR G order WF (fun _ => I) E TO).
Qed.
