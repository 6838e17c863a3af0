(** Model of deepar/graph_analysis/dependency_graph.py, deepar/graph_analysis/sampling_topology.py,
    deepar/samplers/fast_autoregressive.py and of networkx.topological_sort. *)
From Coq Require Import List ZArith Arith Bool.
From Verif Require Import Base OrderingModel TensorModel TopologyModel.
Import ListNotations.

(** * networkx *)

(** networkx.DiGraph: nodes and edges in insertion order, without repetitions. *)
Record digraph (A : Type) := { nodes : list A; edges : list (A * A) }.
Arguments nodes {A}. Arguments edges {A}.
Definition empty_graph {A} : digraph A := {| nodes := []; edges := [] |}.
Definition eq_dec (A : Type) := forall a b : A, {a = b} + {a <> b}.
Definition mem {A} (dec : eq_dec A) (a : A) (l : list A) : bool := if in_dec dec a l then true else false.
Definition pair_dec {A} (dec : eq_dec A) : eq_dec (A * A).
Proof. intros x y. decide equality. Defined.
Definition add_if_new {A} (dec : eq_dec A) (l : list A) (a : A) : list A := if mem dec a l then l else l ++ [a].
(** DiGraph.add_edge: adds missing end points, then the edge. *)
Definition add_edge {A} (dec : eq_dec A) (G : digraph A) (u v : A) : digraph A :=
  {| nodes := add_if_new dec (add_if_new dec (nodes G) u) v; edges := add_if_new (pair_dec dec) (edges G) (u, v) |}.

(** G.in_degree(), G.edges(node). *)
Definition in_degree {A} (dec : eq_dec A) (G : digraph A) (v : A) : nat :=
  length (filter (fun e => if dec (snd e) v then true else false) (edges G)).
Definition children {A} (dec : eq_dec A) (G : digraph A) (u : A) : list A :=
  map snd (filter (fun e => if dec (fst e) u then true else false) (edges G)).

(** A dict from nodes to positive numbers. *)
Fixpoint deg_get {A} (dec : eq_dec A) (m : list (A * nat)) (v : A) : option nat :=
  match m with [] => None | (k, d) :: t => if dec k v then Some d else deg_get dec t v end.
Fixpoint deg_set {A} (dec : eq_dec A) (m : list (A * nat)) (v : A) (d : nat) : list (A * nat) :=
  match m with [] => [] | (k, d') :: t => if dec k v then (k, d) :: t else (k, d') :: deg_set dec t v d end.
Fixpoint deg_del {A} (dec : eq_dec A) (m : list (A * nat)) (v : A) : list (A * nat) :=
  match m with [] => [] | (k, d') :: t => if dec k v then t else (k, d') :: deg_del dec t v end.

(** networkx/algorithms/dag.py [topological_sort] (version 2.3): the loop over the children of a removed node.
    [zero_indegree] is a stack, its top first. A child without an entry raises RuntimeError. *)
Fixpoint visit_children {A} (dec : eq_dec A) (cs : list A) (indegree_map : list (A * nat)) (zero_indegree : list A) :
    res (list (A * nat) * list A) :=
  match cs with
  | [] => Ok (indegree_map, zero_indegree)
  | child :: t =>
      match deg_get dec indegree_map child with
      | None => Err GenericException
      | Some d =>
          if d - 1 =? 0 then visit_children dec t (deg_del dec indegree_map child) (child :: zero_indegree)
          else visit_children dec t (deg_set dec indegree_map child (d - 1)) zero_indegree
      end
  end.

(** The body of the generator run to its end: the list of yielded nodes. [fuel] bounds the number of iterations, the
    number of nodes is enough. *)
Fixpoint sort_loop {A} (dec : eq_dec A) (G : digraph A) (fuel : nat) (indegree_map : list (A * nat))
    (zero_indegree : list A) : res (list A) :=
  match zero_indegree with
  | [] => match indegree_map with [] => Ok [] | _ => Err NetworkXUnfeasible end
  | node :: zero =>
      match fuel with
      | 0 => Err GenericException
      | S f =>
          do mz <- visit_children dec (children dec G node) indegree_map zero;
          do rest <- sort_loop dec G f (fst mz) (snd mz);
          Ok (node :: rest)
      end
  end.

(** [list(topological_sort(G))]. *)
Definition list_topological_sort {A} (dec : eq_dec A) (G : digraph A) : res (list A) :=
  let indegree_map := filter (fun vd => 0 <? snd vd) (map (fun v => (v, in_degree dec G v)) (nodes G)) in
  let zero_indegree := filter (fun v => in_degree dec G v =? 0) (nodes G) in
  sort_loop dec G (length (nodes G)) indegree_map (rev zero_indegree).

(** A python generator function: calling it returns a generator object whose body has not started; [run_generator] is
    what iterating over it to the end does. *)
Inductive generator (A : Type) := Suspended (body : res (list A)).
Arguments Suspended {A}.
Definition run_generator {A} (g : generator A) : res (list A) := match g with Suspended b => b end.
Definition topological_sort {A} (dec : eq_dec A) (G : digraph A) : generator A :=
  Suspended (list_topological_sort dec G).

(** * Models *)

(** data_structures.py:3 [GraphNode]: layer number and location. Every layer has one output tensor here, so the output
    index is always 0 and left out. *)
Notation node := (nat * list nat)%type.
Definition node_dec : eq_dec node.
Proof. intros x y. decide equality; [apply (list_eq_dec Nat.eq_dec) | apply Nat.eq_dec]. Defined.

(** A layer of a Keras model: the layers whose outputs it is applied to, its spatial output shape, the topology
    (dependencies and evaluation at one location), and the layer itself as a function of whole tensors. *)
Record layer (V : Type) := {
  inbound : list nat;
  out_shape : list nat;
  get_spatial_dependency : loc -> res (list dependency);
  apply_single : loc -> list V -> res V;
  run : list (tensor V) -> tensor V
}.
Arguments inbound {V}. Arguments out_shape {V}. Arguments get_spatial_dependency {V}. Arguments apply_single {V}.
Arguments run {V}.

(** A Keras model with one input: layer 0 is the InputLayer, the others are numbered in the order of their creation,
    [output] is the output layer. *)
Record kmodel (V : Type) := { klayers : list (layer V); output : nat }.
Arguments klayers {V}. Arguments output {V}.

Definition layer_at {V} (M : kmodel V) (k : nat) : res (layer V) :=
  match nth_error (klayers M) k with Some L => Ok L | None => Err IndexError end.

(** dependency_graph.py:71-80 [_add_spatial_location_dependencies]. *)
Fixpoint add_dependencies (G : digraph node) (inb : list nat) (current : node) (ds : list dependency) :
    res (digraph node) :=
  match ds with
  | [] => Ok G
  | d :: t => match nth_error inb (input_index d) with
              | None => Err IndexError
              | Some k => add_dependencies (add_edge node_dec G (k, spatial_location d) current) inb current t
              end
  end.

(** dependency_graph.py:65-69 [_add_inbound_layers_dependencies], the loop over the locations. *)
Fixpoint add_locations {V} (G : digraph node) (L : layer V) (k : nat) (ls : list loc) : res (digraph node) :=
  match ls with
  | [] => Ok G
  | l :: t => do ds <- get_spatial_dependency L l;
              do G <- add_dependencies G (inbound L) (k, l) ds;
              add_locations G L k t
  end.

(** dependency_graph.py:58-63 [_dependency_graph_visitor]. *)
Definition dependency_graph_visitor {V} (G : digraph node) (L : layer V) (k : nat) : res (digraph node) :=
  match inbound L with
  | [] => Ok G
  | _ => add_locations G L k (raster (out_shape L))
  end.

(** dependency_graph.py:10-25 [visit_layer_predecessors]: depth first, with the set of visited layers. (Each layer is
    called once, so the assertion at line 15 holds.) The recursion is bounded by [fuel]. *)
Fixpoint visit_layer_predecessors {V} (M : kmodel V) (fuel k : nat) (st : list nat * digraph node) :
    res (list nat * digraph node) :=
  match fuel with
  | 0 => Err GenericException
  | S f =>
      do L <- layer_at M k;
      do G <- dependency_graph_visitor (snd st) L k;
      (fix go (inb : list nat) (st : list nat * digraph node) : res (list nat * digraph node) :=
         match inb with
         | [] => Ok st
         | i :: t => if mem Nat.eq_dec i (fst st) then go t st
                     else do st <- visit_layer_predecessors M f i st; go t st
         end) (inbound L) (k :: fst st, G)
  end.

(** dependency_graph.py:82-89 [_add_sampling_probabilities_dependencies]: the output at a location before the input
    there. *)
Definition add_sampling_edges {V} (M : kmodel V) (G : digraph node) : res (digraph node) :=
  do L <- layer_at M (output M);
  Ok (fold_left (fun G l => add_edge node_dec G (output M, l) (0, l)) (raster (out_shape L)) G).

(** dependency_graph.py:91-94 [_build_graph]. *)
Definition build_graph {V} (M : kmodel V) : res (digraph node) :=
  do st <- visit_layer_predecessors M (S (output M)) (output M) ([], empty_graph);
  add_sampling_edges M (snd st).

(** dependency_graph.py:28-32 [assert_valid_probabilistic_model]: the sort is called inside try, NetworkXUnfeasible is
    turned into an Exception. *)
Definition assert_valid_probabilistic_model {V} (M : kmodel V) : res unit :=
  do G <- build_graph M;
  let _generator := topological_sort node_dec G in Ok tt.

(** * deepar/samplers/fast_autoregressive.py *)

(** The activation arrays: written nodes; everything else holds the zeros of line 38 ([zeros k] is the zero vector with
    the number of features of layer k). *)
Definition activations (V : Type) := list (node * V).
Fixpoint activation {V} (zeros : nat -> V) (st : activations V) (n : node) : V :=
  match st with [] => zeros (fst n) | (n', v) :: t => if node_dec n' n then v else activation zeros t n end.

(** 51-56 [_get_dependency_value]; a location outside the array raises IndexError. *)
Definition get_dependency_value {V} (M : kmodel V) (zeros : nat -> V) (st : activations V) (inputs : list nat) (d : dependency) :
    res V :=
  match nth_error inputs (input_index d) with
  | None => Err IndexError
  | Some k => do L <- layer_at M k;
              if mem (list_eq_dec Nat.eq_dec) (spatial_location d) (raster (out_shape L))
              then Ok (activation zeros st (k, spatial_location d)) else Err IndexError
  end.
Fixpoint get_dependencies_values {V} (M : kmodel V) (zeros : nat -> V) (st : activations V) (inputs : list nat)
    (ds : list dependency) : res (list V) :=
  match ds with
  | [] => Ok []
  | d :: t => do v <- get_dependency_value M zeros st inputs d;
              do vs <- get_dependencies_values M zeros st inputs t; Ok (v :: vs)
  end.

(** 63-75 [_build_sampling_function], the loop over the order. For the input layer the sampling topology
    (sampling_topology.py:10-22) depends on the output layer at the same location (dependency_graph.py:83) and draws:
    [draw l logits] is the value drawn from these logits by the random numbers of the op created for location [l]. *)
Fixpoint sampling_loop {V} (M : kmodel V) (zeros : nat -> V) (draw : loc -> V -> V) (order : list node) (st : activations V) :
    res (activations V) :=
  match order with
  | [] => Ok st
  | (k, l) :: t =>
      do L <- layer_at M k;
      let inputs := if k =? 0 then [output M] else inbound L in
      do ds <- (if k =? 0 then Ok [dep0 l] else get_spatial_dependency L l);
      do values <- get_dependencies_values M zeros st inputs ds;
      do v <- (if k =? 0 then do x <- first_value values; Ok (draw l x) else apply_single L l values);
      sampling_loop M zeros draw t (((k, l), v) :: st)
  end.

(** 19-26, 63-76: the sample (as a function of the location) or an exception. *)
Definition fast_sample {V} (M : kmodel V) (zeros : nat -> V) (draw : loc -> V -> V) : res (loc -> V) :=
  do G <- build_graph M;
  do order <- run_generator (topological_sort node_dec G);
  do st <- sampling_loop M zeros draw order [];
  Ok (fun l => activation zeros st (0, l)).

(** * The Keras model itself *)

(** Forward evaluation of all layers on an input (Keras model call). *)
Fixpoint forward_from {V} (d : tensor V) (ls : list (layer V)) (ts : list (tensor V)) : list (tensor V) :=
  match ls with
  | [] => ts
  | L :: r => forward_from d r (ts ++ [run L (map (fun i => nth i ts d) (inbound L))])
  end.
Definition forward {V} (M : kmodel V) (x : tensor V) : list (tensor V) := forward_from x (tl (klayers M)) [x].
(** The output of the model: the conditional log probabilities. *)
Definition predict {V} (M : kmodel V) (x : tensor V) : tensor V := nth (output M) (forward M x) x.
