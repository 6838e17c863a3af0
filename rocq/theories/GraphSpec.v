(** Independent vocabulary: graphs, topological orders, models whose topologies agree with their layers. *)
From Coq Require Import List ZArith Arith Relations.
From Coq Require Import Reals.
From Verif Require Import Base OrderingModel OrderingSpec TensorModel TopologyModel TopologySpec AutoregressiveModel
  MachinesSpec GraphModel.
Import ListNotations.

(** Two edges follow each other ... a directed cycle. *)
Definition has_cycle {A} (es : list (A * A)) : Prop :=
  exists v, clos_trans A (fun a b => In (a, b) es) v v.

(** [order] lists each node once, sources of edges before targets. *)
Definition topological_order {A} (ns : list A) (es : list (A * A)) (order : list A) : Prop :=
  NoDup order /\ (forall v, In v order <-> In v ns) /\
  forall before v after, order = before ++ v :: after -> forall u, In (u, v) es -> In u before.

(** A graph whose node list has no repetition and contains the end points of all edges. *)
Definition proper_graph {A} (ns : list A) (es : list (A * A)) : Prop :=
  NoDup ns /\ NoDup es /\ forall u v, In (u, v) es -> In u ns /\ In v ns.

(** A Keras model as FlowKet uses it: layer 0 is the only one without inputs, layers are applied to earlier layers, the
    output has the shape of the input, and every topology computes its layer (properties C08, C09, C10). [valid k] says
    which values layer k can have at a location (the right number of features), the zeros are among them. *)
Definition well_formed {V} (valid : nat -> V -> Prop) (zeros : nat -> V) (M : kmodel V) : Prop :=
  (exists L0, nth_error (klayers M) 0 = Some L0 /\ inbound L0 = [] /\
     exists L, nth_error (klayers M) (output M) = Some L /\ out_shape L = out_shape L0 /\ 0 < output M) /\
  (forall k, valid k (zeros k)) /\
  forall k L, nth_error (klayers M) k = Some L -> 0 < k ->
    inbound L <> [] /\ (forall i, In i (inbound L) -> i < k) /\
    forall ts, Forall2 (fun i t => exists Li, nth_error (klayers M) i = Some Li /\ tshape t = out_shape Li /\
                          forall l, in_shape (tshape t) l -> valid i (tval t l)) (inbound L) ts ->
      tshape (run L ts) = out_shape L /\ (forall l, in_shape (out_shape L) l -> valid k (tval (run L ts) l)) /\
      agrees ts (get_spatial_dependency L) (apply_single L) (run L ts).

(** The array of the input shape with given entries. *)
Definition input_of {V} (M : kmodel V) (x : loc -> V) : tensor V :=
  {| tshape := match klayers M with L :: _ => out_shape L | [] => [] end; tval := x |}.
Definition input_shape {V} (M : kmodel V) : list nat := match klayers M with L :: _ => out_shape L | [] => [] end.

(** A sample is consistent: every entry is what is drawn from the logits the whole model assigns to the sample. *)
Definition consistent {V} (M : kmodel V) (draw : loc -> V -> V) (x : loc -> V) : Prop :=
  forall l, in_shape (input_shape M) l -> x l = draw l (tval (predict M (input_of M x)) l).

(** The values of an input array are possible values of the network input. *)
Definition valid_input {V} (valid : nat -> V -> Prop) (M : kmodel V) (x : loc -> V) : Prop :=
  forall l, in_shape (input_shape M) l -> valid 0 (x l).
(** Only possible values are drawn. *)
Definition draws_valid {V} (valid : nat -> V -> Prop) (M : kmodel V) (draw : loc -> V -> V) : Prop :=
  forall l v, valid (output M) v -> valid 0 (draw l v).

(** The locations of the input layer in an order of the graph. *)
Fixpoint visited_sites (order : list node) : list loc :=
  match order with
  | [] => []
  | (0, l) :: t => l :: visited_sites t
  | _ :: t => visited_sites t
  end.

(** For the comparison with the site by site sampler: a configuration of integers as network input ([enc] turns an
    integer into the value of the input layer), the logits of a site ([logit] reads the log probability of category 0),
    and drawing with one uniform random number per site. *)
Definition encoded {V} (M : kmodel V) (enc : Z -> V) (s : list Z) : loc -> V :=
  fun l => enc (nth (row_major (input_shape M) l) s 0%Z).
Definition site_log_probs {V} (M : kmodel V) (enc : Z -> V) (logit : V -> R) (s : list Z) (i : nat) : list R :=
  [logit (tval (predict M (input_of M (encoded M enc s))) (location (input_shape M) i))].
Definition draw_with {V} (M : kmodel V) (enc : Z -> V) (logit : V -> R) (zero_base : bool) (u : list R) (l : loc) (v : V) : V :=
  enc (draw_value zero_base (logit v) (nth (row_major (input_shape M) l) u 0%R)).
