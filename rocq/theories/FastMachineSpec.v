(** Vocabulary: which values a layer can have, activations that keep the number of features. *)
From Coq Require Import List ZArith Reals.
From Verif Require Import Base Cplx OrderingModel OrderingSpec TensorModel AutoregressiveModel AutoregressiveSpec MachinesSpec GraphModel GraphSpec FastMachineModel.
Import ListNotations.

(** A vector of the given type and length. *)
Definition of_kind (d : dtype) (f : nat) (v : value) : Prop :=
  match d, v with
  | TInt, VInts l => length l = f
  | TReal, VReals l => length l = f
  | TComplex, VComplex l => length l = f
  | _, _ => False
  end.
Definition right_values (S : graph) (k : nat) (v : value) : Prop :=
  match nth_error S k with Some L => of_kind (ldtype L) (lfeatures L) v | None => True end.

Definition keeps_length {T} (act : list T -> list T) : Prop := forall v, length (act v) = length v.
Definition optionally {A} (P : A -> Prop) (o : option A) : Prop := match o with Some a => P a | None => True end.

(** The network input holding a configuration. *)
Definition network_input (shape : list nat) (s : list Z) : tensor value := {| tshape := shape; tval := fun l => site_value (nth (row_major shape l) s 0%Z) |}.

(** [S], [h] are the layers of the conditional log probabilities of a machine, ready for the fast sampler: every topology agrees with its
    layer, the dependencies have no cycle, and the output at every site is the conditional log probabilities of the machine, a function
    from input arrays to arrays of pairs of complex numbers. *)
Definition graph_of (construct : graph -> nat -> res (graph * nat)) (machine : tensor Z -> res (tensor (list C))) (shape : list nat)
    (S : graph) (h : nat) : Prop :=
  conditional_log_probs_graph construct false shape = Ok (S, h) /\
  nth_error S 0 = Some (input_klayer shape) /\
  well_formed (right_values S) (graph_zeros S) (keras_model (S, h)) /\
  (exists D, build_graph (keras_model (S, h)) = Ok D /\ ~ has_cycle (edges D)) /\
  forall s i, i < volume shape -> tval (predict (keras_model (S, h)) (network_input shape s)) (location shape i) =
    VReals (conditional_log_probs (conditionals machine shape) s i).

(** The fast sampler on the layers [S], [h] with the uniform random numbers [u] (one per site) returns the configuration [s]. *)
Definition fast_returns (shape : list nat) (S : graph) (h : nat) (u : list R) (s : list Z) : Prop :=
  let M := keras_model (S, h) in
  exists x, fast_sample M (graph_zeros S) (draw_with M site_value category_0 false u) = Ok x /\
    forall l, in_shape shape l -> x l = site_value (nth (row_major shape l) s 0%Z).

(** ... with probability |psi(s)|^2: the random numbers for which it returns [s] form a box of that volume. *)
Definition fast_samples_born (shape : list nat) (S : graph) (h : nat) (psi : list Z -> C) : Prop :=
  exists box : list Z -> nat -> R * R,
    (forall s i, 0 <= fst (box s i) /\ snd (box s i) <= 1)%R /\
    (forall u s, length u = volume shape /\ Forall (fun x => 0 <= x < 1)%R u -> In s (spin_configs (volume shape)) ->
       (fast_returns shape S h u s <-> forall i, i < volume shape -> inside (nth i u 0%R) (box s i))) /\
    (forall s, In s (spin_configs (volume shape)) -> Rprod (fun i => len (box s i)) (seq 0 (volume shape)) = Cnorm2 (Cexp (psi s))).
