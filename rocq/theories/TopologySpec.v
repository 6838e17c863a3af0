(** What it means that a topology agrees with a layer. *)
From Coq Require Import List ZArith Arith.
From Verif Require Import Base OrderingModel OrderingSpec TensorModel TopologyModel.
Import ListNotations.

(** [vs] are the values of the inputs [ts] at the reported dependencies, all of which exist. *)
Definition values_at {V} (ts : list (tensor V)) (ds : list dependency) (vs : list V) : Prop :=
  Forall2 (fun d v => exists t, nth_error ts (input_index d) = Some t /\
             in_shape (tshape t) (spatial_location d) /\ v = tval t (spatial_location d)) ds vs.

(** [deps] and [apply] compute the output [out] of the layer at every location of its output. *)
Definition agrees {V W} (ts : list (tensor V)) (deps : loc -> res (list dependency)) (apply : loc -> list V -> res W)
    (out : tensor W) : Prop :=
  forall l, in_shape (tshape out) l ->
    exists ds vs, deps l = Ok ds /\ values_at ts ds vs /\ apply l vs = Ok (tval out l).

(** The last topology registered for a class. *)
Definition last_registered {L T} (eqb : L -> L -> bool) (history : list (L * T)) (cls : L) : option T :=
  option_map snd (find (fun kv => eqb cls (fst kv)) (rev history)).

(** A layer inside [k] wrappers. *)
Fixpoint wrapped {L} (k : nat) (layer : layer_obj L) : layer_obj L :=
  match k with O => layer | S k => Wrapped (wrapped k layer) end.

(** The prefix of a periodic padding fits: at most the size of the dimension, or a multiple of it. *)
Definition pads_fit (p : pad_entry) (n : nat) : Prop := 0 < n /\ (pad_before p <= n \/ pad_before p mod n = 0).

(** Equal shapes except along axis [d]. *)
Definition same_except (d : nat) (a b : list nat) : Prop :=
  length a = length b /\ forall k, k <> d -> nth k a 0 = nth k b 0.

(** [s] can be broadcast to [out]. *)
Definition broadcasts (out s : list nat) : Prop := Forall2 (fun n k => k = n \/ k = 1) out s.
