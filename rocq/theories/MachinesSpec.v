(** Independent vocabulary: a machine as a function from flat configurations to conditionals. *)
From Coq Require Import List ZArith Reals.
From Verif Require Import Base Cplx OrderingSpec TensorModel.
Import ListNotations.

(** The input array of the given shape whose row-major data is [s]. *)
Definition input_array (shape : list nat) (s : list Z) : tensor Z :=
  {| tshape := shape; tval := fun l => nth (row_major shape l) s 0%Z |}.

(** The location with row-major index [k]. *)
Fixpoint location (shape : list nat) (k : nat) : list nat :=
  match shape with
  | [] => []
  | _ :: t => k / volume t :: location t (k mod volume t)
  end.

(** The array entries in row-major order. *)
Definition conditionals (machine : tensor Z -> res (tensor (list C))) (shape : list nat) (s : list Z) (i : nat) :
    list C :=
  match machine (input_array shape s) with
  | Ok out => tval out (location shape i)
  | Err _ => []
  end.

(** The machine accepts every input of this shape and its output has one pair of numbers per site. *)
Definition well_shaped (machine : tensor Z -> res (tensor (list C))) (shape : list nat) : Prop :=
  forall s, exists out, machine (input_array shape s) = Ok out /\ tshape out = shape /\
    forall l, length (tval out l) = 2.
