(** Vocabulary for reading network outputs. *)
From Coq Require Import List ZArith Arith Reals.
From Verif Require Import Base Cplx OrderingSpec TensorModel.
Import ListNotations.

(** A static shape with known sizes that describes a tensor; the size of the batch may be unknown. *)
Definition describes (static : list (option nat)) (shape : list nat) : Prop :=
  match static, shape with
  | o :: known, b :: sizes => (o = None \/ o = Some b) /\ known = map Some sizes
  | _, _ => False
  end.
(** The category of a spin: 0 for up, 1 for down. *)
Definition category (s : Z) : nat := if (s =? 1)%Z then 0 else 1.
