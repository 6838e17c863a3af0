(** Independent vocabulary for orderings. *)
From Coq Require Import List ZArith Arith.
Import ListNotations.

(** A location of a grid: as many coordinates as dimensions, each within its dimension. *)
Definition in_shape (shape l : list nat) : Prop := Forall2 lt l shape.

(** Number of sites of a shape. *)
Definition volume (shape : list nat) : nat := fold_right Nat.mul 1 shape.

(** An ordering of a shape lists every location exactly once. *)
Definition ordering_of (shape : list nat) (o : list (list nat)) : Prop :=
  NoDup o /\ forall l, In l o <-> in_shape shape l.

(** Row-major index. *)
Fixpoint row_major (shape l : list nat) : nat :=
  match shape, l with
  | _ :: shape', i :: l' => i * volume shape' + row_major shape' l'
  | _, _ => 0
  end.

(** Two cells are neighbours if they are different and no coordinate differs by more than one. *)
Definition neighbours (a b : Z * Z) : Prop :=
  a <> b /\ (Z.abs (fst a - fst b) <= 1)%Z /\ (Z.abs (snd a - snd b) <= 1)%Z.

Definition in_square (n : Z) (c : Z * Z) : Prop := (0 <= fst c < n /\ 0 <= snd c < n)%Z.

Fixpoint consecutive {A} (R : A -> A -> Prop) (l : list A) : Prop :=
  match l with
  | a :: ((b :: _) as t) => R a b /\ consecutive R t
  | _ => True
  end.
