(** Independent description of normalisation along the features of a tensor. *)
From Coq Require Import List Arith Reals.
From Verif Require Import Base Cplx OrderingModel OrderingSpec TensorModel.
Import ListNotations.

(** Two tensors with the same shape and entries. *)
Definition same_tensor {V} (x y : tensor V) : Prop := tshape x = tshape y /\ forall l, in_shape (tshape x) l -> tval x l = tval y l.

(** The feature number [c] of example [b] at location [l]. *)
Definition feature {V} (x : tensor V) (b : nat) (l : loc) (c : nat) : V := tval x (b :: l ++ [c]).

(** Mean and variance of [n] numbers. *)
Definition average (n : nat) (f : nat -> R) : R := (Rsum f (seq 0 n) / INR n)%R.
Definition variance (n : nat) (f : nat -> R) : R := average n (fun c => (f c - average n f) ^ 2)%R.
