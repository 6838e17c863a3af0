(** Dense and convolution layers as functions of their weights, in entries (independent of the model). *)
From Coq Require Import List Reals Arith.
From Verif Require Import Cplx.
Import ListNotations.

Definition tabulate {A} (n : nat) (f : nat -> A) : list A := map f (seq 0 n).
(** Positions of a rectangle, and positions of the entries of a kernel for one output. *)
Definition sites (h w : nat) : list (nat * nat) := list_prod (seq 0 h) (seq 0 w).
Definition taps (kh kw channels : nat) : list (nat * nat * nat) := list_prod (list_prod (seq 0 kh) (seq 0 kw)) (seq 0 channels).

(** Tensors with given entries. *)
Definition tensor2 {A} (n m : nat) (f : nat -> nat -> A) : list (list A) := tabulate n (fun i => tabulate m (f i)).
Definition tensor3 {A} (h w c : nat) (f : nat -> nat -> nat -> A) : list (list (list A)) := tabulate h (fun i => tensor2 w c (f i)).
Definition tensor4 {A} (k l m n : nat) (f : nat -> nat -> nat -> nat -> A) : list (list (list (list A))) := tabulate k (fun i => tensor3 l m n (f i)).

(** Output of a dense layer with [n] inputs, and of a convolution (valid padding, strides one, dilation (dh, dw)), for the output channel [o]. *)
Definition Rdense (n : nat) (x : nat -> R) (w : nat -> nat -> R) (b : nat -> R) (o : nat) : R := (Rsum (fun i => x i * w i o) (seq 0 n) + b o)%R.
Definition Cdense (n : nat) (x : nat -> C) (w : nat -> nat -> C) (b : nat -> C) (o : nat) : C := (Csum (fun i => x i * w i o) (seq 0 n) + b o)%C.
Definition Rconv (kh kw channels dh dw : nat) (x : nat -> nat -> nat -> R) (w : nat -> nat -> nat -> nat -> R) (b : nat -> R) (p : nat * nat) (o : nat) : R :=
  (Rsum (fun t => let '(k, l, i) := t in x (fst p + k * dh)%nat (snd p + l * dw)%nat i * w k l i o) (taps kh kw channels) + b o)%R.
Definition Cconv (kh kw channels dh dw : nat) (x : nat -> nat -> nat -> C) (w : nat -> nat -> nat -> nat -> C) (b : nat -> C) (p : nat * nat) (o : nat) : C :=
  (Csum (fun t => let '(k, l, i) := t in x (fst p + k * dh)%nat (snd p + l * dw)%nat i * w k l i o) (taps kh kw channels) + b o)%C.
