(** Vocabulary for weight normalisation: output columns and their lengths. *)
From Coq Require Import List ZArith Arith Reals.
From Verif Require Import Base Cplx OrderingModel OrderingSpec TensorModel.
Import ListNotations.
Local Open Scope R_scope.

(** The entries that belong to output channel [j] of a kernel of shape [sh ++ [n]]; if the kernel is normalised as a
    whole, its single group is all of it. *)
Definition column (k : tensor R) (sh : list nat) (j : nat) : list R := map (fun l => tval k (l ++ [j])) (raster sh).
Definition entries (k : tensor R) : list R := map (tval k) (raster (tshape k)).
Definition euclid (x : list R) : R := sqrt (Rsum (fun a => a * a) x).
(** Tensors with the same shape and the same entries. *)
Definition same_entries (a b : tensor R) : Prop :=
  tshape a = tshape b /\ forall l, in_shape (tshape a) l -> tval a l = tval b l.
