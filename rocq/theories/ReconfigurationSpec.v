(** Independent vocabulary for linear systems over complex vectors (lists of a given length). *)
From Coq Require Import List Reals Arith.
From Verif Require Import Cplx.
Import ListNotations.

Definition inner (n : nat) (x y : list C) : C := Csum (fun i => (Cconj (nth i x C0) * nth i y C0)%C) (seq 0 n).
Definition norm (n : nat) (x : list C) : R := sqrt (Rsum (fun i => Cnorm2 (nth i x C0)) (seq 0 n)).
Definition zero (n : nat) : list C := repeat C0 n.

(** A linear map of C^n: entries of the image of a combination are the combinations of the entries. *)
Definition linear_map (n : nat) (A : list C -> list C) : Prop :=
  (forall x, length x = n -> length (A x) = n) /\
  forall a b x y z, length x = n -> length y = n -> length z = n ->
    (forall i, i < n -> nth i z C0 = (a * nth i x C0 + b * nth i y C0)%C) ->
    forall i, i < n -> nth i (A z) C0 = (a * nth i (A x) C0 + b * nth i (A y) C0)%C.
Definition self_adjoint (n : nat) (A : list C -> list C) : Prop :=
  forall x y, length x = n -> length y = n -> inner n x (A y) = inner n (A x) y.
Definition positive_definite (n : nat) (A : list C -> list C) : Prop :=
  forall x, length x = n -> x <> zero n -> (0 < Re (inner n x (A x)))%R.

(** Residual of a system. *)
Definition residual_of (n : nat) (A : list C -> list C) (b x r : list C) : Prop :=
  length r = n /\ forall i, i < n -> nth i r C0 = (nth i b C0 - nth i (A x) C0)%C.

(** Number of entries of tensors of the given shapes. *)
Definition entries (shapes : list (list nat)) : nat := fold_right (fun s k => fold_right Nat.mul 1 s + k) 0 shapes.
(** A tensor (shape and row-major data) has as many entries as its shape says. *)
Definition well_shaped {A} (t : list nat * list A) : Prop := length (snd t) = fold_right Nat.mul 1 (fst t).

(** Mean and covariance over B examples. *)
Definition average (B : nat) (f : nat -> C) : C := (Csum f (seq 0 B) / RtoC (INR B))%C.
Definition covariance (B : nat) (f g : nat -> C) : C :=
  average B (fun i => (Cconj (f i - average B f) * (g i - average B g))%C).
