(** Notions for the receptive fields of the convolutional machines. *)
From Coq Require Import List ZArith Reals Arith Bool.
From Verif Require Import Base Cplx AutoregressiveSpec MachinesModel.
Import ListNotations.

(** The probability of the first spin value that the two numbers of a site stand for. *)
Definition first_probability (c : list C) : R :=
  let weight k := exp (2 * Re (nth k c C0)) in (weight 0%nat / (weight 0%nat + weight 1%nat))%R.
(** Whether the spin at [j] alone can change the conditional distribution at [i]. *)
Definition influences (net : list Z -> nat -> list C) (n i j : nat) : Prop :=
  exists s t, In s (spin_configs n) /\ In t (spin_configs n) /\ (forall k, k <> j -> nth k s 0%Z = nth k t 0%Z) /\
    first_probability (net s i) <> first_probability (net t i).
Definition relu (v : list R) : list R := map (Rmax 0) v.

(** The dilation rate of layer [l]: doubled up to the first power of two that is not below the maximum, if dilations are used and a maximum is given. *)
Definition rate (p : params_1d) (l : nat) : nat :=
  if use_dilation p then match max_dilation_rate p with Some m => 2 ^ Nat.min l (Nat.log2_up m) | None => 1 end else 1.
(** How far back a machine with the given number of layers sees. *)
Definition reach (p : params_1d) (layers : nat) : nat := 1 + (ksize p - 1) * fold_right Nat.add 0 (map (rate p) (seq 0 layers)).

(** Two dimensions: [m] convolutions with kernels of size 2 q + 1. Site (x, y) sees site (i, j): in its own row, in the rows above, and in the last rows
    that can be reached. *)
Definition sees_2d (m q x y i j : nat) : Prop :=
  (x = i /\ j < y <= j + 4 * (m * q) + 1) \/
  (i < x <= i + 2 * (m * q) /\ j <= y + m * q /\ y <= j + 4 * (m * q) + 1) \/
  (i < x <= i + 2 * (m * q) + 2 * q + 1 /\ j <= y + m * q /\ y + q <= j + 4 * (m * q) + 1).

(** Activations that act on every number separately, keep non negative real numbers non negative and keep their order strictly; [emb] says how real numbers
    are represented. *)
Definition increasing_activation {T} (emb : R -> T) (act : list T -> list T) : Prop :=
  exists g : R -> R, (forall a, Forall (fun x => (0 <= x)%R) a -> act (map emb a) = map emb (map g a)) /\
    (forall x, (0 <= x)%R -> (0 <= g x)%R) /\ (forall x y, (0 <= x < y)%R -> (g x < g y)%R).
