(** Independent vocabulary for symmetries of wave functions: configurations are given entry by entry. *)
From Coq Require Import List ZArith Arith Reals.
From Verif Require Import Cplx OrderingSpec LatticeSpec AutoregressiveSpec.
Import ListNotations.

(** Entry in row [i] and column [j] of an image of width [w], entries listed row by row. *)
Definition pixel (w : nat) (x : list Z) (i j : nat) : Z := nth (i * w + j) x 0%Z.

(** [y] (w rows, h columns) is [x] (h rows, w columns) turned by 90 degrees counter-clockwise: row i of [y], read from the top, is column
    w - 1 - i of [x]. *)
Definition turned (h w : nat) (x y : list Z) : Prop :=
  length y = w * h /\ forall i j, i < w -> j < h -> pixel h y i j = pixel w x j (w - 1 - i).
(** [y] is the mirror image of [x], left and right exchanged. *)
Definition mirrored (h w : nat) (x y : list Z) : Prop :=
  length y = h * w /\ forall i j, i < h -> j < w -> pixel w y i j = pixel w x i (w - 1 - j).
(** [y] is [x] moved cyclically by [t] (one number per dimension): what is at [l] in [x] is at [l + t] modulo the shape in [y]. *)
Fixpoint shifted (shape t l : list nat) : list nat :=
  match shape, t, l with
  | n :: shape', a :: t', i :: l' => Nat.modulo (i + a) n :: shifted shape' t' l'
  | _, _, _ => []
  end.
Definition translated (shape t : list nat) (x y : list Z) : Prop :=
  length t = length shape /\ length y = volume shape /\
  forall l, in_shape shape l -> nth (row_major shape (shifted shape t l)) y 0%Z = nth (row_major shape l) x 0%Z.

(** Probability weight of a log amplitude, and a transformation that permutes the spin configurations of n sites. *)
Definition weight (z : C) : R := exp (2 * Re z).
Definition permutes_configurations (n : nat) (T : list Z -> list Z) : Prop :=
  forall t, In t (spin_configs n) -> exists s, In s (spin_configs n) /\ T s = t.

(** How the values of the transformed configurations are combined. Probabilistic: the weight is the mean of the weights and the phase is the
    phase of the sum of the phase factors. Average: the amplitude is the mean of the amplitudes. *)
Definition combined (probabilistic : bool) (values : list C) (z : C) : Prop :=
  if probabilistic then
    (weight z * INR (length values) = Rsum weight values)%R /\
    (let S := Csum (fun v => Cexp (0%R, Im v)) values in S = Cmult (RtoC (Cmod S)) (Cexp (0%R, Im z)))
  else Csum Cexp values <> C0 -> Cmult (Cexp z) (RtoC (INR (length values))) = Csum Cexp values.
