(** Notions for the statements about random initial weights. *)
From Coq Require Import List Arith Reals.
From Verif Require Import Base Cplx.
Import ListNotations.
Local Open Scope R_scope.

(** Expectations: a linear functional on the integrable random variables. *)
Record expectation (Omega : Type) := {
  integrable : (Omega -> R) -> Prop;
  mean : (Omega -> R) -> R;
  mean_ext : forall f g, (forall w, f w = g w) -> integrable f -> integrable g /\ mean g = mean f;
  mean_plus : forall f g, integrable f -> integrable g -> integrable (fun w => f w + g w) /\ mean (fun w => f w + g w) = mean f + mean g;
  mean_scale : forall c f, integrable f -> integrable (fun w => c * f w) /\ mean (fun w => c * f w) = c * mean f }.
Arguments integrable {Omega}. Arguments mean {Omega}. Arguments mean_ext {Omega}. Arguments mean_plus {Omega}. Arguments mean_scale {Omega}.

(** The random variable is integrable and has this mean. *)
Definition has_mean {Omega} (P : expectation Omega) (f : Omega -> R) (m : R) : Prop := integrable P f /\ mean P f = m.

(** Numbers with second moment 1, as standard normal ones have. *)
Definition unit_moments {Omega} (P : expectation Omega) (n : nat) (z : Omega -> list R) : Prop :=
  (forall w, length (z w) = n) /\ forall k, (k < n)%nat -> has_mean P (fun w => nth k (z w) 0 * nth k (z w) 0) 1.

(** Different entries have unrelated directions, as with independent uniform phases. *)
Definition unrelated {Omega} (P : expectation Omega) (n : nat) (W : Omega -> list C) : Prop :=
  forall k l, (k < n)%nat -> (l < n)%nat -> k <> l ->
    has_mean P (fun w => Re (Cmult (nth k (W w) C0) (Cconj (nth l (W w) C0)))) 0 /\
    has_mean P (fun w => Im (Cmult (nth k (W w) C0) (Cconj (nth l (W w) C0)))) 0.

(** Number of inputs of an output and of outputs of an input of a kernel: kernel size times channels. *)
Definition entries (l : list nat) : nat := fold_right Nat.mul 1%nat l.
Definition fans (shape : list nat) (fan_in fan_out : nat) : Prop :=
  (shape = [] /\ fan_in = 1 /\ fan_out = 1)%nat \/
  (exists n, shape = [n] /\ fan_in = n /\ fan_out = n) \/
  exists size cin cout, shape = size ++ [cin; cout] /\ fan_in = (entries size * cin)%nat /\ fan_out = (entries size * cout)%nat.
