(** Independent vocabulary for amplitudes that may be infinite or nan. *)
From Coq Require Import List ZArith Reals Bool Arith.
From Verif Require Import Base Cplx AutoregressiveSpec ExactSpec McmcStatsModel MetropolisModel MetropolisFloatModel.
Import ListNotations.

(** A complex number as a pair of floating point numbers. *)
Definition of_C (z : C) : npcomplex := (Finite (Re z), Finite (Im z)).
Definition of_chains (st : chains) : float_chains := {| float_sample := sample st; float_values := map of_C (sample_machine_values st) |}.

(** The logarithm of the absolute value is a number: neither infinite (a vanishing or overflowing amplitude) nor nan. *)
Definition has_modulus (z : npcomplex) : Prop := exists r, fst z = Finite r.
Definition is_number (z : npcomplex) : Prop := exists w, z = of_C w.

(** numpy.random.uniform. *)
Definition uniform_numbers (us : list R) : Prop := forall u, In u us -> (0 <= u < 1)%R.
(** The random input of one sweep: per chain a move out of [moves] and a number. *)
Definition random_input {D} (chains : nat) (moves : list D) (input : list D * list R) : Prop :=
  length (fst input) = chains /\ incl (fst input) moves /\ length (snd input) = chains /\ uniform_numbers (snd input).
(** The amplitude vanishes exactly outside the configurations of total spin zero. *)
Definition zero_spin_only (n : nat) (log_psi : list Z -> npcomplex) : Prop :=
  forall s, In s (spin_configs n) -> (sumZ s = 0%Z -> is_number (log_psi s)) /\ (sumZ s <> 0%Z -> ~ has_modulus (log_psi s)).
(** The state after [machine_updated]. *)
Definition fresh (n : nat) (log_psi : list Z -> npcomplex) (st : float_chains) : Prop :=
  incl (float_sample st) (spin_configs n) /\ float_values st = map log_psi (float_sample st).

(** The order of the extended real numbers, without nan. *)
Definition below (x y : npfloat) : Prop :=
  (x = MinusInf /\ y <> MinusInf /\ y <> NaN) \/ (y = PlusInf /\ x <> PlusInf /\ x <> NaN) \/ exists a b, x = Finite a /\ y = Finite b /\ (a < b)%R.
Definition has_nan (z : npcomplex) : Prop := fst z = NaN \/ snd z = NaN.
(** The lexicographic order of complex numbers. *)
Definition cbelow (x y : npcomplex) : Prop := below (fst x) (fst y) \/ (fst x = fst y /\ below (snd x) (snd y)).
(** An infinity with the sign of a number that is not zero. *)
Definition infinity_of_sign (a : R) : npfloat := if Rlt_dec 0 a then PlusInf else if Rlt_dec a 0 then MinusInf else NaN.
