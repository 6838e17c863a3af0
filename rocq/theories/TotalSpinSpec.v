(** Independent vocabulary for the total spin. *)
From Coq Require Import List ZArith Reals Bool Arith.
From Verif Require Import Cplx LatticeSpec.
Import ListNotations.

(** <s| sum over all pairs of sites i, j of (X_i X_j + Y_i Y_j + Z_i Z_j) |t>; for i = j the three squares are 1. This is 4 S(S+1). *)
Definition total_spin_matrix (n : nat) (s t : list Z) : C :=
  RtoC (Rsum (fun i => Rsum (fun j =>
    if i =? j then if list_eq_dec Z.eq_dec s t then 3%R else 0%R else IZR (heisenberg_element 2 [(i, j)] s t)) (seq 0 n)) (seq 0 n)).

(** r times the identity. *)
Definition scalar_matrix (r : R) (s t : list Z) : C := if list_eq_dec Z.eq_dec s t then RtoC r else C0.

(** Two spins: the singlet, amplitudes 1 for 1 -1, -1 for -1 1 and 0 for equal spins. *)
Definition singlet (s : list Z) : C :=
  if list_eq_dec Z.eq_dec s [1; -1]%Z then C1 else if list_eq_dec Z.eq_dec s [-1; 1]%Z then Copp C1 else C0.
