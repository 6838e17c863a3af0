(** Independent vocabulary for the unitary rotation of the Heisenberg operator. *)
From Coq Require Import List ZArith Reals Bool Arith.
From Verif Require Import Cplx LatticeSpec AutoregressiveSpec.
Import ListNotations.

(** The sites whose coordinates add up to an odd number. *)
Definition odd_site (shape : list nat) (i : nat) : bool :=
  match shape with [_] => Nat.odd i | [_; m] => Nat.odd (i / m + i mod m) | _ => false end.

(** The product of the spins on those sites: -1 to the number of down spins among them. *)
Definition sublattice_sign (shape : list nat) (s : list Z) : Z :=
  fold_right Z.mul 1%Z (map (fun i => if odd_site shape i then spin s i else 1%Z) (seq 0 (sites_of shape))).

(** No ring of odd length: the boundary is open or all sides are even (a side of length 1 carries no bonds). *)
Definition bipartite (shape : list nat) (pbc : bool) : Prop :=
  pbc = false \/ Forall (fun n => n = 1 \/ Nat.Even n) shape.

(** The wave function with the sign of the sublattice: log psi + i pi where the sign is -1. *)
Definition rotated (shape : list nat) (log_psi : list Z -> C) (s : list Z) : C :=
  if (sublattice_sign shape s =? 1)%Z then log_psi s else (log_psi s + (0%R, PI))%C.

(** H = D H' D^-1 for an invertible diagonal matrix D. *)
Definition same_up_to_diagonal (n : nat) (H H' : list Z -> list Z -> C) : Prop :=
  exists D : list Z -> C, (forall s, In s (spin_configs n) -> D s <> C0) /\
    forall s t, In s (spin_configs n) -> In t (spin_configs n) -> (H s t * D t = D s * H' s t)%C.

(** The wave function without its phases. *)
Definition modulus (log_psi : list Z -> C) (s : list Z) : C := RtoC (Re (log_psi s)).

(** Three spins: amplitude 1 for configurations with both spin values, exp -1 for the two others. *)
Definition mixed_first (s : list Z) : C := if (Z.abs (fold_right Z.add 0%Z s) =? 3)%Z then RtoC (-1) else C0.
(** Two spins: amplitudes -1 and 1 for 1 -1 and -1 1, exp -1 for equal spins. *)
Definition singlet_like (s : list Z) : C :=
  if list_eq_dec Z.eq_dec s [1; -1]%Z then (0%R, PI) else if list_eq_dec Z.eq_dec s [-1; 1]%Z then C0 else RtoC (-1).
