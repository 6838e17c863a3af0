(** Independent specification of the J1-J2 bonds on a grid. *)
From Coq Require Import List ZArith Reals Bool Arith.
From Verif Require Import Cplx LatticeSpec.
Import ListNotations.

(** Specification: from every site one bond in each of four directions, to the neighbouring site; open
    boundary drops bonds that leave the grid, periodic boundary wraps them around. *)
Definition directions : list (Z * Z * nat) := [(0, 1, 1%nat); (1, 0, 1%nat); (1, 1, 2%nat); (-1, 1, 2%nat)]%Z.
Definition site_number (L2 : nat) (h w : Z) : nat := Z.to_nat (h * Z.of_nat L2 + w).
Definition inside_grid (L1 L2 : nat) (h w : Z) : bool :=
  ((0 <=? h) && (h <? Z.of_nat L1) && (0 <=? w) && (w <? Z.of_nat L2))%Z.
Definition bond_from (L1 L2 : nat) (pbc : bool) (h w : nat) (d : Z * Z * nat) : list (nat * nat * nat) :=
  let '(dh, dw, colour) := d in
  let h' := (Z.of_nat h + dh)%Z in
  let w' := (Z.of_nat w + dw)%Z in
  if pbc || inside_grid L1 L2 h' w' then
    [(site_number L2 (Z.of_nat h) (Z.of_nat w),
      site_number L2 (h' mod Z.of_nat L1) (w' mod Z.of_nat L2), colour)]
  else [].
Definition lattice_edges (L1 L2 : nat) (pbc : bool) : list (nat * nat * nat) :=
  flat_map (fun h => flat_map (fun w => flat_map (bond_from L1 L2 pbc h w) directions) (seq 0 L2)) (seq 0 L1).

(** The two end points of a bond, smaller number first. *)
Definition undirected (e : nat * nat * nat) : nat * nat :=
  (Nat.min (fst (fst e)) (snd (fst e)), Nat.max (fst (fst e)) (snd (fst e))).

(** Strength of a bond of the given colour, and <s|H|t> for H = sum over the bonds of J (X X + Y Y + Z Z). *)
Definition coupling (j2 : R) (colour : nat) : R := if colour =? 1 then 1%R else j2.
Definition j1j2_matrix (L1 L2 : nat) (j2 : R) (pbc : bool) (s t : list Z) : C :=
  RtoC (Rsum (fun e => let '(i, j, colour) := e in (coupling j2 colour * IZR (heisenberg_element 2 [(i, j)] s t))%R)
    (lattice_edges L1 L2 pbc)).

(** Grids on which no bond is listed twice and no bond joins a site with itself. *)
Definition j1j2_grid (L1 L2 : nat) (pbc : bool) : Prop := 1 < L1 * L2 /\ (pbc = true -> 3 <= L1 /\ 3 <= L2).

(** Number of bonds with opposite spins. *)
Definition opposite_bonds (L1 L2 : nat) (pbc : bool) (s : list Z) : nat :=
  length (filter (fun e => negb (spin s (fst (fst e)) =? spin s (snd (fst e)))%Z) (lattice_edges L1 L2 pbc)).
