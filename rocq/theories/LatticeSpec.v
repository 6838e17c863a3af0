(** Independent specification of lattice Hamiltonians: bonds of chains and grids, matrix elements. *)
From Coq Require Import List ZArith Reals Bool Arith.
From Verif Require Import Cplx.
Import ListNotations.

(** Nearest neighbour bonds of a chain of [n] sites; with periodic boundary every site has a bond to the next
    one, so the ring of two sites carries its bond twice. *)
Definition chain_bonds (n : nat) (pbc : bool) : list (nat * nat) :=
  map (fun i => (i, S i)) (seq 0 (n - 1)) ++ (if pbc && (1 <? n) then [(n - 1, 0)] else []).

(** Bonds of an [n] x [m] grid, sites numbered row by row: one chain per column, one chain per row. *)
Definition grid_bonds (n m : nat) (pbc : bool) : list (nat * nat) :=
  flat_map (fun j => map (fun b => (fst b * m + j, snd b * m + j)) (chain_bonds n pbc)) (seq 0 m) ++
  flat_map (fun i => map (fun b => (i * m + fst b, i * m + snd b)) (chain_bonds m pbc)) (seq 0 n).

(** Bonds and number of sites of a chain [n] or grid [n; m]. *)
Definition shape_bonds (shape : list nat) (pbc : bool) : list (nat * nat) :=
  match shape with [n] => chain_bonds n pbc | [n; m] => grid_bonds n m pbc | _ => [] end.
Definition sites_of (shape : list nat) : nat := fold_right Nat.mul 1 shape.
Definition chain_or_grid (shape : list nat) : Prop :=
  (exists n, shape = [n] /\ 0 < n) \/ (exists n m, shape = [n; m] /\ 0 < n /\ 0 < m).

(** Bonds between two different sites below [n]. *)
Definition bonds_ok (n : nat) (bonds : list (nat * nat)) : Prop :=
  Forall (fun b => (fst b < n) /\ (snd b < n) /\ fst b <> snd b) bonds.

(** Shapes on which the chain of bonds is unambiguous: the one site ring is excluded. *)
Definition good_shape (shape : list nat) (pbc : bool) : Prop :=
  (exists n, shape = [n] /\ (1 < n \/ (pbc = false /\ 0 < n))) \/
  (exists n m, shape = [n; m] /\ 0 < n /\ 0 < m).

Definition is_spin (x : Z) : Prop := x = 1%Z \/ x = (-1)%Z.
Definition spins (n : nat) (s : list Z) : Prop := length s = n /\ Forall is_spin s.
Definition spin (s : list Z) (i : nat) : Z := nth i s 0%Z.

(** Number of sites where two configurations differ. *)
Fixpoint hamming (s t : list Z) : nat :=
  match s, t with
  | a :: s', b :: t' => (if (a =? b)%Z then 0 else 1) + hamming s' t'
  | _, _ => 0
  end.

(** Column [b] of an array indexed by connection, then by sample. *)
Definition column {A} (b : nat) (d : A) (rows : list (list A)) : list A := map (fun r => nth b r d) rows.

Local Open Scope R_scope.

(** Sum of the matrix elements of the connections equal to [t], for one sample. *)
Definition row_sum (conns : list (list Z)) (mels : list R) (t : list Z) : R :=
  Rsum (fun cm => if list_eq_dec Z.eq_dec (fst cm) t then snd cm else 0) (combine conns mels).

(** <s|H|t> for H = -J sum_bonds Z Z - h sum_sites X. *)
Definition ising_element (J h : R) (bonds : list (nat * nat)) (s t : list Z) : R :=
  match hamming s t with
  | O => - J * Rsum (fun b => IZR (spin s (fst b) * spin s (snd b))) bonds
  | 1%nat => - h
  | _ => 0
  end.

Local Open Scope Z_scope.
Definition Zsum {A} (f : A -> Z) (l : list A) : Z := fold_right (fun a s => f a + s) 0 l.

(** [t] is [s] with the values at [a] and [b] exchanged. *)
Definition exchanged (a b : nat) (s t : list Z) : bool :=
  (length s =? length t)%nat &&
  forallb (fun i => (spin t i =? (if (i =? a)%nat then spin s b else if (i =? b)%nat then spin s a else spin s i)))
    (seq 0 (length s)).

(** <s|H|t> for H = sum_bonds (Z Z + (off/2) (X X + Y Y)): the diagonal is the sum of neighbour products; every
    bond with opposite spins couples to the configuration with the two spins exchanged with strength [off]. *)
Definition heisenberg_element (off : Z) (bonds : list (nat * nat)) (s t : list Z) : Z :=
  (if list_eq_dec Z.eq_dec s t then Zsum (fun b => spin s (fst b) * spin s (snd b)) bonds else 0) +
  Zsum (fun b => if negb (spin s (fst b) =? spin s (snd b)) && exchanged (fst b) (snd b) s t
                 then off else 0) bonds.

(** Sum of the matrix elements of the used connections equal to [t]. *)
Definition used_row_sum (conns : list (list Z)) (mels : list Z) (uses : list bool) (t : list Z) : Z :=
  Zsum (fun k => if nth k uses false && (if list_eq_dec Z.eq_dec (nth k conns []) t then true else false)
                 then nth k mels 0 else 0) (seq 0 (length conns)).

(** A connection function reports the configuration itself first; a non empty batch of such configurations. *)
Definition reports_itself (get_conn : list Z -> list (list Z * C)) (s : list Z) : Prop :=
  exists m rest, get_conn s = (s, m) :: rest.
Definition good_batch (g : list Z -> list (list Z * C)) (b : list (list Z)) : Prop :=
  b <> [] /\ forall s, In s b -> reports_itself g s.
