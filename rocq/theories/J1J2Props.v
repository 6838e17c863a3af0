(** Property C24 (operators/j1j2.py). *)
From Coq Require Import List ZArith Lia Arith Bool Permutation.
From Verif Require Import Base J1J2Model J1J2Spec J1J2Proofs.
Import ListNotations.

(** C24: the edge list holds exactly the coloured nearest and next-nearest neighbour bonds of the grid. *)
Theorem C24_edges : forall (L1 L2 : nat) (pbc : bool), 0 < L1 -> 0 < L2 ->
  Permutation (edge_colors L1 L2 pbc) (lattice_edges L1 L2 pbc).
Proof. exact edges_perm. Qed.
Print Assumptions C24_edges.
Example C24_edges_ex : edge_colors 2 2 false = [(0, 1, 1); (0, 2, 1); (0, 3, 2); (1, 3, 1); (2, 3, 1); (2, 1, 2)].
Proof. reflexivity. Qed.

(** C24: no pair of sites occurs twice, in either direction, on open grids of any size and on periodic grids
    with both sides at least 3. *)
Theorem C24_each_bond_once : forall (L1 L2 : nat) (pbc : bool), 0 < L1 -> 0 < L2 ->
  (pbc = true -> 3 <= L1 /\ 3 <= L2) -> NoDup (map undirected (edge_colors L1 L2 pbc)).
Proof. exact edges_NoDup. Qed.
Print Assumptions C24_each_bond_once.
Example C24_each_bond_once_ex : 3 <= 3 /\ 3 <= 4.
Proof. lia. Qed.

(** C24: on the periodic 2 x 3 grid a bond is listed twice. *)
Theorem C24_each_bond_once_refuted : ~ NoDup (map undirected (edge_colors 2 3 true)).
Proof.
  intros H. cbv in H. inversion H as [|x l H1 H2 E]; subst. inversion H2 as [|x l H3 H4 E]; subst.
  apply H3. cbn. tauto.
Qed.
Print Assumptions C24_each_bond_once_refuted.

(** C24: the periodic grid has four bonds per site. *)
Theorem C24_periodic_count : forall (L1 L2 : nat), 0 < L1 -> 0 < L2 -> length (edge_colors L1 L2 true) = 4 * (L1 * L2).
Proof. exact pbc_edges_count. Qed.
Print Assumptions C24_periodic_count.
Example C24_periodic_count_ex : length (edge_colors 3 4 true) = 48.
Proof. reflexivity. Qed.

(** C24: the declared number of connections has room for the diagonal and one entry per bond; other than two
    dimensions are rejected. *)
Theorem C24_declared_connections : forall (L1 L2 : nat) (pbc : bool), 0 < L1 -> 0 < L2 ->
  j1j2_max_conn [L1; L2] = Ok (4 * (L1 * L2) + 1) /\ length (edge_colors L1 L2 pbc) + 1 <= 4 * (L1 * L2) + 1 /\
  length (edge_colors L1 L2 true) + 1 = 4 * (L1 * L2) + 1 /\ forall shape, length shape <> 2 -> j1j2_max_conn shape = Err AssertionError.
Proof.
  intros L1 L2 pbc H1 H2. assert (E : j1j2_max_conn [L1; L2] = Ok (4 * (L1 * L2) + 1)).
  { unfold j1j2_max_conn. cbn [fold_right length Nat.eqb]. f_equal. lia. }
  split; [exact E|]. split; [|split].
  - destruct (edges_count L1 L2 pbc H1 H2) as (m & E' & L). rewrite E in E'. injection E' as <-. exact L.
  - now rewrite pbc_edges_count.
  - intros shape H. unfold j1j2_max_conn. destruct (Nat.eqb_spec (length shape) 2); [contradiction|reflexivity].
Qed.
Print Assumptions C24_declared_connections.
Example C24_declared_connections_ex : j1j2_max_conn [4; 4] = Ok 65 /\ j1j2_max_conn [4] = Err AssertionError.
Proof. split; reflexivity. Qed.
