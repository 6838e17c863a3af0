(** Model of the total spin operator of examples/j1j2_2d_exact_4.py. *)
From Coq Require Import List ZArith Reals Bool Arith.
From Verif Require Import Base Cplx J1J2Model NetketModel ObservableModel ExactModel J1J2OperatorModel.
Import ListNotations.

(** j1j2_2d_exact_4.py:23-25: the edges of the graph. *)
Definition self_edges (shape : list nat) : list edge :=
  map (fun i => (i, i, 1)) (range (fold_right Nat.mul 1 shape)).

(** j1j2_2d_exact_4.py:27-42: the bond operator is the expression of j1j2.py:42-46, its colour is 1. NetKet's GraphOperator acts on the values of
    the two end points of an edge, also if they are one site. *)
Definition total_spin_get_conn (shape : list nat) : get_conn_fun :=
  graph_get_conn (graph_terms (self_edges shape) [(1, interaction)]).

(** j1j2_2d_exact_4.py:83 with netket_operator.py:7-23; [random_state] is the state drawn in netket_operator.py:39. *)
Definition new_total_spin (shape : list nat) (random_state : list Z) : res (get_conn_fun * netket_wrapper) :=
  if fold_right Nat.mul 1 shape =? graph_sites (self_edges shape) then
    let g := total_spin_get_conn shape in Ok (g, netket_init g random_state None None)
  else Err AssertionError.

(** The wrapper as an operator (netket_operator.py:46-66, 105-108); it declares no number of connections (netket_operator.py:13). *)
Definition total_spin_operator (g : get_conn_fun) (W : netket_wrapper) : operator := netket_operator g W None.
