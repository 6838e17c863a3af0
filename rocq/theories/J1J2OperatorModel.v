(** Model of operators/j1j2.py:37-66: the two bond operators, the operator NetKet builds from them, and its wrapper. *)
From Coq Require Import List ZArith Reals Bool Arith.
From Verif Require Import Base Cplx J1J2Model NetketModel ObservableModel ExactModel.
Import ListNotations.

Definition matrix := list (list C).

(** j1j2.py:42-44. *)
Definition sigmaz : matrix := [[C1; C0]; [C0; Copp C1]].
Definition sigmax : matrix := [[C0; C1]; [C1; C0]].
Definition sigmay : matrix := [[C0; Copp (0%R, 1%R)]; [(0%R, 1%R); C0]].

(** numpy.kron of two matrices: the blocks of the first row of [a] next to each other, then those of the second row, and so on. *)
Definition kron (a b : matrix) : matrix :=
  flat_map (fun ra => map (fun rb => flat_map (fun x => map (Cmult x) rb) ra) b) a.
Definition matrix_add (a b : matrix) : matrix := map2 (map2 Cplus) a b.
Definition matrix_scale (r : R) (a : matrix) : matrix := map (map (Cscale r)) a.

(** j1j2.py:46. *)
Definition interaction : matrix :=
  matrix_add (matrix_add (kron sigmaz sigmaz) (kron sigmax sigmax)) (kron sigmay sigmay).

(** j1j2.py:12, 48-53: the operators with their colours ([bondops] and [bondops_colors] together). *)
Definition bond_operators (j2 : R) : list (nat * matrix) :=
  let J1 := 1%R in [(1, matrix_scale J1 interaction); (2, matrix_scale j2 interaction)].

(** NetKet (not part of the repository), GraphOperator: every edge carries the bond operators of its colour. *)
Definition graph_terms (edges : list edge) (ops : list (nat * matrix)) : list (nat * nat * matrix) :=
  flat_map (fun e => let '(i, j, c) := e in
                     flat_map (fun o => if fst o =? c then [(i, j, snd o)] else []) ops) edges.

(** NetKet: the local states of spin 1/2 are -1 and 1, those of two sites are numbered with the first site as the leading digit. *)
Definition local_states : list Z := [-1; 1]%Z.
Definition state_number (a b : Z) : nat := (if (a =? -1)%Z then 0 else 1) * 2 + (if (b =? -1)%Z then 0 else 1).
Definition element (m : matrix) (k l : nat) : C := nth l (nth k m []) C0.

(** NetKet: the other configurations a term connects a configuration to. NetKet leaves out elements below 10^-6; here exactly those that are 0. *)
Definition term_conn (s : list Z) (t : nat * nat * matrix) : list (list Z * C) :=
  let '(i, j, m) := t in
  let k := state_number (nth i s 0%Z) (nth j s 0%Z) in
  flat_map (fun l => if (l =? k) || is_zero (element m k l) then []
                     else [(upd (upd s i (nth (l / 2) local_states 0%Z)) j (nth (l mod 2) local_states 0%Z), element m k l)])
    (range 4).
(** NetKet: get_conn reports the configuration itself with the sum of the diagonal elements, then the connections term by term. *)
Definition graph_get_conn (terms : list (nat * nat * matrix)) : get_conn_fun := fun s =>
  (s, Csum (fun t => let '(i, j, m) := t in
                     let k := state_number (nth i s 0%Z) (nth j s 0%Z) in element m k k) terms)
  :: flat_map (term_conn s) terms.

(** NetKet: the sites of CustomGraph are numbered up to the largest one in the list of edges. *)
Definition graph_sites (edges : list edge) : nat :=
  fold_right (fun e n => let '(i, j, _) := e in Nat.max (Nat.max (S i) (S j)) n) 0 edges.

(** j1j2.py:7-55. The restriction of the Hilbert space to total_sz 0 (lines 38-41) only changes the random states of NetKet. *)
Definition j1j2_get_conn (L1 L2 : nat) (j2 : R) (pbc : bool) : get_conn_fun :=
  graph_get_conn (graph_terms (edge_colors L1 L2 pbc) (bond_operators j2)).

(** j1j2.py:58-66 with netket_operator.py:7-23; the last check is the assertion of netket_operator.py:9 on the number of sites (NetKet itself
    already rejects an empty list of edges). *)
Definition new_j1j2 (shape : list nat) (j2 : R) (pbc : bool) : res (get_conn_fun * netket_wrapper) :=
  do max_conn <- j1j2_max_conn shape;
  match shape with
  | [L1; L2] =>
      if fold_right Nat.mul 1 shape =? graph_sites (edge_colors L1 L2 pbc) then
        let g := j1j2_get_conn L1 L2 j2 pbc in Ok (g, netket_init g [] (Some max_conn) (Some true))
      else Err AssertionError
  | _ => Err AssertionError
  end.

(** The wrapper as an operator: netket_operator.py:46-66, 105-108; the declared number of connections is netket_operator.py:13. *)
Definition netket_operator (g : get_conn_fun) (W : netket_wrapper) (declared : option nat) : operator :=
  {| find_conn := fun samples => do r <- new_netket_find_conn g W samples;
                                 let '(conn, mel, use) := snd r in Ok {| conns := conn; mels := mel; uses := use |};
     declared_max := declared |}.
Definition j1j2_operator (shape : list nat) (g : get_conn_fun) (W : netket_wrapper) : operator :=
  netket_operator g W (match j1j2_max_conn shape with Ok m => Some m | Err _ => None end).
