(** Model of samplers/metropolis_hastings.py:170-195 with an operator that remembers: the wrapper of operators/netket_operator.py raises its number of
    connections from call to call. *)
From Coq Require Import List ZArith Reals Bool Arith.
From Verif Require Import Base Cplx ObservableModel ExactModel NetketModel MetropolisModel.
Import ListNotations.

(** metropolis_hastings.py:173-190 [_sweep] with netket_operator.py:46-66 [new_netket_find_conn]: both calls change the wrapper. *)
Definition netket_sweep (g : get_conn_fun) (log_psi : list Z -> C) (input : list nat * list R) (W : netket_wrapper) (st : chains)
  : res (netket_wrapper * (chains * nat)) :=
  let n := length (sample st) in
  do r <- new_netket_find_conn g W (sample st);
  let '(conn, mel, use) := snd r in
  let c := {| conns := conn; mels := mel; uses := use |} in
  let num_of_conn := map (fun i => count_true (at_sample i false (uses c))) (range n) in
  do candidates <- candidates_loop c 0 (fst input);
  do r' <- new_netket_find_conn g (fst r) candidates;
  let '(conn', mel', use') := snd r' in
  let candidates_num_of_conn := map (fun i => count_true (at_sample i false use')) (range n) in
  let candidates_machine_values := map log_psi candidates in
  let accepts := map2 (fun x u => hamiltonian_accepts (fst (fst x)) (snd (fst x)) (fst (snd x)) (snd (snd x)) u)
                   (combine (combine num_of_conn candidates_num_of_conn) (combine candidates_machine_values (sample_machine_values st)))
                   (snd input) in
  Ok (fst r', ({| sample := masked_assign accepts candidates (sample st);
                  sample_machine_values := masked_assign accepts candidates_machine_values (sample_machine_values st) |},
               count_true accepts)).

(** metropolis_hastings.py:61-62: sweeps in a row, [draws t] is the random input of sweep number t. *)
Fixpoint netket_run (g : get_conn_fun) (log_psi : list Z -> C) (draws : nat -> list nat * list R) (t k : nat) (W : netket_wrapper) (st : chains) (accepted : nat)
  : res (netket_wrapper * (chains * nat)) :=
  match k with
  | O => Ok (W, (st, accepted))
  | S k' => do r <- netket_sweep g log_psi (draws t) W st;
            netket_run g log_psi draws (S t) k' (fst r) (fst (snd r)) (accepted + snd (snd r))
  end.
