(** Model of operators/netket_operator.py (the wrapper only; NetKet itself is a parameter). *)
From Coq Require Import List ZArith Reals Bool Arith.
From Verif Require Import Base Cplx.
Import ListNotations.

(** A NetKet operator of the newer interface: [get_conn] maps a flat configuration to its connected
    configurations and matrix elements (as pairs). *)
Definition get_conn_fun := list Z -> list (list Z * C).

(** The wrapper: the attributes that matter for find_conn. *)
Record netket_wrapper := { estimated : nat; should_calc_unused : bool }.

(** netket_operator.py:8-22 [__init__] on the newer interface. [random_state] is the state drawn by
    hilbert.random_vals when no maximum is given. *)
Definition netket_init (get_conn : get_conn_fun) (random_state : list Z)
    (max_conn : option nat) (unused : option bool) : netket_wrapper :=
  match max_conn with
  | None => {| estimated := length (get_conn random_state);
               should_calc_unused := match unused with None => false | Some u => u end |}
  | Some m => {| estimated := m;
                 should_calc_unused := match unused with None => true | Some u => u end |}
  end.

Definition is_zero (c : C) : bool :=
  if Req_EM_T (fst c) 0 then if Req_EM_T (snd c) 0 then true else false else false.

(** netket_operator.py:54: the first connection must be the input; no connection at all is an IndexError. *)
Definition check_first (s : list Z) (l : list (list Z * C)) : res unit :=
  match l with
  | [] => Err IndexError
  | (c, _) :: _ => if list_eq_dec Z.eq_dec c s then Ok tt else Err AssertionError
  end.

(** netket_operator.py:49-54. *)
Fixpoint collect (get_conn : get_conn_fun) (sample : list (list Z)) : res (list (list (list Z * C))) :=
  match sample with
  | [] => Ok []
  | s :: rest =>
      let l := get_conn s in
      do _ok <- check_first s l;
      do ls <- collect get_conn rest;
      Ok (l :: ls)
  end.

(** netket_operator.py:55: numpy.max of an empty list raises ValueError. *)
Definition numpy_max (l : list nat) : res nat :=
  match l with [] => Err ValueError | _ => Ok (fold_right Nat.max 0 l) end.

(** netket_operator.py:46-66 [new_netket_find_conn]: arrays indexed by connection, then by sample; an array of
    zeros whose leading entries are assigned is written as a lookup with default zero. *)
Definition new_netket_find_conn (get_conn : get_conn_fun) (W : netket_wrapper) (sample : list (list Z))
  : res (netket_wrapper * (list (list (list Z)) * list (list C) * list (list bool))) :=
  do lists <- collect get_conn sample;
  do longest <- numpy_max (map (@length _) lists);
  let est := Nat.max longest (estimated W) in
  let zeros := map (fun s : list Z => repeat 0%Z (length s)) sample in
  let all_conn := map (fun k => map2 (fun z l => nth k (map fst l) z) zeros lists) (range est) in
  let batch_mel := map (fun k => map (fun l => nth k (map snd l) C0) lists) (range est) in
  let use := if should_calc_unused W then map (map (fun c => negb (is_zero c))) batch_mel
             else repeat (repeat true (length sample)) est in
  let use := upd use 0 (repeat true (length sample)) in
  Ok ({| estimated := est; should_calc_unused := should_calc_unused W |}, (all_conn, batch_mel, use)).

(** netket_operator.py:74, old interface: get_conn returns three objects, which are unpacked into two names.
    The rest of the loop body (lines 75-97) is only reached if this succeeds; see NetketOldModel.v. *)
Definition unpack_two {A} (objects : list A) : res (A * A) :=
  match objects with [a; b] => Ok (a, b) | _ => Err ValueError end.
Definition old_netket_find_conn {A} (get_conn_old : list Z -> A * A * A) (sample : list (list Z)) : res unit :=
  match sample with
  | [] => Ok tt
  | s :: _ => let '(mel, idx, vals) := get_conn_old s in
              do _two <- unpack_two [mel; idx; vals]; Ok tt
  end.

(** A sequence of calls (netket_operator.py:105-108, newer interface). *)
Fixpoint netket_calls (get_conn : get_conn_fun) (W : netket_wrapper) (batches : list (list (list Z)))
  : res netket_wrapper :=
  match batches with
  | [] => Ok W
  | b :: t => do r <- new_netket_find_conn get_conn W b; netket_calls get_conn (fst r) t
  end.
