(** Model of the path for the old NetKet interface (operators/netket_operator.py), in full. *)
From Coq Require Import List ZArith Reals Bool Arith.
From Verif Require Import Base Cplx NetketModel.
Import ListNotations.

(** get_conn of the old interface: the matrix elements and, for every connection, the sites to change and their new values. *)
Definition old_get_conn := list Z -> list C * list (list nat) * list (list Z).

(** netket_operator.py:87-88: a site outside of the state is an IndexError (negative sites are left out). *)
Fixpoint change (conn : list Z) (changes : list (nat * Z)) : res (list Z) :=
  match changes with
  | [] => Ok conn
  | (site, value) :: t => if site <? length conn then change (upd conn site value) t else Err IndexError
  end.

(** netket_operator.py:83-89 for one sample: [column] is all_conn[:, i]; the index of the last connection without changes. The reshapes are left out (row-major
    lists). *)
Fixpoint fill (flat_input : list Z) (j : nat) (l : list (list nat * list Z)) (column : list (list Z)) (self_conn_idx : option nat) : res (list (list Z) * option nat) :=
  match l with
  | [] => Ok (column, self_conn_idx)
  | (to_change_idx, to_change_vals) :: t =>
      do conn <- change flat_input (combine to_change_idx to_change_vals) ;
      if j <? length column then fill flat_input (S j) t (upd column j conn) (match to_change_idx with [] => Some j | _ => self_conn_idx end)
      else Err IndexError
  end.

(** netket_operator.py:92-94: temp_conn is a view of row 0 of the whole array, not a copy and not of one sample. So row 0 of every sample becomes its row k, and then
    row k is assigned from row 0, which is the same by now. *)
Definition exchange_rows (k : nat) (all_conn : list (list (list Z))) : list (list (list Z)) :=
  let first := map (fun column => upd column 0 (nth k column [])) all_conn in
  map (fun column => upd column k (nth 0 column [])) first.
(** netket_operator.py:95-97: single numbers, so tmp_mel is a copy. *)
Definition exchange_elements (k : nat) (column : list C) : list C := upd (upd column 0 (nth k column C0)) k (nth 0 column C0).

(** netket_operator.py:72-97, the samples from number [i] on; all_conn[:, i] and batch_mel[:, i] are kept as one list per sample. [inl m] stands for line 79, the
    restart with the estimate [m]. [line_74] tells whether line 74 is there, which unpacks the three results into two names. *)
Fixpoint old_loop (line_74 : bool) (get_conn : old_get_conn) (est i : nat) (samples : list (list Z)) (all_conn : list (list (list Z))) (batch_mel : list (list C))
  : res (nat + list (list (list Z)) * list (list C)) :=
  match samples with
  | [] => Ok (inr (all_conn, batch_mel))
  | flat_input :: rest =>
      if line_74 then Err ValueError
      else
        let '(sample_mel, idx_list, vals_list) := get_conn flat_input in
        if est <? length sample_mel then Ok (inl (length sample_mel))
        else
          let mel := sample_mel ++ repeat C0 (est - length sample_mel) in
          do r <- fill flat_input 0 (combine idx_list vals_list) (nth i all_conn []) None ;
          let all_conn := upd all_conn i (fst r) in
          match snd r with
          | None => Err AssertionError
          | Some 0 => old_loop line_74 get_conn est (S i) rest all_conn (upd batch_mel i mel)
          | Some k => old_loop line_74 get_conn est (S i) rest (exchange_rows k all_conn) (upd batch_mel i (exchange_elements k mel))
          end
  end.

(** netket_operator.py:68-103. [fuel] bounds the restarts; there are never more of them than samples (else RecursionError). The arrays are returned as in [new_netket_find_conn]: by
    connection, then by sample. *)
Fixpoint old_find_conn_fuel (fuel : nat) (line_74 : bool) (get_conn : old_get_conn) (W : netket_wrapper) (sample : list (list Z))
  : res (netket_wrapper * (list (list (list Z)) * list (list C) * list (list bool))) :=
  match fuel with
  | 0 => Err GenericException
  | S fuel =>
      let est := estimated W in
      do r <- old_loop line_74 get_conn est 0 sample (map (fun s : list Z => repeat (repeat 0%Z (length s)) est) sample) (map (fun _ => repeat C0 est) sample) ;
      match r with
      | inl m => old_find_conn_fuel fuel line_74 get_conn {| estimated := m; should_calc_unused := should_calc_unused W |} sample
      | inr (conns, mels) =>
          let all_conn := map (fun k => map (fun column => nth k column []) conns) (range est) in
          let batch_mel := map (fun k => map (fun column => nth k column C0) mels) (range est) in
          let use := if should_calc_unused W then map (map (fun c => negb (is_zero c))) batch_mel else repeat (repeat true (length sample)) est in
          let use := upd use 0 (repeat true (length sample)) in
          Ok (W, (all_conn, batch_mel, use))
      end
  end.
Definition old_find_conn (line_74 : bool) (get_conn : old_get_conn) (W : netket_wrapper) (sample : list (list Z)) :=
  old_find_conn_fuel (S (length sample)) line_74 get_conn W sample.
