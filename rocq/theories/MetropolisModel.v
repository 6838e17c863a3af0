(** Model of samplers/metropolis_hastings.py. Configurations are flat; floating point numbers are real (complex) numbers, so
    the test for non finite values (lines 103-105) never fires. Random numbers are inputs: per sweep one draw for each
    chain's proposal and one uniform number in [0, 1) for each chain's acceptance test. *)
From Coq Require Import List ZArith Reals Bool Arith.
From Verif Require Import Base Cplx ObservableModel ExactModel.
Import ListNotations.

(** The chains and the cached log amplitudes (self.sample, self.sample_machine_values). *)
Record chains := { sample : list (list Z); sample_machine_values : list C }.

(** [old[mask] = new[mask]] along the first axis. *)
Fixpoint masked_assign {A} (mask : list bool) (new old : list A) : list A :=
  match mask, new, old with
  | m :: mask', a :: new', b :: old' => (if m then a else b) :: masked_assign mask' new' old'
  | _, _, _ => old
  end.

(** metropolis_hastings.py:39-40 [machine_updated]. *)
Definition machine_updated (log_psi : list Z -> C) (st : chains) : chains :=
  {| sample := sample st; sample_machine_values := map log_psi (sample st) |}.

(** metropolis_hastings.py:106-110 for one chain: the acceptance test. (The arrays are complex, the comparison is
    lexicographic; all imaginary parts are zero.) *)
Definition symmetric_accepts (candidate_value sample_value : C) (u : R) : bool :=
  if Rlt_dec u (exp (Rmin ((Re candidate_value - Re sample_value) * 2) 0)) then true else false.

(** metropolis_hastings.py:99-113 [_sweep] of the symmetric samplers; [candidate] is [_next_candidates] for one chain. *)
Definition symmetric_sweep {D} (candidate : list Z -> D -> list Z) (log_psi : list Z -> C) (input : list D * list R) (st : chains)
  : res (chains * nat) :=
  let candidates := map2 candidate (sample st) (fst input) in
  let candidates_machine_values := map log_psi candidates in
  let accepts := map2 (fun cs u => symmetric_accepts (fst cs) (snd cs) u)
                   (combine candidates_machine_values (sample_machine_values st)) (snd input) in
  Ok ({| sample := masked_assign accepts candidates (sample st);
         sample_machine_values := masked_assign accepts candidates_machine_values (sample_machine_values st) |},
      count_true accepts).

(** Position of an index in a flattened array of the given shape. *)
Fixpoint ravel (shape idx : list nat) : nat :=
  match shape, idx with
  | _ :: shape', i :: idx' => i * fold_right Nat.mul 1 shape' + ravel shape' idx'
  | _, _ => 0
  end.

(** metropolis_hastings.py:122-127: one randomly chosen spin is flipped. *)
Definition local_candidate (shape : list nat) (s : list Z) (idx : list nat) : list Z :=
  let p := ravel shape idx in upd s p (nth p s 0 * -1)%Z.

(** metropolis_hastings.py:133-145: a site and, per dimension, a move by -1, 0 or 1 around the torus; the two spins are
    exchanged. *)
Definition exchange_candidate (shape : list nat) (s : list Z) (draw : list (nat * Z)) : list Z :=
  let p := ravel shape (map fst draw) in
  let q := ravel shape (map2 (fun dim_size im => Z.to_nat ((Z.of_nat (fst im) + snd im) mod Z.of_nat dim_size)) shape draw) in
  let temp := nth p s 0%Z in
  upd (upd s p (nth q s 0%Z)) q temp.

(** metropolis_hastings.py:151-152, 163-164: the candidate is drawn as a whole. *)
Definition global_candidate (s : list Z) (draw : list Z) : list Z := draw.

(** metropolis_hastings.py:176-179 for one chain: a used connection; numpy.random.choice(0) raises. *)
Definition used_connections (c : connections) (i : nat) : list (list Z) :=
  select (at_sample i false (uses c)) (at_sample i [] (conns c)).
Definition hamiltonian_candidate (c : connections) (i draw : nat) : res (list Z) :=
  match used_connections c i with
  | [] => Err ValueError
  | l => match nth_error l draw with Some s => Ok s | None => Err IndexError end
  end.

(** metropolis_hastings.py:183-187 for one chain. A candidate without connections makes the ratio infinite: accepted. *)
Definition hamiltonian_accepts (num_of_conn candidate_num_of_conn : nat) (candidate_value sample_value : C) (u : R) : bool :=
  if candidate_num_of_conn =? 0 then true
  else if Rlt_dec u (exp ((Re candidate_value - Re sample_value) * 2 + ln (INR num_of_conn / INR candidate_num_of_conn)))
       then true else false.

Fixpoint candidates_loop (c : connections) (i : nat) (draws : list nat) : res (list (list Z)) :=
  match draws with
  | [] => Ok []
  | d :: t => do s <- hamiltonian_candidate c i d; do r <- candidates_loop c (S i) t; Ok (s :: r)
  end.

(** metropolis_hastings.py:173-190 [_sweep] of the Hamiltonian sampler. The number of connections of the samples is counted
    before find_conn is called again (which may overwrite the arrays it returned). *)
Definition hamiltonian_sweep (op : operator) (log_psi : list Z -> C) (input : list nat * list R) (st : chains) : res (chains * nat) :=
  let n := length (sample st) in
  do c <- find_conn op (sample st);
  let num_of_conn := map (fun i => count_true (at_sample i false (uses c))) (range n) in
  do candidates <- candidates_loop c 0 (fst input);
  do c' <- find_conn op candidates;
  let candidates_num_of_conn := map (fun i => count_true (at_sample i false (uses c'))) (range n) in
  let candidates_machine_values := map log_psi candidates in
  let accepts := map2 (fun x u => hamiltonian_accepts (fst (fst x)) (snd (fst x)) (fst (snd x)) (snd (snd x)) u)
                   (combine (combine num_of_conn candidates_num_of_conn) (combine candidates_machine_values (sample_machine_values st)))
                   (snd input) in
  Ok ({| sample := masked_assign accepts candidates (sample st);
         sample_machine_values := masked_assign accepts candidates_machine_values (sample_machine_values st) |},
      count_true accepts).

(** metropolis_hastings.py:26-27: the constructor's check. *)
Definition check_chains (batch_size num_of_chains : nat) : res unit :=
  if num_of_chains =? 0 then Err ZeroDivisionError
  else if batch_size mod num_of_chains =? 0 then Ok tt else Err GenericException.

(** [k] sweeps; [draws] gives the random input of each sweep by its number, [t] is the number of the first one. *)
Fixpoint run_sweeps {I} (sweep : I -> chains -> res (chains * nat)) (draws : nat -> I) (t k : nat) (st : chains) (accepted : nat)
  : res (chains * nat) :=
  match k with
  | O => Ok (st, accepted)
  | S k' => do r <- sweep (draws t) st; run_sweeps sweep draws (S t) k' (fst r) (accepted + snd r)
  end.

(** metropolis_hastings.py:46-49 [warn_up]. *)
Fixpoint warn_up {I} (sweep : I -> chains -> res (chains * nat)) (draws : nat -> I) (unused iterations t : nat) (st : chains) : res (chains * nat) :=
  match iterations with
  | O => Ok (st, t)
  | S k => do r <- run_sweeps sweep draws t unused st 0; warn_up sweep draws unused k (t + unused) (fst r)
  end.

(** metropolis_hastings.py:63: [batch_divided_to_chains[:, i] = sample], rows of the flat batch. *)
Definition store_samples (per_chain i : nat) (samples batch : list (list Z)) : list (list Z) :=
  fold_left (fun b c => upd b (c * per_chain + i) (nth c samples [])) (range (length samples)) batch.

(** metropolis_hastings.py:60-63: the loop over the samples of a chain. *)
Fixpoint sample_loop {I} (sweep : I -> chains -> res (chains * nat)) (draws : nat -> I) (unused per_chain steps i t : nat) (st : chains)
    (accepted : nat) (batch : list (list Z)) : res (chains * nat * nat * list (list Z)) :=
  match steps with
  | O => Ok (st, t, accepted, batch)
  | S k =>
      do r <- run_sweeps sweep draws t (unused + 1) st accepted;
      sample_loop sweep draws unused per_chain k (S i) (t + (unused + 1)) (fst r) (snd r)
        (store_samples per_chain i (sample (fst r)) batch)
  end.

Record next_result := { next_chains : chains; next_draw : nat; next_batch : list (list Z); acceptance_ratio : R }.

(** metropolis_hastings.py:51-65 [__next__]. numpy.empty is modelled by empty rows (all are overwritten). *)
Definition mh_next {I} (log_psi : list Z -> C) (sweep : I -> chains -> res (chains * nat)) (draws : nat -> I)
    (batch_size num_of_chains unused discard_ratio t : nat) (st : chains) : res next_result :=
  do _ok <- check_chains batch_size num_of_chains;
  let per_chain := batch_size / num_of_chains in
  let st := machine_updated log_psi st in
  do w <- (if 0 <? discard_ratio then warn_up sweep draws unused (per_chain / discard_ratio) t st else Ok (st, t));
  do r <- sample_loop sweep draws unused per_chain per_chain 0 (snd w) (fst w) 0 (repeat [] batch_size);
  let '(st', t', accepted, batch) := r in
  if batch_size =? 0 then Err ZeroDivisionError
  else Ok {| next_chains := st'; next_draw := t'; next_batch := batch;
             acceptance_ratio := (INR accepted / INR (batch_size * (unused + 1)))%R |}.
