(** Model of optimization/exact_variational.py and samplers/exact_sampler.py. Floating point numbers are real (complex)
    numbers, [fsum] is the exact sum. Configurations are flat; arrays indexed (connection, state) are stored per state. *)
From Coq Require Import List ZArith Reals Bool Arith.
From Verif Require Import Base Cplx ExactUtilsModel IsingModel HeisenbergModel AutoregressiveModel ObservableModel.
Import ListNotations.

(** An operator: find_conn on a batch and max_number_of_local_connections (None if unknown). *)
Record operator := { find_conn : list (list Z) -> res connections; declared_max : option nat }.

(** [for i in range(0, n, batch): out[i:i+batch] = f(i)], the shape of the loops in lines 55-63, 76-89 and 133-134. *)
Fixpoint batch_loop {A} (f : nat -> res (list A)) (batch steps i : nat) (out : list A) : res (list A) :=
  match steps with
  | O => Ok out
  | S k => do v <- f i; do out' <- assign_slice out i batch v; batch_loop f batch k (i + batch) out'
  end.

(** exact_variational.py:65-73 [calculate_max_number_of_local_connections]. *)
Fixpoint max_connections_loop (op : operator) (states : list (list Z)) (batch steps i acc : nat) : res nat :=
  match steps with
  | O => Ok acc
  | S k =>
      do c <- find_conn op (slice states i (i + batch));
      let number_of_local_connections := length (conns c) in
      max_connections_loop op states batch k (i + batch)
        (if acc <? number_of_local_connections then number_of_local_connections else acc)
  end.

(** exact_variational.py:58-63, one state of a batch: the connections as 0/1 strings, [(conn + 1) // 2], decoded to
    indices, with their matrix elements; rows beyond those returned keep the initial zeros, i.e. index 0 and element 0. *)
Definition padded_column (n_spins rows : nat) (c : connections) (b : nat) : list (Z * C) :=
  let missing := rows - length (conns c) in
  let local_connections := map (map (fun x => ((x + 1) / 2)%Z)) (at_sample b [] (conns c)) ++ repeat (repeat 0%Z n_spins) missing in
  combine (binary_array_to_decimal_array n_spins local_connections None) (at_sample b C0 (mels c) ++ repeat C0 missing).

(** The assignments raise when find_conn returns more connections than there are rows. *)
Definition batch_columns (n_spins rows batch : nat) (c : connections) : res (list (list (Z * C))) :=
  if rows <? length (conns c) then Err ShapeError else Ok (map (padded_column n_spins rows c) (range batch)).

(** The ExactVariational object together with its energy observable. [updates] counts the calls of machine_updated (it is
    not in the code). *)
Record exact := {
  number_of_spins : nat; batch_size : nat; states : list (list Z); columns : list (list (Z * C));
  wave_function : list C; norm_squared : R; probs : list R;
  energies : list C; naive_energies : list C; current_energy : C; current_variance : R;
  grad_coefficients : list C; updates : nat
}.
Definition num_of_states (n_spins : nat) : nat := (2 ^ n_spins)%nat.

(** exact_variational.py:124-130 [_set_batch_size]. *)
Definition set_batch_size (num_of_states batch : nat) : res nat :=
  let batch := if num_of_states <? batch then num_of_states else batch in
  if batch =? 0 then Err ZeroDivisionError
  else if num_of_states mod batch =? 0 then Ok batch else Err GenericException.

(** exact_variational.py:13-73, 100-122: construction. *)
Definition new_exact (n_spins : nat) (op : operator) (batch : nat) : res exact :=
  let n := num_of_states n_spins in
  let states := decimal_array_to_binary_array (arange 0 n) n_spins false None in
  do batch <- set_batch_size n batch;
  do rows <- match declared_max op with
             | Some k => Ok k
             | None => max_connections_loop op states batch (range_steps n batch) 0 0
             end;
  do columns <- batch_loop (fun i => do c <- find_conn op (slice states i (i + batch)); batch_columns n_spins rows batch c)
                  batch (range_steps n batch) 0 (repeat (repeat (0%Z, C0) rows) n);
  Ok {| number_of_spins := n_spins; batch_size := batch; states := states; columns := columns;
        wave_function := repeat C0 n; norm_squared := 0%R; probs := repeat 0%R n;
        energies := repeat C0 n; naive_energies := repeat C0 n; current_energy := C0; current_variance := 0%R;
        grad_coefficients := repeat C0 n; updates := 0 |}.

(** exact_variational.py:132-139 [_update_wave_function_arrays]: wave function, norm, probabilities. *)
Definition update_wave_function_arrays (log_psi : list Z -> C) (e : exact) : res (list C * R * list R) :=
  let n := num_of_states (number_of_spins e) in
  do w <- batch_loop (fun i => Ok (map log_psi (slice (states e) i (i + batch_size e))))
            (batch_size e) (range_steps n (batch_size e)) 0 (wave_function e);
  let psi_squared := map (Cscale 2) w in
  do log_norm <- complex_norm_log_fsum_exp psi_squared;
  Ok (w, exp log_norm, map (fun z => exp (Re z - log_norm)%R) psi_squared).

(** exact_variational.py:77-89, one state: the energy contribution and the naive local energy. *)
Definition state_energy (wave : list C) (norm : R) (column : list (Z * C)) : res (C * C) :=
  do log_values <- mapM (fun ic => np_index wave (fst ic)) column;
  match log_values with
  | [] => Err IndexError
  | lv0 :: _ =>
      let energy := Csum (fun z => z) (map2 (fun ic lv => Cmult (Cconj (snd ic)) (Cexp (Cconj lv + lv0)%C)) column log_values) in
      let naive := Csum (fun z => z) (map2 (fun ic lv => Cmult (snd ic) (Cexp (lv - lv0)%C)) column log_values) in
      Ok (Cscale (/ norm) energy, naive)
  end.

(** exact_variational.py:75-95 [update_local_energy] (both arrays are written in one loop). *)
Definition update_local_energy (wave : list C) (norm : R) (probs : list R) (e : exact)
  : res (list C * list C * C * R) :=
  let n := num_of_states (number_of_spins e) in
  do both <- batch_loop (fun i => mapM (state_energy wave norm) (slice (columns e) i (i + batch_size e)))
               (batch_size e) (range_steps n (batch_size e)) 0 (combine (energies e) (naive_energies e));
  let energies := map fst both in
  let naive := map snd both in
  let current := Csum (fun z => z) energies in
  let squared := map (fun z => (Re (z - current)%C * Re (z - current)%C)%R) naive in
  Ok (energies, naive, current, Rsum (fun x => x) (map2 Rmult squared probs)).

(** exact_variational.py:141-152 [_update_local_energy], [machine_updated]. *)
Definition machine_updated (log_psi : list Z -> C) (e : exact) : res exact :=
  do wnp <- update_wave_function_arrays log_psi e;
  let '(w, norm, p) := wnp in
  do ence <- update_local_energy w norm p e;
  let '(en, naive, current, var) := ence in
  Ok {| number_of_spins := number_of_spins e; batch_size := batch_size e; states := states e; columns := columns e;
        wave_function := w; norm_squared := norm; probs := p;
        energies := en; naive_energies := naive; current_energy := current; current_variance := var;
        grad_coefficients := map2 (fun a q => (a - RtoC q * current)%C) en p; updates := S (updates e) |}.

(** exact_variational.py:154-158 [to_generator]: the object and the position in the inner loop; a position at the end
    starts the next cycle. [log_psi] is the machine at the time of the call. The yielded coefficients are read at
    that time (the code yields views, which the next machine_updated overwrites). *)
Definition generator_next (log_psi : list Z -> C) (g : exact * nat) : res (exact * nat * (list (list Z) * list C)) :=
  let '(e, i) := g in
  let n := num_of_states (number_of_spins e) in
  do e' <- (if i <? n then Ok e else machine_updated log_psi e);
  let i' := if i <? n then i else 0 in
  Ok (e', i' + batch_size e,
      (slice (states e') i' (i' + batch_size e), slice (grad_coefficients e') i' (i' + batch_size e))).
Definition start_generator (e : exact) : exact * nat := (e, num_of_states (number_of_spins e)).

(** [k] calls of next; the machine may change from call to call. *)
Fixpoint generator_run (machine : nat -> list Z -> C) (g : exact * nat) (t k : nat)
  : res (exact * nat * list (list (list Z) * list C)) :=
  match k with
  | O => Ok (g, [])
  | S k' =>
      do r <- generator_next (machine t) g;
      let '(g', y) := r in
      do rest <- generator_run machine g' (S t) k';
      Ok (fst rest, y :: snd rest)
  end.

(** numpy.random.choice(n, p=p): checks, then for a uniform draw [u] in [0, 1) the number of entries <= u of the
    normalised cumulative sums (searchsorted on the right). The tolerance is the square root of the float64 epsilon. *)
Definition choice_tolerance : R := (/ 2 ^ 26)%R.
Fixpoint cumsum (acc : R) (p : list R) : list R :=
  match p with [] => [] | x :: t => (acc + x)%R :: cumsum (acc + x)%R t end.
Definition choice_index (p : list R) (u : R) : nat :=
  let total := Rsum (fun x => x) p in
  length (filter (fun c => if Rle_dec c u then true else false) (map (fun c => (c / total)%R) (cumsum 0 p))).
Definition np_choice (n : nat) (p : list R) (us : list R) : res (list nat) :=
  if negb (length p =? n) then Err ValueError
  else if forallb (fun x => if Rle_dec 0 x then true else false) p then
    if Rle_dec (Rabs (Rsum (fun x => x) p - 1)) choice_tolerance then Ok (map (choice_index p) us) else Err ValueError
  else Err ValueError.

(** exact_sampler.py:14-20 [ExactSampler.__next__]; [us] are the uniform draws, one per sample. *)
Definition exact_sampler_next (e : exact) (us : list R) : res (list (list Z)) :=
  do decimal_batch <- np_choice (num_of_states (number_of_spins e)) (probs e) us;
  Ok (decimal_array_to_binary_array (map Z.of_nat decimal_batch) (number_of_spins e) false None).

(** exact_sampler.py:26-38 [WaveFunctionSampler]; the final reshape needs the number of bits to be the number of spins
    ([n_spins] is the product of input_size), and accepts any number for an empty batch. *)
Definition wave_function_sampler_next (vector : list C) (n_spins : nat) (us : list R) : res (list (list Z)) :=
  let log_probs := map (fun z => (Re z * 2)%R) vector in
  let probs := map exp log_probs in
  do decimal_batch <- np_choice (length probs) probs us;
  let num_of_bits := Nat.log2 (length probs) in
  let binary_batch := decimal_array_to_binary_array (map Z.of_nat decimal_batch) num_of_bits false None in
  if length us * num_of_bits =? length us * n_spins then Ok binary_batch else Err ShapeError.

(** operators/ising.py and operators/heisenberg.py seen as operators. For Heisenberg [H] is the object in the state in which
    it is passed; that later calls see a mutated object makes no difference to the results (property C22). *)
Definition ising_operator (J h : R) (pbc : bool) (shape : list nat) : operator :=
  {| find_conn := fun samples => do r <- ising_find_conn J (PyFloat h) pbc shape samples;
                                 let '(conn, mel, use) := r in Ok (of_real_arrays conn mel use);
     declared_max := Some (ising_max_conn shape) |}.
Definition heisenberg_operator (H : heisenberg) : operator :=
  {| find_conn := fun samples => do r <- heisenberg_find_conn H samples;
                                 Ok (of_samples (ham_num_conn H)
                                       (map (fun b => (all_conn b, all_mel b, all_use b)) (read_result (fst r) (snd r))));
     declared_max := Some (ham_num_conn H) |}.
