(** Model of operators/heisenberg.py. All numbers produced are integers and are modelled in Z. *)
From Coq Require Import List ZArith Bool Arith QArith.
From Verif Require Import Base.
Import ListNotations.
Local Open Scope Z_scope.

(** heisenberg.py:10-13. *)
Definition off_diag (unitary_rotation : bool) : Z := if unitary_rotation then -2 else 2.

(** heisenberg.py:18. *)
Definition max_number_of_local_connections (shape : list nat) : nat :=
  (fold_right Nat.mul 1 shape * length shape + 1)%nat.

(** The buffers of one [HeisenbergFindConn] restricted to one sample of the batch: contents of all_conn,
    all_mel, all_use_conn, indexed by connection. Slot k of sample_conn / mel / use_conn is entry k+1
    (views, lines 63-67), k = (i * n1 + j) * dim + dim_idx. A sample is a row-major list. *)
Record buffers := { all_conn : list (list Z); all_mel : list Z; all_use : list bool }.

(** heisenberg.py:60-62,66: freshly allocated buffers. *)
Definition new_buffers (num_of_conn size : nat) : buffers :=
  {| all_conn := repeat (repeat 0 size) num_of_conn;
     all_mel := repeat 0 num_of_conn;
     all_use := upd (repeat false num_of_conn) 0 true |}.

Definition at2 (n1 : nat) (s : list Z) (i j : nat) : Z := nth (i * n1 + j)%nat s 0.
Definition set2 (n1 : nat) (s : list Z) (i j : nat) (v : Z) : list Z := upd s (i * n1 + j)%nat v.

(** heisenberg.py:92-96 (and 98-102, 108-112, 114-118): write slot [k] for the pair of sites (i,j), (i',j'):
    use flag, exchanged spins, then line 105 / 121: the matrix element. Returns the updated buffers and the
    product of the two spins (added to self_mel[i,j]). *)
Definition write_bond (off : Z) (n1 : nat) (s : list Z) (b : buffers) (k : nat) (i j i' j' : nat) : buffers :=
  let use := negb (at2 n1 s i j =? at2 n1 s i' j') in
  let c := nth (S k) (all_conn b) [] in
  let c := set2 n1 c i j (at2 n1 s i' j') in
  let c := set2 n1 c i' j' (at2 n1 s i j) in
  {| all_conn := upd (all_conn b) (S k) c;
     all_use := upd (all_use b) (S k) use;
     all_mel := upd (all_mel b) (S k) (if use then off else 0) |}.

(** heisenberg.py:103-105 / 119-121: no bond across an open boundary. *)
Definition write_open (off : Z) (b : buffers) (k : nat) : buffers :=
  {| all_conn := all_conn b;
     all_use := upd (all_use b) (S k) false;
     all_mel := upd (all_mel b) (S k) 0 |}.

(** heisenberg.py:89-121, body of the loop for site (i, j): state is the buffers and the list of values added
    to self_mel. [dim] is the number of dimensions of the operator, (n0, n1) its state shape. *)
Definition site_body (off : Z) (pbc : bool) (dim n0 n1 : nat) (s : list Z) (i j : nat) (st : buffers * Z)
  : buffers * Z :=
  let dim_idx := 0%nat in
  let '(st, dim_idx) :=
    if (1 <? n0)%nat then
      let k := ((i * n1 + j) * dim + dim_idx)%nat in
      let st' :=
        if (i + 1 <? n0)%nat then
          (write_bond off n1 s (fst st) k i j (i + 1) j, snd st + at2 n1 s i j * at2 n1 s (i + 1)%nat j)
        else if pbc then
          (write_bond off n1 s (fst st) k i j 0 j, snd st + at2 n1 s i j * at2 n1 s 0 j)
        else (write_open off (fst st) k, snd st) in
      (st', S dim_idx)
    else (st, dim_idx) in
  if (1 <? n1)%nat then
    let k := ((i * n1 + j) * dim + dim_idx)%nat in
    if (j + 1 <? n1)%nat then
      (write_bond off n1 s (fst st) k i j i (j + 1), snd st + at2 n1 s i j * at2 n1 s i (j + 1)%nat)
    else if pbc then
      (write_bond off n1 s (fst st) k i j i 0, snd st + at2 n1 s i j * at2 n1 s i 0)
    else (write_open off (fst st) k, snd st)
  else st.

(** heisenberg.py:84-121 [calc_conn_and_mel]. *)
Definition calc_conn_and_mel (off : Z) (pbc : bool) (dim n0 n1 : nat) (s : list Z) (b : buffers) : buffers * Z :=
  fold_left (fun st ij => site_body off pbc dim n0 n1 s (fst ij) (snd ij) st)
    (flat_map (fun i => map (fun j => (i, j)) (range n1)) (range n0)) (b, 0).

(** heisenberg.py:72-79, for one sample: fill all_conn with the sample, compute, put the sum of self_mel into
    all_mel[0]. *)
Definition column_find_conn (off : Z) (pbc : bool) (dim n0 n1 : nat) (s : list Z) (b : buffers) : buffers :=
  let b := {| all_conn := repeat s (length (all_conn b)); all_mel := all_mel b; all_use := all_use b |} in
  let '(b, self) := calc_conn_and_mel off pbc dim n0 n1 s b in
  {| all_conn := all_conn b; all_mel := upd (all_mel b) 0 self; all_use := all_use b |}.

(** The operator object: declared state shape (mutable), number of dimensions and connection count fixed at
    construction, and the calculators cached per batch size, each owning one buffer per sample. *)
Record heisenberg := {
  ham_shape : list nat; ham_dim : nat; ham_num_conn : nat; ham_off : Z; ham_pbc : bool;
  calculators : list (nat * list buffers)
}.

(** heisenberg.py:9-18 [__init__]. *)
Definition heisenberg_init (shape : list nat) (unitary_rotation pbc : bool) : heisenberg :=
  {| ham_shape := shape; ham_dim := length shape; ham_num_conn := max_number_of_local_connections shape;
     ham_off := off_diag unitary_rotation; ham_pbc := pbc; calculators := [] |}.

Fixpoint lookup {A} (k : nat) (l : list (nat * A)) : option A :=
  match l with
  | [] => None
  | (k', v) :: t => if (k =? k')%nat then Some v else lookup k t
  end.
Fixpoint store_at {A} (k : nat) (v : A) (l : list (nat * A)) : list (nat * A) :=
  match l with
  | [] => [(k, v)]
  | (k', w) :: t => if (k =? k')%nat then (k, v) :: t else (k', w) :: store_at k v t
  end.

(** heisenberg.py:50-70 [HeisenbergFindConn.__init__]: at most two dimensions, a chain's shape (n,) becomes
    (n, 1) in the operator itself, fresh buffers. *)
Definition new_calculator (H : heisenberg) (batch_size : nat) : res heisenberg :=
  if (ham_dim H <=? 2)%nat then
    let shape := if (length (ham_shape H) =? 1)%nat then ham_shape H ++ [1%nat] else ham_shape H in
    let bufs := repeat (new_buffers (ham_num_conn H) (fold_right Nat.mul 1%nat shape)) batch_size in
    Ok {| ham_shape := shape; ham_dim := ham_dim H; ham_num_conn := ham_num_conn H; ham_off := ham_off H;
          ham_pbc := ham_pbc H; calculators := store_at batch_size bufs (calculators H) |}
  else Err AssertionError.

(** heisenberg.py:72-82: run the calculator of this batch size on the sample. *)
Definition run_calculator (H : heisenberg) (sample : list (list Z)) : res heisenberg :=
  let batch_size := length sample in
  match lookup batch_size (calculators H), ham_shape H with
  | None, _ => Err KeyError
  | Some bufs, [n0; n1] =>
      let bufs' := map2 (column_find_conn (ham_off H) (ham_pbc H) (ham_dim H) n0 n1) sample bufs in
      Ok {| ham_shape := ham_shape H; ham_dim := ham_dim H; ham_num_conn := ham_num_conn H; ham_off := ham_off H;
            ham_pbc := ham_pbc H; calculators := store_at batch_size bufs' (calculators H) |}
  | Some _, _ => Err IndexError
  end.

(** heisenberg.py:39-44 [Heisenberg.find_conn]. The returned arrays are views of the calculator's buffers, so
    the result is a reference: the batch size under which the buffers are found in the operator. *)
Definition heisenberg_find_conn (H : heisenberg) (sample : list (list Z)) : res (heisenberg * nat) :=
  let batch_size := length sample in
  do H1 <- match lookup batch_size (calculators H) with
           | Some _ => Ok H
           | None => new_calculator H batch_size
           end;
  do H2 <- run_calculator H1 sample;
  Ok (H2, batch_size).

(** A sequence of calls of find_conn on one operator object (heisenberg.py:39-44). *)
Fixpoint run_calls (H : heisenberg) (batches : list (list (list Z))) : res heisenberg :=
  match batches with
  | [] => Ok H
  | b :: t => do r <- heisenberg_find_conn H b; run_calls (fst r) t
  end.

(** What a caller sees when reading a returned reference in operator state [H]. *)
Definition read_result (H : heisenberg) (ref : nat) : list buffers :=
  match lookup ref (calculators H) with Some b => b | None => [] end.

(** [int(x)] of a rational number: towards zero. *)
Definition py_int (q : Q) : Z := Z.quot (Qnum q) (Zpos (Qden q)).

(** heisenberg.py:20-32 [random_states] for total_sz not None: [shuffles] are the permutations drawn, one per
    state, as functions on lists. numpy.ones and numpy.full reject a negative size with ValueError; assigning
    the wrong number of entries is a ShapeError (the row length is even, so it never broadcasts from one);
    the final assertion compares the sums with total_sz. The final reshape is left out (row-major lists). *)
Definition random_states (total_size : nat) (total_sz : Q) (shuffles : list (list Z -> list Z)) : res (list (list Z)) :=
  let size := Z.of_nat (total_size / 2) in
  match shuffles with
  | [] => Ok []
  | _ =>
      if (size + py_int total_sz <? 0) || (size - py_int total_sz <? 0) then Err ValueError
      else
        let row := repeat 1 (Z.to_nat (size + py_int total_sz)) ++ repeat (-1) (Z.to_nat (size - py_int total_sz)) in
        if (length row =? total_size)%nat then
          let states := map (fun f => f row) shuffles in
          if forallb (fun s => Qeq_bool (inject_Z (sumZ s)) total_sz) states then Ok states else Err AssertionError
        else Err ShapeError
  end.
