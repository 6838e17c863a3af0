(** Property C25 (operators/netket_operator.py). *)
From Coq Require Import List ZArith Reals Lia Bool Arith.
From Verif Require Import Base Cplx LatticeSpec NetketModel NetketProofs.
Import ListNotations.

(** C25: after any history of calls, the padded arrays hold for every sample exactly the reported connections
    and matrix elements followed by entries with matrix element 0; the sample is connection 0; the padding size
    never shrinks and always suffices; an entry is flagged as used iff it is entry 0, or unused entries are not
    computed, or its matrix element is not 0. *)
Theorem C25_padded_rows : forall (g : list Z -> list (list Z * C)) (W : netket_wrapper)
    (batches : list (list (list Z))) (sample : list (list Z)),
  (forall b, In b batches -> good_batch g b) -> good_batch g sample ->
  exists W1 W2 conn mel use,
    netket_calls g W batches = Ok W1 /\
    new_netket_find_conn g W1 sample = Ok (W2, (conn, mel, use)) /\
    estimated W <= estimated W1 <= estimated W2 /\
    length conn = estimated W2 /\ length mel = estimated W2 /\ length use = estimated W2 /\
    forall i s, nth_error sample i = Some s ->
      nth 0 (column i [] conn) [] = s /\
      length (g s) <= estimated W2 /\
      column i [] conn = map fst (g s) ++ repeat (repeat 0%Z (length s)) (estimated W2 - length (g s)) /\
      column i C0 mel = map snd (g s) ++ repeat C0 (estimated W2 - length (g s)) /\
      forall k, k < estimated W2 ->
        (nth k (column i false use) false = true <->
         k = 0 \/ should_calc_unused W = false \/ nth k (column i C0 mel) C0 <> C0).
Proof. exact netket_rows. Qed.
Print Assumptions C25_padded_rows.
Example C25_padded_rows_ex : good_batch (fun s => [(s, C1); (rev s, C0)]) [[1; -1]%Z; [1; 1]%Z].
Proof. split; [discriminate|]. intros s _. exists C1, [(rev s, C0)]. reflexivity. Qed.

(** C25: what the constructor decides. The padding is the larger of the given maximum (without one, the number of connections of a random state) and of all numbers
    of connections seen so far, and nothing more. Entries with matrix element 0 are used only if this was asked for, or if neither the maximum nor the flag was
    given. *)
Theorem C25_constructor : forall (g : list Z -> list (list Z * C)) (r : list Z) (max_conn : option nat) (unused : option bool)
    (batches : list (list (list Z))) (sample : list (list Z)),
  (forall b, In b batches -> good_batch g b) -> good_batch g sample ->
  exists W1 W2 conn mel use,
    netket_calls g (netket_init g r max_conn unused) batches = Ok W1 /\
    new_netket_find_conn g W1 sample = Ok (W2, (conn, mel, use)) /\
    (forall n, estimated W2 <= n <-> match max_conn with Some m => m | None => length (g r) end <= n /\
       forall b s, In b (batches ++ [sample]) -> In s b -> length (g s) <= n) /\
    forall i s k, nth_error sample i = Some s -> k < estimated W2 ->
      (nth k (column i false use) false = true <->
       k = 0 \/ unused = Some false \/ (unused = None /\ max_conn = None) \/ nth k (column i C0 mel) C0 <> C0).
Proof. exact netket_from_init. Qed.
Print Assumptions C25_constructor.
Example C25_constructor_ex : good_batch (fun s => [(s, C1); (rev s, C0)]) [[1; -1]%Z] /\
  estimated (netket_init (fun s => [(s, C1); (rev s, C0)]) [1%Z] None None) = 2 /\
  should_calc_unused (netket_init (fun s => [(s, C1); (rev s, C0)]) [1%Z] (Some 4) None) = true.
Proof. split; [|split; reflexivity]. split; [discriminate|]. intros s _. exists C1, [(rev s, C0)]. reflexivity. Qed.

(** C25: the padded result is equivalent to the report: sum over the used entries of mel * psi(conn) is the sum
    over the reported connections, for every psi. *)
Theorem C25_equivalent : forall (g : list Z -> list (list Z * C)) (W : netket_wrapper) (sample : list (list Z)),
  good_batch g sample ->
  exists W' conn mel use, new_netket_find_conn g W sample = Ok (W', (conn, mel, use)) /\
    forall i s, nth_error sample i = Some s -> forall psi : list Z -> C,
      Csum (fun k => if nth k (column i false use) false
                     then Cmult (nth k (column i C0 mel) C0) (psi (nth k (column i [] conn) [])) else C0)
        (seq 0 (length conn)) =
      Csum (fun cm => Cmult (snd cm) (psi (fst cm))) (g s).
Proof. exact netket_equivalent. Qed.
Print Assumptions C25_equivalent.
Example C25_equivalent_ex : good_batch (fun s => [(s, C0); (rev s, C1)]) [[1; -1]%Z].
Proof. split; [discriminate|]. intros s _. exists C0, [(rev s, C1)]. reflexivity. Qed.

(** C25: an operator that does not report the sample first makes the call fail. *)
Theorem C25_sample_not_first_raises : forall (g : list Z -> list (list Z * C)) (W : netket_wrapper)
    (sample : list (list Z)) (s : list Z),
  In s sample -> (forall m rest, g s <> (s, m) :: rest) -> exists e, new_netket_find_conn g W sample = Err e.
Proof. exact netket_bad. Qed.
Print Assumptions C25_sample_not_first_raises.
Example C25_sample_not_first_raises_ex :
  In [1; -1]%Z [[1; -1]%Z] /\ (forall m rest, [([-1; 1]%Z, C1)] <> ([1; -1]%Z, m) :: rest).
Proof. split; [now left|]. intros m rest H. discriminate H. Qed.

(** C25: and the first such sample decides the exception: no connections at all, or another configuration in the first place. *)
Theorem C25_first_bad_sample : forall (g : list Z -> list (list Z * C)) (W : netket_wrapper) (before : list (list Z)) (s : list Z) (after : list (list Z)),
  (forall b, In b before -> reports_itself g b) ->
  (g s = [] -> new_netket_find_conn g W (before ++ s :: after) = Err IndexError) /\
  (forall c m rest, g s = (c, m) :: rest -> c <> s -> new_netket_find_conn g W (before ++ s :: after) = Err AssertionError).
Proof.
  intros g W before s after HB.
  assert (K : forall e, check_first s (g s) = Err e -> collect g (before ++ s :: after) = Err e).
  { intros e E. induction before as [|b before IH]; cbn [app collect]; [now rewrite E|].
    destruct (HB b (or_introl eq_refl)) as (m & rest & Eb). rewrite Eb. cbn [check_first]. destruct (list_eq_dec Z.eq_dec b b); [|congruence].
    cbn [bind]. rewrite IH; [reflexivity|]. intros; apply HB; now right. }
  split.
  - intros E. unfold new_netket_find_conn. rewrite (K IndexError); [reflexivity|]. now rewrite E.
  - intros c m rest E N. unfold new_netket_find_conn. rewrite (K AssertionError); [reflexivity|]. rewrite E. cbn [check_first].
    destruct (list_eq_dec Z.eq_dec c s); [contradiction|reflexivity].
Qed.
Print Assumptions C25_first_bad_sample.
Example C25_first_bad_sample_ex : let g := fun s : list Z => if (nth 0 s 0 =? 1)%Z then [(s, C1)] else [] in
  reports_itself g [1; 1]%Z /\ g [-1; 1]%Z = [].
Proof. split; [exists C1, []; reflexivity|reflexivity]. Qed.

(** C25: an empty batch raises. *)
Theorem C25_empty_batch : forall (g : list Z -> list (list Z * C)) (W : netket_wrapper), new_netket_find_conn g W [] = Err ValueError.
Proof. reflexivity. Qed.
Print Assumptions C25_empty_batch.
Example C25_empty_batch_ex : new_netket_find_conn (fun s => [(s, C1)]) {| estimated := 3; should_calc_unused := true |} [] = Err ValueError.
Proof. reflexivity. Qed.

(** C25: the path for the old NetKet interface fails on every non empty batch. *)
Theorem C25_old_interface_refuted : forall (A : Type) (g : list Z -> A * A * A) (s : list Z) (t : list (list Z)),
  old_netket_find_conn g (s :: t) = Err ValueError.
Proof. exact @netket_old. Qed.
Print Assumptions C25_old_interface_refuted.
Example C25_old_interface_refuted_ex :
  old_netket_find_conn (fun s => (s, s, s)) [[1; 1]%Z] = Err ValueError.
Proof. reflexivity. Qed.
