(** C25: what the path for the old NetKet interface would do without line 74, which always raises (C25_old_interface_refuted). *)
From Coq Require Import List ZArith Reals Lia Lra Bool Arith.
From Verif Require Import Base Cplx LatticeSpec NetketModel NetketProofs NetketOldModel NetketOldSpec NetketOldProofs.
Import ListNotations.

(** With line 74 every non empty batch raises ValueError. *)
Theorem C25_old_interface_raises_refuted : forall (g : old_get_conn) (W : netket_wrapper) (s : list Z) (t : list (list Z)), old_find_conn true g W (s :: t) = Err ValueError.
Proof. reflexivity. Qed.
Print Assumptions C25_old_interface_raises_refuted.
Example C25_old_interface_raises_refuted_ex : old_find_conn true (fun s => ([C1], [[]], [[]])) {| estimated := 1; should_calc_unused := true |} [[1; -1]%Z] = Err ValueError.
Proof. reflexivity. Qed.

(** Without it, the result is that of the newer interface for the same connections, restarts included, if the sample itself is always reported first. *)
Theorem C25_old_interface_repaired : forall (g : old_get_conn) (W : netket_wrapper) (sample : list (list Z)), sample <> [] -> (forall s, In s sample -> reports g s 0) ->
  old_find_conn false g W sample = new_netket_find_conn (translated g) W sample.
Proof. exact old_as_new. Qed.
Print Assumptions C25_old_interface_repaired.
(** A single spin in a field, with the diagonal element first. *)
Definition flipped (s : list Z) : list C * list (list nat) * list (list Z) := ([C1; RtoC 3], [[]; [0]], [[]; map Z.opp s]).
Example C25_old_interface_repaired_ex : forall s, In s [[1]%Z; [-1]%Z] -> reports flipped s 0.
Proof.
  intros s I. exists [C1; RtoC 3], [[]; [0]], [[]; map Z.opp s]. split; [reflexivity|]. split; [reflexivity|]. split; [reflexivity|]. split; [|split; [cbn; lia|]].
  - intros sites [<- | [<- | []]]; [constructor|]. constructor; [|constructor]. destruct I as [<- | [<- | []]]; cbn; lia.
  - intros [|[|j]] J; cbn in *; [tauto| |lia]. split; [discriminate|lia].
Qed.

(** If it is reported later, as number [k], the exchange of the two rows goes wrong: numpy's temp_conn is a view. The sample is at both places, and the state reported
    first is gone; its matrix element is now attributed to the sample. *)
Theorem C25_old_interface_exchange_refuted : forall (g : old_get_conn) (W : netket_wrapper) (s : list Z) (k : nat),
  reports g s k -> length (translated g s) <= estimated W -> 0 < k ->
  exists conn mel use, old_find_conn false g W [s] = Ok (W, (conn, mel, use)) /\
    nth 0 (column 0 [] conn) [] = s /\ nth k (column 0 [] conn) [] = s /\
    nth 0 (column 0 C0 mel) C0 = nth k (map snd (translated g s)) C0 /\ nth k (column 0 C0 mel) C0 = nth 0 (map snd (translated g s)) C0 /\
    (forall j, j <> 0 -> j <> k -> j < length (translated g s) ->
       nth j (column 0 [] conn) [] = nth j (map fst (translated g s)) [] /\ nth j (column 0 C0 mel) C0 = nth j (map snd (translated g s)) C0) /\
    (nth 0 (map fst (translated g s)) [] <> s -> (forall j, 0 < j < length (translated g s) -> nth j (map fst (translated g s)) [] <> nth 0 (map fst (translated g s)) []) ->
       nth 0 (map fst (translated g s)) [] <> repeat 0%Z (length s) -> ~ In (nth 0 (map fst (translated g s)) []) (column 0 [] conn)).
Proof.
  intros g W s k R L KP. destruct (report_parts g s k R) as (mels & idx & vals & E & LT & M1 & M2 & LC & K & F & LE & N).
  destruct (old_single g W s k R L KP) as (conn & mel & use & EQ & LCn & LMl & C1' & C2'). exists conn, mel, use. split; [exact EQ|]. rewrite C1', C2'.
  assert (LCO : length (conns_of g (estimated W) s) = estimated W) by (unfold conns_of; rewrite app_length, map_length, repeat_length; lia).
  assert (LME : length (mels_of g (estimated W) s) = estimated W) by (unfold mels_of; rewrite app_length, map_length, repeat_length; lia).
  assert (HC : forall j, j < length (translated g s) -> nth j (conns_of g (estimated W) s) [] = nth j (map fst (translated g s)) []).
  { intros j J. unfold conns_of. apply app_nth1. now rewrite map_length. }
  assert (HM : forall j, j < length (translated g s) -> nth j (mels_of g (estimated W) s) C0 = nth j (map snd (translated g s)) C0).
  { intros j J. unfold mels_of. apply app_nth1. now rewrite map_length. }
  split; [apply nth_upd_same; lia|]. split; [rewrite nth_upd_other, HC, M1 by lia; exact N|]. unfold exchange_elements.
  split; [rewrite nth_upd_other, nth_upd_same, HM by lia; reflexivity|]. split; [rewrite nth_upd_same, HM by (rewrite ?upd_length; lia); reflexivity|]. split.
  - intros j J0 Jk J. rewrite nth_upd_other, HC by lia. split; [reflexivity|]. rewrite !nth_upd_other, HM by lia. reflexivity.
  - intros D U Z I. apply (In_nth _ _ []) in I. destruct I as (j & J & EJ). rewrite upd_length, LCO in J. destruct j as [|j].
    + rewrite nth_upd_same in EJ by lia. now apply D.
    + rewrite nth_upd_other in EJ by lia. destruct (Nat.lt_ge_cases (S j) (length (translated g s))) as [B|B].
      * rewrite HC in EJ by exact B. apply (U (S j)); [lia|exact EJ].
      * unfold conns_of in EJ. rewrite app_nth2 in EJ by (rewrite map_length; lia). rewrite map_length in EJ.
        rewrite (nth_indep _ [] (repeat 0%Z (length s))) in EJ by (rewrite repeat_length; lia). rewrite nth_repeat in EJ. now apply Z.
Qed.
Print Assumptions C25_old_interface_exchange_refuted.
(** The same spin with the diagonal element last: the flipped state is lost, so the row of the matrix is 4 on the diagonal instead of 1 and 3. *)
Definition flipped_last (s : list Z) : list C * list (list nat) * list (list Z) := ([RtoC 3; C1], [[0]; []], [map Z.opp s; []]).
Example C25_old_interface_exchange_refuted_ex : reports flipped_last [1]%Z 1 /\ translated flipped_last [1]%Z = [([-1]%Z, RtoC 3); ([1]%Z, C1)].
Proof.
  split; [|reflexivity]. exists [RtoC 3; C1], [[0]; []], [[-1]%Z; []]. split; [reflexivity|]. split; [reflexivity|]. split; [reflexivity|]. split; [|split; [cbn; lia|]].
  - intros sites [<- | [<- | []]]; [|constructor]. constructor; [cbn; lia|constructor].
  - intros [|[|j]] J; cbn in *; [|tauto|lia]. split; [discriminate|lia].
Qed.

(** The exchange also spoils the other samples of the batch: here the first sample reports itself first, and loses that entry to the second one. *)
Theorem C25_old_interface_batch_refuted : exists (g : old_get_conn) (s t : list Z) W conn mel use, reports g s 0 /\ reports g t 1 /\
  old_find_conn false g W [s; t] = Ok (W, (conn, mel, use)) /\ nth 0 (column 0 [] conn) [] <> s /\ ~ In s (column 0 [] conn).
Proof.
  exists (fun s => if (hd 0 s =? 1)%Z then flipped s else flipped_last s), [1]%Z, [-1]%Z, {| estimated := 2; should_calc_unused := false |}.
  eexists _, _, _. split; [|split; [|split; [reflexivity|]]].
  - exact (C25_old_interface_repaired_ex [1]%Z (or_introl eq_refl)).
  - exists [RtoC 3; C1], [[0]; []], [[1]%Z; []]. split; [reflexivity|]. split; [reflexivity|]. split; [reflexivity|]. split; [|split; [cbn; lia|]].
    + intros sites [<- | [<- | []]]; [|constructor]. constructor; [cbn; lia|constructor].
    + intros [|[|j]] J; cbn in *; [|tauto|lia]. split; [discriminate|lia].
  - vm_compute. split; [discriminate|]. intros [A|[A|[]]]; discriminate.
Qed.
Print Assumptions C25_old_interface_batch_refuted.
Example C25_old_interface_batch_refuted_ex : reports flipped [1]%Z 0.
Proof. exact (C25_old_interface_repaired_ex [1]%Z (or_introl eq_refl)). Qed.

(** The assertion: a report without the sample raises AssertionError; a site outside of the state raises IndexError. *)
Theorem C25_old_interface_bad_reports : forall (g : old_get_conn) (W : netket_wrapper) (s : list Z) (t : list (list Z)) mels idx vals,
  g s = (mels, idx, vals) -> length idx = length mels -> length vals = length mels -> length mels <= estimated W ->
  ((forall sites, In sites idx -> sites <> [] /\ Forall (fun p => p < length s) sites) -> old_find_conn false g W (s :: t) = Err AssertionError) /\
  (forall sites more values others p v, idx = (p :: sites) :: more -> vals = (v :: values) :: others -> length s <= p -> old_find_conn false g W (s :: t) = Err IndexError).
Proof.
  intros g W s t mels idx vals E L1 L2 L. unfold old_find_conn. cbn [length old_find_conn_fuel map old_loop]. rewrite E.
  destruct (Nat.ltb_spec (estimated W) (length mels)); [lia|]. cbn [nth]. split.
  - intros F. pose proof (fill_ok s (repeat 0%Z (length s)) (combine idx vals) [] (estimated W) None) as FO. cbn [app length] in FO. rewrite FO.
    + cbn [bind fst snd]. rewrite (last_empty_at (length idx)).
      * destruct (Nat.ltb_spec (length idx) (0 + length (combine idx vals))) as [B|B]; [rewrite combine_length in B; lia|]. rewrite andb_false_r. reflexivity.
      * intros i I. rewrite combine_length in I. rewrite map_fst_combine by lia. split; [|lia]. intros N. destruct (F (nth i idx [])) as [X _]; [apply nth_In; lia|]. now rewrite N in X.
    + intros [a b] I. apply F. exact (in_combine_l _ _ _ _ I).
    + rewrite combine_length. lia.
  - intros sites more values others p v -> -> B. cbn [combine fill change]. destruct (Nat.ltb_spec p (length s)); [lia|]. reflexivity.
Qed.
Print Assumptions C25_old_interface_bad_reports.
Example C25_old_interface_bad_reports_ex : old_find_conn false (fun s => ([C1], [[0]], [[3]%Z])) {| estimated := 2; should_calc_unused := true |} [[1; -1]%Z] = Err AssertionError /\
  old_find_conn false (fun s => ([C1], [[2]], [[3]%Z])) {| estimated := 2; should_calc_unused := true |} [[1; -1]%Z] = Err IndexError.
Proof. split; reflexivity. Qed.

(** More lists of changes than matrix elements, and more than the arrays have rows: IndexError, whatever else is reported. *)
Lemma fill_too_many s l : forall j column self, (forall c, In c l -> Forall (fun p => p < length s) (fst c)) -> length column < j + length l -> j <= length column ->
  fill s j l column self = Err IndexError.
Proof.
  induction l as [|[idx vals] l IH]; intros j column self F L J; cbn [length] in L; [lia|]. cbn [fill].
  rewrite change_ok by (apply (F (idx, vals)); now left). cbn [bind]. destruct (Nat.ltb_spec j (length column)); [|reflexivity].
  apply IH; [intros c I; apply F; now right|rewrite upd_length; lia|rewrite upd_length; lia].
Qed.
Theorem C25_old_interface_too_many : forall (g : old_get_conn) (W : netket_wrapper) (s : list Z) (t : list (list Z)) mels idx vals,
  g s = (mels, idx, vals) -> length mels <= estimated W -> estimated W < length idx -> length vals = length idx ->
  (forall sites, In sites idx -> Forall (fun p => p < length s) sites) -> old_find_conn false g W (s :: t) = Err IndexError.
Proof.
  intros g W s t mels idx vals E L L1 L2 F. unfold old_find_conn. cbn [length old_find_conn_fuel map old_loop]. rewrite E.
  destruct (Nat.ltb_spec (estimated W) (length mels)); [lia|]. cbn [nth]. rewrite fill_too_many; [reflexivity| | |lia].
  - intros [a b] I. apply F. exact (in_combine_l _ _ _ _ I).
  - rewrite repeat_length, combine_length. lia.
Qed.
Print Assumptions C25_old_interface_too_many.
Example C25_old_interface_too_many_ex : old_find_conn false (fun s => ([C1], [[]; [0]], [[]; [3]%Z])) {| estimated := 1; should_calc_unused := true |} [[1; -1]%Z] = Err IndexError.
Proof. reflexivity. Qed.
