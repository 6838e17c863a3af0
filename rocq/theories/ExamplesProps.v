(** C75: the example scripts. *)
From Coq Require Import String List ZArith Reals Bool Arith Lia Lra.
From Verif Require Import Base Cplx IsingModel AutoregressiveSpec ExactSpec SymmetryModel SymmetricEvaluationModel ExactModel LatticeSpec ExactOperatorProofs MonteCarloSpec MonteCarloProofs ExactProofs
  TrainingModel CheckpointModel CallbackModel CallbackSpec CallbackProofs StagesModel
  RunnerModel RunnerSpec RunnerProofs ExamplesModel ExamplesSpec ExamplesProofs.
From Verif Require TensorboardProofs.
Import ListNotations.
Local Notation train := CallbackModel.train.

(** * examples/ising.py *)

(** The function that should look up the mini batch that fits into the memory returns 1, whatever the depth. The table is right: had the loop started from any number
    that is large enough, it would return the entry for the depth. *)
Theorem C75_max_mini_batch_refuted : forall depth,
  depth_to_max_mini_batch depth = 1 /\
  forall v, capacity depth v -> 16 <= v /\ depth_to_max_mini_batch depth <> v /\ forall first, 2 ^ 12 <= first -> max_mini_batch_from first depth = v.
Proof.
  intros depth. assert (P : forall c, 0 < 2 ^ c) by (intros c; pose proof (Nat.pow_nonzero 2 c); lia).
  assert (E : depth_to_max_mini_batch depth = 1).
  { unfold depth_to_max_mini_batch, max_mini_batch_from, memory_table. cbn [fold_left fst snd].
    assert (M : forall c, Nat.min 1 (2 ^ c) = 1) by (intros c; specialize (P c); lia).
    destruct (1 <=? depth), (20 <=? depth), (40 <=? depth); rewrite ?M; reflexivity. }
  split; [exact E|]. assert (B : forall c, 4 <= c -> 16 <= 2 ^ c) by (intros c H; change 16 with (2 ^ 4); apply Nat.pow_le_mono_r; lia).
  intros v H. assert (16 <= v) by (destruct H as [[_ ->]|[[_ ->]|[_ ->]]]; apply B; lia). split; [assumption|]. split; [rewrite E; lia|]. intros first F.
  assert (M1 : 2 ^ 10 <= 2 ^ 11) by (apply Nat.pow_le_mono_r; lia). assert (M2 : 2 ^ 11 <= 2 ^ 12) by (apply Nat.pow_le_mono_r; lia).
  unfold max_mini_batch_from, memory_table. cbn [fold_left fst snd]. unfold capacity in H. revert F M1 M2 H.
  generalize (2 ^ 12) (2 ^ 11) (2 ^ 10). intros a b c F M1 M2 H.
  destruct (Nat.leb_spec 1 depth), (Nat.leb_spec 20 depth), (Nat.leb_spec 40 depth); lia.
Qed.
Print Assumptions C75_max_mini_batch_refuted.
Example C75_max_mini_batch_refuted_ex : capacity 20 (2 ^ 11) /\ depth_to_max_mini_batch 20 = 1.
Proof. split; [right; left; split; [lia|reflexivity]|]. exact (proj1 (C75_max_mini_batch_refuted 20)). Qed.

Section Ising.
  Context (machine : list (array Z) -> res (list C)) (batch : nat -> nat -> list (list Z)) (start sampled evaluated now : nat -> R).
  Notation example := (ising_example machine batch start sampled evaluated now).

  Lemma no_evaluation gamma x : example_evaluation machine batch start sampled evaluated now 1 gamma x = Err ZeroDivisionError.
  Proof. unfold example_evaluation. change (1 / 16) with 0. generalize (2 ^ 15 / 0). intros n. reflexivity. Qed.

  (** With a field of the table, the script trains with mini batches of one sample, saves the weights of every stage, and then fails with ZeroDivisionError, without
      a result: for every depth, and from every checkpoint. *)
  Theorem C75_ising_refuted : forall (o : ising_options) (gamma : R) (checkpoint : option nat),
    field o = Some gamma -> In gamma [2; 2.5; 3; 3.5; 4]%R ->
    let k := match checkpoint with None => 0 | Some e => e end in
    let r := example o (option_map Some checkpoint) in
    run_epochs r = map (fun e => let b := batch_in_epoch e in {| number := e; size := b; mini_size := 1; updated_every := b; steps := 100 * b |}) (seq k (250 - k)) /\
    run_files r = stages_after k /\ result r = None /\ failure r = Some ZeroDivisionError.
  Proof.
    intros o gamma ck F G k r. unfold r. clear r. unfold ising_example, run_example. rewrite (proj1 (C75_max_mini_batch_refuted (depth o))). unfold run_with.
    replace (restore_run_state (option_map Some ck)) with (@Ok nat k) by (unfold k; destruct ck; reflexivity). rewrite F.
    assert (T : exists x, ising_table gamma = Ok x).
    { unfold ising_table. repeat destruct G as [G|G]; [..|destruct G]; rewrite <- G; repeat (destruct (Req_EM_T _ _); try (exfalso; lra)); eexists; reflexivity. }
    destruct T as [x ->]. cbn [combine]. change 1 with (2 ^ 0). rewrite stages_ok by apply pow2_good. change (2 ^ 0) with 1.
    rewrite no_evaluation. cbn [run_epochs run_files result failure].
    split; [|auto]. apply map_ext. intros e. unfold record_of, batch_in_epoch. cbv zeta.
    assert (P : forall c, Nat.min 1 (2 ^ c) = 1) by (intros c; pose proof (Nat.pow_nonzero 2 c); lia).
    destruct (e <? 100); [|destruct (e <? 200)]; rewrite !P, !Nat.div_1_r, !Nat.add_sub; reflexivity.
  Qed.

  (** Without --gamma, which is not a required option, it fails with KeyError before any training; so it does with a field outside the table, which argparse rejects.
      Weights without the file of the optimizer make it fail with TypeError. *)
  Theorem C75_ising_errors : forall (o : ising_options) (k : option nat),
    let fails ck e := let r := example o ck in run_epochs r = [] /\ run_files r = [] /\ result r = None /\ failure r = Some e in
    (field o = None -> fails (option_map Some k) KeyError) /\
    (forall gamma, field o = Some gamma -> ~ In gamma [2; 2.5; 3; 3.5; 4]%R -> fails (option_map Some k) KeyError) /\
    fails (Some None) TypeError.
  Proof.
    intros o k fails. unfold fails. clear fails. unfold ising_example, run_example, run_with.
    replace (restore_run_state (option_map Some k)) with (@Ok nat match k with None => 0 | Some e => e end) by (destruct k; reflexivity). split; [|split].
    - intros ->. auto.
    - intros gamma -> N. assert (T : ising_table gamma = Err KeyError).
      { unfold ising_table. destruct (Req_EM_T gamma 2) as [E|_]; [exfalso; apply N; rewrite E; cbn; tauto|]. destruct (Req_EM_T gamma 2.5) as [E|_]; [exfalso; apply N; rewrite E; cbn; tauto|].
        destruct (Req_EM_T gamma 3) as [E|_]; [exfalso; apply N; rewrite E; cbn; tauto|]. destruct (Req_EM_T gamma 3.5) as [E|_]; [exfalso; apply N; rewrite E; cbn; tauto|].
        destruct (Req_EM_T gamma 4) as [E|_]; [exfalso; apply N; rewrite E; cbn; tauto|reflexivity]. }
      rewrite T. auto.
    - auto.
  Qed.

  (** The name of the run says the opposite of what the machine does about weight normalisation. *)
  Theorem C75_run_name_refuted : forall (o : ising_options) ck, named_normalized (example o ck) = negb (normalized (example o ck)) /\
    (normalized (example o ck) = true <-> no_weights_normalization o = false).
  Proof.
    intros o ck. unfold ising_example, run_example, run_with.
    assert (H : forall mini, let r := run_with machine batch start sampled evaluated now mini o [2 ^ 7; 2 ^ 10; 2 ^ 13] [100; 100; 50] ck in
      normalized r = negb (no_weights_normalization o) /\ named_normalized r = no_weights_normalization o).
    { intros mini r. unfold r, run_with. destruct (restore_run_state ck); [|split; reflexivity]. destruct (field o) as [g|]; [|split; reflexivity].
      destruct (ising_table g); [|split; reflexivity]. destruct (example_stages _ _ _ _ _) as [[ep fs] [e|]]; [split; reflexivity|].
      destruct (example_evaluation _ _ _ _ _ _ _ _ _); split; reflexivity. }
    destruct (H (depth_to_max_mini_batch (depth o))) as [H1 H2]. cbv zeta in H1, H2. unfold run_with in H1, H2. rewrite H1, H2, negb_involutive. split; [reflexivity|].
    destruct (no_weights_normalization o); cbn; intuition congruence.
  Qed.

  (** With the mini batch of the table instead of 1, the script would finish: the same epochs with mini batches of at most that size, and a result over batches of a
      sixteenth of it, 2^15 samples in all. *)
  Theorem C75_ising_with_capacity : forall (o : ising_options) (gamma : R) (checkpoint : option nat) (v : nat),
    field o = Some gamma -> In gamma [2; 2.5; 3; 3.5; 4]%R -> capacity (depth o) v ->
    samples 144 (v / 16) 1 (2 ^ 15 / (v / 16)) batch ->
    let k := match checkpoint with None => 0 | Some e => e end in
    let r := run_with machine batch start sampled evaluated now v o [2 ^ 7; 2 ^ 10; 2 ^ 13] [100; 100; 50] (option_map Some checkpoint) in
    map (fun e => (number e, size e, mini_size e)) (run_epochs r) = map (fun e => (e, batch_in_epoch e, Nat.min v (batch_in_epoch e))) (seq k (250 - k)) /\
    (forall e, In e (run_epochs r) -> mini_size e * updated_every e = size e /\ steps e = 100 * updated_every e) /\
    run_files r = stages_after k /\ failure r = None /\
    exists l x, result r = Some l /\ In (gamma, x) [(2, -346.982); (2.5, -395.654); (3, -457.039); (3.5, -524.51); (4, -593.536)]%R /\
      reports 144 (ising_matrix 1 gamma false [12; 12]) (predicted (evaluation_model machine) [12; 12]) x batch 1 1 (2 ^ 15 / (v / 16)) l /\
      length (all_rows batch 1 (2 ^ 15 / (v / 16))) = 2 ^ 15.
  Proof.
    intros o gamma ck v F G Cap Sm k r. unfold r. clear r. unfold run_with.
    replace (restore_run_state (option_map Some ck)) with (@Ok nat k) by (unfold k; destruct ck; reflexivity). rewrite F.
    assert (T : exists x, ising_table gamma = Ok x /\ In (gamma, x) [(2, -346.982); (2.5, -395.654); (3, -457.039); (3.5, -524.51); (4, -593.536)]%R).
    { unfold ising_table. repeat destruct G as [G|G]; [..|destruct G]; rewrite <- G; repeat (destruct (Req_EM_T _ _); try (exfalso; lra));
        (eexists; split; [reflexivity|]); cbn [In].
      - now left.
      - right; now left.
      - right; right; now left.
      - do 3 right; left. f_equal. lra.
      - do 4 right; now left. }
    destruct T as (x & -> & Hx). cbn [combine].
    assert (V : exists a, v = 2 ^ a /\ 10 <= a <= 12) by (destruct Cap as [[_ ->]|[[_ ->]|[_ ->]]]; eexists; split; try reflexivity; lia).
    destruct V as (a & -> & Ha). rewrite stages_ok by apply pow2_good.
    assert (P : forall c, 0 < 2 ^ c) by (intros c; pose proof (Nat.pow_nonzero 2 c); lia).
    assert (D : forall c d, d <= c -> 2 ^ c / 2 ^ d = 2 ^ (c - d)).
    { intros c d H. replace c with (c - d + d) at 1 by lia. rewrite Nat.pow_add_r. apply Nat.div_mul. specialize (P d). lia. }
    assert (M : 2 ^ a / 16 = 2 ^ (a - 4)) by (change 16 with (2 ^ 4); apply D; lia). rewrite M in Sm |- *. rewrite (D 15 (a - 4)) in Sm |- * by lia.
    assert (HO : operator_represents 144 (ising_matrix 1 gamma false [12; 12]) (ising_operator 1 gamma false [12; 12])).
    { change 144 with (sites_of [12; 12]). apply ising_operator_represents. right. exists 12, 12. repeat split; lia. }
    destruct (report_ok machine batch start sampled evaluated now [12; 12] 144 _ _ HO None (2 ^ (a - 4)) (2 ^ (15 - (a - 4))) x false (P _) (P _) Nat.lt_0_1 Sm) as (w & w' & l & E1 & E2 & R).
    assert (EV : example_evaluation machine batch start sampled evaluated now (2 ^ a) gamma x = Ok l).
    { unfold example_evaluation. cbv zeta. rewrite M, E1. cbn [bind]. rewrite D, E2 by lia. reflexivity. }
    rewrite EV. cbn [run_epochs run_files result failure]. split; [|split; [|split; [reflexivity|split; [reflexivity|]]]].
    - rewrite map_map. apply map_ext. intros e. unfold record_of, batch_in_epoch. cbv zeta. cbn [number size mini_size]. reflexivity.
    - intros e He. apply in_map_iff in He. destruct He as (i & <- & _). unfold record_of. cbv zeta. cbn [mini_size updated_every size steps]. split; [|reflexivity].
      assert (Q : forall c, Nat.min (2 ^ a) (2 ^ c) * ((2 ^ c + Nat.min (2 ^ a) (2 ^ c) - 1) / Nat.min (2 ^ a) (2 ^ c)) = 2 ^ c).
      { intros c. assert (X : exists d, Nat.min (2 ^ a) (2 ^ c) = 2 ^ d /\ d <= c).
        { destruct (Nat.le_ge_cases a c) as [H|H]; [exists a|exists c]; (split; [|lia]); [apply Nat.min_l|apply Nat.min_r]; apply Nat.pow_le_mono_r; lia. }
        destruct X as (d & -> & Hd). replace (2 ^ c) with (2 ^ (c - d) * 2 ^ d) by (rewrite <- Nat.pow_add_r; f_equal; lia).
        replace (2 ^ (c - d) * 2 ^ d + 2 ^ d - 1) with ((2 ^ d - 1) + 2 ^ (c - d) * 2 ^ d) by (pose proof (P d); lia).
        rewrite Nat.div_add by (pose proof (P d); lia). rewrite (Nat.div_small (2 ^ d - 1)) by (pose proof (P d); lia). lia. }
      destruct (i <? 100); [apply Q|]. destruct (i <? 200); apply Q.
    - exists l, x. split; [reflexivity|]. split; [exact Hx|]. split; [exact R|].
      unfold all_rows. rewrite (flat_map_length_const _ (2 ^ (a - 4))), seq_length; [rewrite <- Nat.pow_add_r; f_equal; lia|].
      intros i Hi. apply in_seq in Hi. cbn [seq flat_map]. rewrite app_nil_r. exact (proj1 (Sm 0 i Nat.lt_0_1 (proj2 Hi))).
  Qed.
End Ising.
Print Assumptions C75_ising_refuted.
Example C75_ising_refuted_ex : let o := {| depth := 20; field := Some 3%R; no_weights_normalization := false |} in
  field o = Some 3%R /\ In 3%R [2; 2.5; 3; 3.5; 4]%R /\ stages_after 0 = [0; 1; 2] /\ stages_after 150 = [1; 2] /\ stages_after 250 = [].
Proof. split; [reflexivity|]. split; [right; right; now left|]. repeat split; reflexivity. Qed.
Print Assumptions C75_ising_errors.
Example C75_ising_errors_ex : field {| depth := 20; field := None; no_weights_normalization := false |} = None /\ ~ In 1%R [2; 2.5; 3; 3.5; 4]%R.
Proof. split; [reflexivity|]. cbn [In]. intros H. repeat destruct H as [H|H]; lra. Qed.
Print Assumptions C75_run_name_refuted.
Print Assumptions C75_ising_with_capacity.
Example C75_ising_with_capacity_ex : capacity 40 (2 ^ 10) /\ samples 144 64 1 512 (fun _ _ => repeat (repeat 1%Z 144) 64).
Proof.
  split; [right; right; split; [lia|reflexivity]|]. intros r k _ _. split; [apply repeat_length|]. intros s Hs. apply repeat_spec in Hs. subst s. apply AutoregressiveProofs.in_strings. split; [reflexivity|].
  apply Forall_forall. intros y Hy. apply repeat_spec in Hy. now left.
Qed.

(** * The grid of parameters *)

(** A run index chooses the value of every parameter by its digit in mixed radix, the last parameter varying fastest; negative indices too. *)
Theorem C75_grid : forall {K A} (config : list (K * list A)) (run_index : Z), (forall k v, In (k, v) config -> v <> []) ->
  exists ps, chosen config run_index = Ok ps /\ length ps = length config /\
    forall j k v, nth_error config j = Some (k, v) ->
      exists a, nth_error ps j = Some (k, a) /\
        nth_error v (Z.to_nat ((run_index / Z.of_nat (combinations (map snd (skipn (S j) config)))) mod Z.of_nat (length v))) = Some a.
Proof.
  intros K A config z NE. unfold chosen. cbv zeta. set (vs := map snd config).
  assert (P : 0 < combinations vs).
  { unfold vs. clear -NE. induction config as [|[k v] t IH]; [cbn; lia|]. cbn [map snd combinations fold_right]. fold (combinations (map snd t)).
    assert (v <> []) by (apply (NE k v); now left). specialize (IH (fun k v H => NE k v (or_intror H))). destruct v; [congruence|]. cbn [length]. nia. }
  destruct (product vs) as [|d l] eqn:E; [exfalso; pose proof (product_length vs) as L; rewrite E in L; cbn in L; lia|]. rewrite <- E, product_length.
  set (r := Z.to_nat (z mod Z.of_nat (combinations vs))).
  assert (Hz : (0 <= z mod Z.of_nat (combinations vs) < Z.of_nat (combinations vs))%Z) by (apply Z.mod_pos_bound; lia).
  assert (Hr : r < combinations vs) by (unfold r; lia). set (row := nth r (product vs) d).
  assert (Lr : length row = length config).
  { unfold row. rewrite (product_row_length vs); [unfold vs; apply map_length|]. apply nth_In. rewrite product_length. exact Hr. }
  eexists. split; [reflexivity|]. split; [rewrite combine_length, map_length, Lr; lia|]. intros j k v Hj.
  assert (Hv : nth_error vs j = Some v) by (unfold vs; rewrite nth_error_map, Hj; reflexivity).
  assert (Hk : nth_error (map fst config) j = Some k) by (rewrite nth_error_map, Hj; reflexivity).
  assert (Vne : v <> []) by (apply (NE k v); now apply nth_error_In in Hj). destruct v as [|a0 v'] eqn:Ev; [congruence|]. rewrite <- Ev in *. clear Vne.
  destruct (product_nth vs r d j v a0 Hr Hv) as [Q Lv]. fold row in Q.
  assert (SK : skipn (S j) vs = map snd (skipn (S j) config)) by (unfold vs; apply skipn_map). rewrite SK in Q. set (c := combinations (map snd (skipn (S j) config))) in *.
  assert (IX : Z.to_nat ((z / Z.of_nat c) mod Z.of_nat (length v)) = (r / c) mod length v).
  { assert (D : exists q, combinations vs = c * (length v * q) /\ q <> 0 /\ c <> 0).
    { unfold c. rewrite <- SK. clear -Hv P. revert j Hv. induction vs as [|u t IH]; intros j Hv; [destruct j; discriminate|]. cbn [combinations fold_right] in *. fold (combinations t) in *. destruct j as [|j].
      - cbn [nth_error] in Hv. injection Hv as ->. exists 1. cbn [skipn]. lia.
      - cbn [nth_error] in Hv. destruct (IH ltac:(lia) j Hv) as (q & Eq & Q0 & C0'). exists (length u * q). cbn [skipn]. split; [rewrite Eq; cbn [skipn]; lia|]. split; [lia|exact C0']. }
    destruct D as (q & D & Q0 & C0'). unfold r. rewrite D. rewrite !Nat2Z.inj_mul. set (cz := Z.of_nat c). set (lz := Z.of_nat (length v)). set (qz := Z.of_nat q).
    assert (0 < cz /\ 0 < lz /\ 0 < qz)%Z as (C1' & L1 & Q1) by (unfold cz, lz, qz; lia).
    apply Nat2Z.inj. rewrite Nat2Z.inj_mod, Nat2Z.inj_div. fold cz lz. rewrite !Z2Nat.id by (apply Z.mod_pos_bound; nia).
    rewrite Z.rem_mul_r by nia. rewrite (Z.mul_comm cz (_ mod _)), Z.div_add by lia. rewrite (Z.div_small (z mod cz)) by (apply Z.mod_pos_bound; lia). rewrite Z.add_0_l.
    rewrite Z.rem_mul_r by nia. rewrite (Z.mul_comm lz (_ mod _)), Z.mod_add by lia. symmetry. apply Z.mod_mod. lia. }
  rewrite IX. exists (nth j row a0). split.
  - clear -Hk Lr Hj. assert (Hl : j < length row) by (rewrite Lr; apply nth_error_Some; congruence). revert j Hk Hl Hj. clear Lr. generalize (map fst config). intros ks. revert row.
    induction ks as [|k0 ks IH]; intros row j Hk Hl Hj; [destruct j; discriminate|]. destruct row as [|a row]; [cbn in Hl; lia|]. destruct j as [|j].
    + cbn in Hk. injection Hk as ->. reflexivity.
    + cbn [nth_error combine nth] in *. clear Hj. revert Hk Hl. intros. destruct (nth_error (combine ks row) j) eqn:E2.
      * rewrite <- E2. clear E2. cbn [length] in Hl. assert (Hl' : j < length row) by lia. clear Hl IH. revert row j Hk Hl'. induction ks as [|k1 ks IH]; intros row j Hk Hl; [destruct j; discriminate|].
        destruct row as [|b row]; [cbn in Hl; lia|]. destruct j as [|j]; [cbn in Hk; injection Hk as ->; reflexivity|]. cbn [nth_error combine nth] in *. apply IH; [exact Hk|cbn in Hl; lia].
      * exfalso. apply nth_error_None in E2. rewrite combine_length in E2. assert (j < length ks) by (apply nth_error_Some; congruence). cbn in Hl. lia.
  - rewrite Q. apply nth_error_nth'. apply Nat.mod_upper_bound. lia.
Qed.
Print Assumptions C75_grid.
Example C75_grid_ex : (forall k v, In (k, v) monte_carlo_grid -> v <> []) /\
  chosen monte_carlo_grid 3 = Ok [("width", Int 32); ("depth", Int 5); ("lr", Float 0.001); ("weights_normalization", Flag false)]%string /\
  chosen monte_carlo_grid (-1) = Ok [("width", Int 32); ("depth", Int 5); ("lr", Float 0.0005); ("weights_normalization", Flag false)]%string.
Proof. split; [|split; reflexivity]. intros k v [H|[H|[H|[H|[]]]]]; injection H as _ <-; discriminate. Qed.

(** Any N consecutive run indices, N being the number of combinations, choose every combination, and each once when no list repeats a value. *)
Theorem C75_grid_complete : forall {K A} (config : list (K * list A)) (c : list A) (a : Z),
  Forall2 (fun x v => In x v) c (map snd config) ->
  let N := Z.of_nat (combinations (map snd config)) in
  (exists z, a <= z < a + N /\ chosen config z = Ok (combine (map fst config) c))%Z /\
  (Forall (@NoDup A) (map snd config) -> forall z z', (a <= z < a + N -> a <= z' < a + N -> chosen config z = Ok (combine (map fst config) c) ->
     chosen config z' = Ok (combine (map fst config) c) -> z = z')%Z).
Proof.
  intros K A config c a H N. set (vs := map snd config) in *. assert (I : In c (product vs)) by (now apply in_product).
  assert (Lc : length c = length config) by (rewrite (product_row_length vs c I); apply map_length).
  destruct (In_nth _ _ [] I) as (r & Hr & Er). rewrite product_length in Hr.
  assert (Np : (0 < N)%Z) by (unfold N; lia).
  assert (CH : forall z, chosen config z = Ok (combine (map fst config) (nth (Z.to_nat (z mod N)) (product vs) []))).
  { intros z. unfold chosen. cbv zeta. fold vs. destruct (product vs) as [|d l] eqn:E; [destruct I|]. rewrite <- E, product_length. fold N. do 2 f_equal. apply nth_indep. rewrite product_length.
    pose proof (Z.mod_pos_bound z N Np). unfold N in *. lia. }
  assert (CI : forall row, In row (product vs) -> combine (map fst config) row = combine (map fst config) c -> row = c).
  { intros row Hrow E. pose proof (f_equal (map snd) E) as E'. rewrite !TensorboardProofs.map_snd_combine in E'; [exact E'| |];
      rewrite map_length; [symmetry; exact Lc|]. rewrite (product_row_length vs row Hrow). unfold vs. now rewrite map_length. }
  split.
  - set (z := (a + (Z.of_nat r - a) mod N)%Z). exists z. pose proof (Z.mod_pos_bound (Z.of_nat r - a) N Np) as B. split; [unfold z; lia|]. rewrite CH.
    assert (M : (z mod N = Z.of_nat r)%Z). { unfold z. rewrite Z.add_mod_idemp_r by lia. replace (a + (Z.of_nat r - a))%Z with (Z.of_nat r) by lia. apply Z.mod_small. unfold N. lia. }
    rewrite M, Nat2Z.id, Er. reflexivity.
  - intros D z z' B B' C C'. apply product_NoDup in D.
    assert (U : forall y, chosen config y = Ok (combine (map fst config) c) -> Z.to_nat (y mod N) = r).
    { intros y Cy. rewrite CH in Cy. injection Cy as Cy. pose proof (Z.mod_pos_bound y N Np) as By.
      assert (Hy : Z.to_nat (y mod N) < length (product vs)) by (rewrite product_length; unfold N in *; lia).
      apply CI in Cy; [|now apply nth_In]. rewrite <- Er in Cy. apply (proj1 (NoDup_nth (product vs) []) D); [exact Hy|rewrite product_length; exact Hr|exact Cy]. }
    apply U in C. apply U in C'. pose proof (Z.mod_pos_bound z N Np). pose proof (Z.mod_pos_bound z' N Np).
    assert (E : (z mod N = z' mod N)%Z) by lia. pose proof (Z.div_mod z N ltac:(lia)). pose proof (Z.div_mod z' N ltac:(lia)).
    assert ((z / N = z' / N)%Z \/ (z / N < z' / N)%Z \/ (z' / N < z / N)%Z) as [Q|[Q|Q]] by lia; nia.
Qed.
Print Assumptions C75_grid_complete.
Example C75_grid_complete_ex : Forall2 (fun x v => In x v) [Int 32; Int 5; Float 0.005; Flag true] (map snd monte_carlo_grid) /\ combinations (map snd monte_carlo_grid) = 6.
Proof. split; [|reflexivity]. repeat (constructor; [cbn; tauto|]). constructor. Qed.

(** A parameter without values makes the choice fail with ZeroDivisionError. *)
Theorem C75_grid_empty : forall {K A} (config : list (K * list A)) k z, In (k, []) config -> chosen config z = Err ZeroDivisionError.
Proof.
  intros K A config k z H. assert (E : product (map snd config) = []).
  { apply length_zero_iff_nil. rewrite product_length. induction config as [|[k' v] t IH]; [destruct H|]. cbn [map snd combinations fold_right]. fold (combinations (map snd t)).
    destruct H as [H|H]; [injection H as _ ->; reflexivity|]. rewrite IH by exact H. lia. }
  unfold chosen. now rewrite E.
Qed.
Print Assumptions C75_grid_empty.
Example C75_grid_empty_ex : In ("lr"%string, []) [("width"%string, [Int 32]); ("lr"%string, [])]. Proof. right. now left. Qed.

(** * examples/j1j2_2d_monte_carlo_4.py *)

(** The script exits after the first 60 epochs of 256 batches iff there is an epoch from the tenth on that ends with a bad batch; it exits with the first one. *)
Section J1J2.
  Context (g invariant : vmc) (now : nat -> R).
  Let bad j := 10 <= j /\ bad_batch j1j2_energy g (2 ^ 8 * (j + 1)).
  Let W B v := forall G, @new_generator unit B None = Ok G -> whole (with_served v G) /\ fetched (with_served v G) = 0.
  Lemma new_whole B v : W B v.
  Proof. intros G E. assert (F : fresh B None (with_served v G)) by exact E. split; [exact (fresh_whole B _ F)|]. exact (proj2 (proj2 (proj2 (proj2 (fresh_cases B None _ F))))). Qed.
  Lemma new_ok B : 0 < B -> exists G, @new_generator unit B None = Ok G.
  Proof. intros H. unfold new_generator, set_batch_size. rewrite Nat.ltb_irrefl. destruct (Nat.eqb_spec B 0); [lia|]. eexists. reflexivity. Qed.
  Lemma set_sampler_whole v B : 0 < B -> exists v', set_sampler v B = Ok v' /\ whole v' /\ fetched v' = fetched v /\ same_values v v'.
  Proof.
    intros H. unfold set_sampler, TrainingModel.set_batch_size. cbv zeta. rewrite Nat.ltb_irrefl. destruct (Nat.eqb_spec B 0); [lia|]. cbn [bind]. eexists. split; [reflexivity|].
    unfold whole, fetched, same_values. cbn [served gen_mini gen_batch_size gen_idx gen_fetched current_energy current_local_energy_variance observable_value start_time sampling_end_time local_energy_end_time].
    split; [repeat split; lia|]. split; [reflexivity|]. repeat split.
  Qed.
  Lemma pos a : 0 < 2 ^ a. Proof. pose proof (Nat.pow_nonzero 2 a). lia. Qed.

  Theorem C75_j1j2 :
    (forall e, j1j2_script g invariant now = Ok (Exit e) <-> e < 60 /\ bad e /\ forall i, i < e -> ~ bad i) /\
    ((forall i, i < 60 -> ~ bad i) ->
     exists n r, j1j2_script g invariant now = Ok (Evaluated [r]) /\ n <= 80 /\
       let last := 2 ^ 8 * (60 + n) in
       lookup "energy/energy" r = Some (Re (current_energy g last)) /\
       lookup "energy/local_energy_variance" r = Some (Re (current_local_energy_variance g last)) /\
       lookup "energy/relative_error" r = Some ((j1j2_energy - Re (current_energy g last)) / j1j2_energy)%R /\
       lookup "observables/sigma_z" r = Some (Re (observable_value g "sigma_z" last)) /\
       lookup "observables/abs_sigma_z" r = Some (Re (observable_value g "abs_sigma_z" last))).
  Proof.
    assert (X : j1j2_energy <> 0%R) by (unfold j1j2_energy; lra).
    unfold j1j2_script. destruct (new_ok (2 ^ 10) (pos 10)) as [G EG]. rewrite EG. cbn [bind]. destruct (new_whole _ g G EG) as [W1 F1].
    set (w0 := {| CallbackModel.train := with_served g G; val := with_served g G; clock := now; reads := 0; stop_training := false; stopped_epoch := None |}).
    change j1j2_callbacks with (stopping_callbacks j1j2_energy).
    destruct (fit_stopping j1j2_energy (2 ^ 8) X (pos 8) 60 0 w0 W1 eq_refl eq_refl) as (w1 & l1 & E1 & V1 & W1' & D). cbv zeta in D. rewrite E1. cbn [bind fst].
    change (train w0) with (with_served g G) in D, V1.
    rewrite F1 in D. cbn [Nat.add] in D.
    assert (BE : forall j, (10 <= j /\ bad_batch j1j2_energy (with_served g G) (2 ^ 8 * (j + 1))) <-> bad j) by (intros j; unfold bad, bad_batch; reflexivity).
    destruct D as [(j & D1 & D2 & D3 & D4 & _)|(D1 & D2 & D3 & D4)].
    - rewrite D4. split.
      + intros e. split.
        * intros E. injection E as <-. split; [exact D1|]. split; [now apply BE|]. intros i Hi. rewrite <- BE. now apply D3.
        * intros (H1 & H2 & H3). do 2 f_equal. destruct (Nat.lt_trichotomy j e) as [H|[H|H]]; [|exact H|].
          -- exfalso. apply (H3 j H). now apply BE.
          -- exfalso. apply (D3 e H). now apply BE.
      + intros N. exfalso. apply (N j D1). now apply BE.
    - rewrite D2. split.
      { intros e. split.
        - intros E. exfalso. destruct (set_sampler (train w1) (2 ^ 10 * 8)); cbn [bind] in E; [|discriminate]. destruct (fit_generator _ _ 80 _ _); cbn [bind] in E; [|discriminate].
          destruct (new_generator (2 ^ 10 * 8) _); cbn [bind] in E; [|discriminate]. destruct (evaluate_other _ _ _ _ _); cbn [bind] in E; discriminate.
        - intros (H1 & H2 & _). exfalso. apply (D1 e H1). now apply BE. }
      intros _. assert (P8 : 0 < 2 ^ 10 * 8) by (pose proof (pos 10); lia). destruct (set_sampler_whole (train w1) (2 ^ 10 * 8) P8) as (g2 & -> & W2 & F2 & V2). cbn [bind].
      destruct (fit_stopping j1j2_energy (2 ^ 8) X (pos 8) 80 0 (with_train w1 g2) W2 D3 D2) as (w2 & l2 & -> & V3 & W3 & D'). cbv zeta in D'. cbn [bind fst].
      change (train (with_train w1 g2)) with g2 in D', V3.
      destruct (new_ok (2 ^ 10 * 8) P8) as [G' ->]. cbn [bind].
      assert (L : exists n, n <= 80 /\ 1 <= 60 + n /\ fetched (train w2) = 2 ^ 8 * (60 + n)).
      { rewrite F2, D4 in D'. destruct D' as [(j & J & _ & _ & _ & FJ)|(_ & _ & _ & FJ)]; [exists (j + 1)|exists 80]; (split; [lia|]; split; [lia|]); rewrite FJ; generalize (2 ^ 8); intros q; lia. }
      destruct L as (n & Hn & Hn' & FL). assert (FP : 0 < fetched (train w2)) by (rewrite FL; pose proof (pos 8); nia).
      destruct (fetched (train w2)) as [|k] eqn:Ek; [lia|]. clear FP.
      change (firstn 4 (stopping_callbacks j1j2_energy)) with (default_callbacks false (Some j1j2_energy) false 1). unfold evaluate_other.
      destruct (evaluate_other_default j1j2_energy false 1 ["energy/energy"; "energy/relative_error"]%string 200 (fun _ h => h) 0 (with_served invariant G') w2 k [] Ek (fun l key h _ => match h with end)) as [w3 E3].
      rewrite E3. cbn [app bind]. destruct (mean_entries j1j2_energy (train w2) (fun _ => Datatypes.S k) (fun j => clock w2 (reads w2 + j)) 200 ltac:(lia)) as (r & -> & R1 & R2 & R3 & R4 & R5).
      cbn [bind snd]. exists n, r. split; [reflexivity|]. split; [exact Hn|]. cbv zeta. rewrite <- FL.
      rewrite average_const in R1, R2, R3, R4, R5 by lia.
      assert (VV : same_values g (train w2)). { eapply same_trans; [|exact V3]. eapply same_trans; [|exact V2]. exact V1. }
      destruct VV as (A1 & A2 & A3 & _). rewrite A1 in R1, R3. rewrite A2 in R2. rewrite A3 in R4, R5. auto.
  Qed.
End J1J2.
Print Assumptions C75_j1j2.
Example C75_j1j2_ex : let g e := {| served := empty_generator; current_energy := fun _ => RtoC e; current_local_energy_variance := fun _ => C0; observable_value := fun _ _ => C0;
    start_time := fun _ => 0%R; sampling_end_time := fun _ => 0%R; local_energy_end_time := fun _ => 0%R |} in
  (forall k, bad_batch j1j2_energy (g (-20)%R) k) /\ (forall k, ~ bad_batch j1j2_energy (g (-30)%R) k).
Proof.
  cbv zeta. assert (A : (0 < Rabs j1j2_energy)%R) by (apply Rabs_pos_lt; unfold j1j2_energy; lra).
  assert (E : Rabs j1j2_energy = 30.022227800323677%R) by (unfold j1j2_energy; rewrite Rabs_left; lra).
  split; intros k; unfold bad_batch; cbn [current_energy current_local_energy_variance]; change (Re C0) with 0%R.
  - change (Re (RtoC (-20))) with (-20)%R. rewrite E. unfold j1j2_energy. split; lra.
  - change (Re (RtoC (-30))) with (-30)%R. rewrite E. unfold j1j2_energy. intros [H _]. lra.
Qed.

(** So the evaluation does not use the symmetrised model that it is called with. *)
Theorem C75_j1j2_evaluation_refuted :
  (forall g invariant invariant' now, j1j2_script g invariant now = j1j2_script g invariant' now) /\
  exists g invariant now r, j1j2_script g invariant now = Ok (Evaluated [r]) /\
    lookup "energy/energy" r <> Some (average (fun i => Re (current_energy invariant (i + 1))) 200).
Proof.
  split.
  - intros g v v' now. unfold j1j2_script. generalize (2 ^ 10 * 8). generalize (2 ^ 10) (2 ^ 8) 200. intros b1 q steps b2. destruct (new_generator b1 None) as [G|e]; [|reflexivity]. cbn [bind]. destruct (fit_generator _ _ _ _ _) as [r1|e]; [|reflexivity]. cbn [bind].
    destruct (stopped_epoch (fst r1)); [reflexivity|]. destruct (set_sampler _ _) as [g2|e]; [|reflexivity]. cbn [bind]. destruct (fit_generator _ _ _ _ _) as [r2|e]; [|reflexivity]. cbn [bind].
    destruct (new_generator _ _) as [G'|e]; [|reflexivity]. cbn [bind]. unfold evaluate_other.
    assert (H : forall n i a b w arr, (do r <- evaluate_other_loop (firstn 4 j1j2_callbacks) (Some ["energy/energy"; "energy/relative_error"]%string) n i a w arr ; Ok (Evaluated [snd r])) =
                                      (do r <- evaluate_other_loop (firstn 4 j1j2_callbacks) (Some ["energy/energy"; "energy/relative_error"]%string) n i b w arr ; Ok (Evaluated [snd r]))).
    { induction n as [|n IH]; intros i a b w arr; cbn [evaluate_other_loop].
      - destruct (mean_logs arr None); reflexivity.
      - destruct (call_all _ _ _ _) as [r|e]; [|reflexivity]. cbn [bind]. destruct (mean_logs _ _); [|reflexivity]. cbn [bind]. apply IH. }
    apply H.
  - set (g := fun e => {| served := empty_generator; current_energy := fun _ => RtoC e; current_local_energy_variance := fun _ => C0; observable_value := fun _ _ => C0;
      start_time := fun _ => 0%R; sampling_end_time := fun _ => 0%R; local_energy_end_time := fun _ => 0%R |}).
    exists (g (-30)%R), (g 0%R), (fun _ => 0%R). destruct (C75_j1j2 (g (-30)%R) (g 0%R) (fun _ => 0%R)) as [_ H]. destruct H as (n & r & E & _ & R1 & _).
    + intros i _ [_ B]. exact (proj2 C75_j1j2_ex _ B).
    + exists r. split; [exact E|]. rewrite R1. cbn [g current_energy RtoC Re]. rewrite average_const by lia. intros Q. injection Q as Q. lra.
Qed.
Print Assumptions C75_j1j2_evaluation_refuted.

(** * examples/evaluate_with_2d_obc_invariant.py *)

(** This script makes new callbacks for the second evaluation: it prints the means over the 200 batches after training, and over the 200 of the symmetrised model. *)
Theorem C75_obc_evaluation : forall (g invariant : vmc) (now : nat -> R),
  exists r s, obc_script g invariant now = Ok (Evaluated [r; s]) /\
    lookup "energy/energy" r = Some (average (fun i => Re (current_energy g (1000 + i + 1))) 200) /\
    lookup "energy/local_energy_variance" r = Some (average (fun i => Re (current_local_energy_variance g (1000 + i + 1))) 200) /\
    lookup "observables/abs_sigma_z" r = Some (average (fun i => Re (observable_value g "abs_sigma_z" (1000 + i + 1))) 200) /\
    lookup "energy/energy" s = Some (average (fun i => Re (current_energy invariant (i + 1))) 200) /\
    lookup "energy/local_energy_variance" s = Some (average (fun i => Re (current_local_energy_variance invariant (i + 1))) 200) /\
    lookup "observables/abs_sigma_z" s = Some (average (fun i => Re (observable_value invariant "abs_sigma_z" (i + 1))) 200).
Proof.
  intros g v now. unfold obc_script, obc_callbacks. set (x := (-50.18662388277671)%R). destruct (new_ok 128 ltac:(lia)) as [G EG]. rewrite EG. cbn [bind]. destruct (new_whole _ g G EG) as [W1 F1].
  set (w0 := {| CallbackModel.train := with_served g G; val := with_served g G; clock := now; reads := 0; stop_training := false; stopped_epoch := None |}).
  destruct (fit_in_batch x 1 500 2 0 w0 W1 eq_refl) as (w1 & l1 & -> & V1 & W1' & FE). cbn [bind fst]. change (train w0) with (with_served g G) in V1, FE. rewrite F1 in FE.
  assert (FE' : fetched (train w1) = 1000) by (rewrite FE; reflexivity). clear FE.
  destruct (evaluate_whole x true 1 ["energy/energy"; "energy/relative_error"]%string 200 w1 (fun _ h => h) W1') as [w2 E2]. rewrite E2.
  destruct (mean_entries x (train w1) (fun j => fetched (train w1) + S j) (fun j => clock w1 (reads w1 + j)) 200 ltac:(lia)) as (r & -> & R1 & R2 & _ & _ & R5). cbn [bind fst snd].
  destruct (new_whole _ v G EG) as [W3 F3]. set (w3 := with_train w2 (with_served v G)).
  destruct (evaluate_whole x true 1 ["energy/energy"; "energy/relative_error"]%string 200 w3 (fun _ h => h) W3) as [w4 E4]. rewrite E4.
  destruct (mean_entries x (train w3) (fun j => fetched (train w3) + S j) (fun j => clock w3 (reads w3 + j)) 200 ltac:(lia)) as (s & -> & S1 & S2 & _ & _ & S5). cbn [bind snd].
  exists r, s. split; [reflexivity|]. destruct V1 as (A1 & A2 & A3 & _). rewrite FE', A1 in R1. rewrite FE', A2 in R2. rewrite FE', A3 in R5.
  change (train w3) with (with_served v G) in S1, S2, S5. rewrite F3 in S1, S2, S5.
  split; [rewrite R1; f_equal; apply average_ext; intros i _; do 2 f_equal; lia|].
  split; [rewrite R2; f_equal; apply average_ext; intros i _; do 2 f_equal; lia|].
  split; [rewrite R5; f_equal; apply average_ext; intros i _; do 2 f_equal; lia|].
  split; [rewrite S1; f_equal; apply average_ext; intros i _; cbn [with_served current_energy]; do 2 f_equal; lia|].
  split; [rewrite S2; f_equal; apply average_ext; intros i _; cbn [with_served current_local_energy_variance]; do 2 f_equal; lia|].
  rewrite S5; f_equal; apply average_ext; intros i _; cbn [with_served observable_value]; do 2 f_equal; lia.
Qed.
Print Assumptions C75_obc_evaluation.
