(** C72: what the commands of the experiment scripts do. *)
From Coq Require Import String List ZArith Reals Bool Arith Lia Lra.
From Verif Require Import Base OrderingModel OrderingSpec Cplx IsingModel HeisenbergModel LatticeSpec AutoregressiveSpec AutoregressiveProofs ObservableModel ObservableSpec ObservableProofs ExactModel ExactSpec ExactProofs
  ExactOperatorProofs MonteCarloModel MonteCarloSpec MonteCarloProofs SymmetryModel SymmetrySpec SymmetryProofs SymmetryEnsembleProofs SymmetryProps
  SymmetricEvaluationModel SymmetricEvaluationSpec SymmetricEvaluationProofs SymmetricBondsProofs SymmetricLibraryProofs SymmetricEvaluationProps
  TrainingModel CheckpointModel CallbackModel CallbackSpec CallbackProofs CallbackProps StagesModel StagesSpec StagesProofs StagesProps RunnerModel RunnerSpec RunnerProofs.
Import ListNotations.

(** The two scripts, their Hamiltonians, and the energies that are known. *)
Inductive system := Ising | Heisenberg.
Definition script (s : system) := match s with Ising => ising_main | Heisenberg => heisenberg_main end.
Definition matrix (s : system) (c : config) : list Z -> list Z -> C :=
  match s with Ising => ising_matrix 1 (gamma c) (pbc c) (hilbert_state_shape c) | Heisenberg => heisenberg_matrix true (pbc c) (hilbert_state_shape c) end.
Definition energies (s : system) : list (nat * bool * option R * R) :=
  match s with
  | Ising => map (fun p => (12, false, Some (fst p), snd p)) [(2, -346.982); (2.5, -395.654); (3, -457.039); (3.5, -524.51); (4, -593.536)]%R
  | Heisenberg => [(10, true, None, (-268.61976)%R); (10, false, None, (-251.4624)%R); (16, false, None, (-658.9759488)%R)]
  end.
Definition field (s : system) (c : config) : option R := match s with Ising => Some (gamma c) | Heisenberg => None end.
Definition known (s : system) (N : nat) (c : config) (x : R) : Prop := In (N, pbc c, field s c, x) (energies s).
(** No energy is known for the grid and its boundary, whatever the field. *)
Definition unknown (s : system) (N : nat) (c : config) : Prop := forall g x, ~ In (N, pbc c, g, x) (energies s).

Section Scripts.
  Context (machine : list (array Z) -> res (list C)) (batch : nat -> nat -> list (list Z)) (start sampled evaluated now : nat -> R).
  Notation run s c k := (script s machine batch start sampled evaluated now c k).

  Lemma grid_square N a : is_grid [N; N] a a = (N =? a).
  Proof. unfold is_grid. cbn [length nth Nat.eqb andb]. destruct (N =? a); reflexivity. Qed.
  Lemma energy_in N b g x : In (N, b, g, x) (energies Ising) -> N = 12 /\ b = false.
  Proof. intros H. repeat destruct H as [H|H]; [inversion H; auto..|destruct H]. Qed.
  Lemma table_known c N x : known Ising N c x -> ising_table (gamma c) = Ok x.
  Proof.
    unfold known, ising_table. cbn [field energies map fst snd]. intros H.
    repeat destruct H as [H|H]; try (injection H as E1 E2 E3 E4; rewrite <- E3, <- E4); [..|destruct H]; repeat (destruct (Req_EM_T _ _); try (exfalso; lra)); f_equal; lra.
  Qed.

  Lemma represents s c N : func c <> None -> hilbert_state_shape c = [N; N] -> 0 < N ->
    exists op, operator_represents (N * N) (matrix s c) op /\ lattice_matrix (pbc c) [N; N] (matrix s c) /\
      (forall x k, known s N c x -> run s c k = dispatch machine batch start sampled evaluated now op c (Some x) k) /\
      (forall k, unknown s N c -> run s c k = dispatch machine batch start sampled evaluated now op c None k).
  Proof.
    intros F Hs HN. destruct (func c) as [cmd|] eqn:Fc; [|congruence]. clear F. destruct s; unfold matrix, script; rewrite Hs.
    - exists (ising_operator 1 (gamma c) (pbc c) [N; N]). split; [|split; [|split]].
      + replace (N * N) with (sites_of [N; N]) by (cbn; lia). apply ising_operator_represents. right. exists N, N. auto.
      + left. eauto.
      + intros x k K. unfold ising_main. rewrite Fc, Hs, grid_square. pose proof (table_known c N x K) as T. apply energy_in in K. destruct K as [-> ->].
        cbn [negb andb Nat.eqb]. rewrite T. reflexivity.
      + intros k U. unfold ising_main. rewrite Fc, Hs, grid_square. destruct (negb (pbc c) && (N =? 12)) eqn:E; [|reflexivity]. exfalso.
        apply andb_true_iff in E. destruct E as [E1 E2]. apply Nat.eqb_eq in E2. apply negb_true_iff in E1. subst N.
        apply (U (Some 2%R) (-346.982)%R). rewrite E1. now left.
    - exists (heisenberg_operator (heisenberg_init [N; N] true (pbc c))). split; [|split; [|split]].
      + replace (N * N) with (sites_of [N; N]) by (cbn; lia). apply (heisenberg_operator_represents [N; N] true (pbc c) []); [right; exists N, N; auto|reflexivity].
      + right. eauto.
      + intros x k K. unfold heisenberg_main, heisenberg_energy. rewrite Fc, Hs, !grid_square. unfold known in K. cbn [field energies map fst snd] in K.
        repeat destruct K as [K|K]; [injection K as E1 E2 E3; rewrite <- E1, <- E2, <- E3; reflexivity..|destruct K].
      + intros k U. unfold heisenberg_main, heisenberg_energy. rewrite Fc, Hs, !grid_square.
        destruct (N =? 10) eqn:E1; [apply Nat.eqb_eq in E1; subst N; exfalso; destruct (pbc c) eqn:P|].
        * apply (U None (-268.61976)%R). rewrite P. now left.
        * apply (U None (-251.4624)%R). rewrite P. right. now left.
        * destruct (negb (pbc c) && (N =? 16)) eqn:E; [|reflexivity]. exfalso. apply andb_true_iff in E. destruct E as [E2 E3].
          apply Nat.eqb_eq in E3. apply negb_true_iff in E2. subst N. apply (U None (-658.9759488)%R). rewrite E2. right. right. now left.
  Qed.
End Scripts.

(** C72: without a subcommand nothing is done, and the script ends with AttributeError. *)
Theorem C72_no_command : forall (s : system) machine batch start sampled evaluated now (c : config) (k : nat),
  func c = None ->
  script s machine batch start sampled evaluated now c k = {| used := None; trained := []; files := []; printed := None; raised := Some AttributeError |}.
Proof. intros s M b t1 t2 t3 t4 c k F. destruct s; unfold script, ising_main, heisenberg_main; rewrite F; reflexivity. Qed.
Print Assumptions C72_no_command.
Example C72_no_command_ex : func {| func := None; hilbert_state_shape := [10; 10]; pbc := false; gamma := 0; batch_size := []; num_epoch := []; learning_rate := [];
  mini_batch_size := 0; workers := None; num_of_samples := 0 |} = None. Proof. reflexivity. Qed.

(** C72 fails for fields outside the table: on the open 12 x 12 grid, which is the default, every other field ends the script with KeyError before anything
    is trained or evaluated; the fields of the table do not. *)
Theorem C72_field_refuted : forall machine batch start sampled evaluated now (c : config) (k : nat),
  func c <> None -> hilbert_state_shape c = [12; 12] -> pbc c = false ->
  (~ In (gamma c) [2; 2.5; 3; 3.5; 4]%R ->
     ising_main machine batch start sampled evaluated now c k =
     {| used := Some (ising_operator 1 (gamma c) false [12; 12]); trained := []; files := []; printed := None; raised := Some KeyError |}) /\
  (In (gamma c) [2; 2.5; 3; 3.5; 4]%R -> exists x, known Ising 12 c x).
Proof.
  intros M b t1 t2 t3 t4 c k F Hs Hp. split; intros H.
  - unfold ising_main. destruct (func c) eqn:Fc; [|congruence]. clear F. rewrite Hs, Hp, grid_square. cbn [negb andb Nat.eqb].
    unfold ising_table. repeat (destruct (Req_EM_T _ _) as [E|_]; [exfalso; apply H; rewrite E; cbn [In]; tauto|]). reflexivity.
  - unfold known. rewrite Hp. cbn [field energies map fst snd In]. cbn [In] in H. repeat destruct H as [H|H]; [rewrite <- H; eauto 10..|destruct H].
Qed.
Print Assumptions C72_field_refuted.
Example C72_field_ex : func (ising_train 1) <> None /\ hilbert_state_shape (ising_train 1) = [12; 12] /\ pbc (ising_train 1) = false /\ ~ In (gamma (ising_train 1)) [2; 2.5; 3; 3.5; 4]%R.
Proof. split; [discriminate|]. repeat split. cbn [gamma ising_train In]. intros H. repeat destruct H as [H|H]; lra. Qed.

(** C72: evaluation prints the means over the num_of_samples // mini_batch_size batches of mini_batch_size samples it draws. *)
Theorem C72_evaluation : forall (s : system) machine batch start sampled evaluated now (c : config) (k N : nat) (x : R),
  func c = Some Eval -> hilbert_state_shape c = [N; N] -> 0 < N -> known s N c x ->
  0 < mini_batch_size c <= num_of_samples c ->
  let steps := num_of_samples c / mini_batch_size c in
  samples (N * N) (mini_batch_size c) 1 steps batch ->
  exists op r, script s machine batch start sampled evaluated now c k = {| used := Some op; trained := []; files := []; printed := Some r; raised := None |} /\
    operator_represents (N * N) (matrix s c) op /\
    reports (N * N) (matrix s c) (predicted (evaluation_model machine) [N; N]) x batch 1 1 steps r /\
    length (all_rows batch 1 steps) = steps * mini_batch_size c /\ num_of_samples c < length (all_rows batch 1 steps) + mini_batch_size c.
Proof.
  intros s M b t1 t2 t3 t4 c k N x F Hs HN K [M0 M1] steps S.
  destruct (represents M b t1 t2 t3 t4 s c N ltac:(congruence) Hs HN) as (op & HO & _ & D & _).
  assert (S0 : 0 < steps) by (apply Nat.div_str_pos; lia).
  destruct (report_ok M b t1 t2 t3 t4 [N; N] (N * N) (matrix s c) op HO None (mini_batch_size c) steps x false M0 S0 Nat.lt_0_1 S) as (w & w' & r & E1 & E2 & R).
  exists op, r. split; [|split; [exact HO|split; [exact R|]]].
  - rewrite (D x k K). unfold dispatch. rewrite F. unfold eval_script. rewrite Hs, E1. cbn [bind]. fold steps. rewrite E2. reflexivity.
  - assert (L : length (all_rows b 1 steps) = steps * mini_batch_size c).
    { unfold all_rows. rewrite (flat_map_length_const _ (mini_batch_size c)), seq_length; [reflexivity|]. intros a Ha. apply in_seq in Ha. cbn [seq flat_map].
      rewrite app_nil_r. apply S; lia. }
    split; [exact L|]. rewrite L. unfold steps. pose proof (Nat.div_mod (num_of_samples c) (mini_batch_size c) ltac:(lia)).
    pose proof (Nat.mod_upper_bound (num_of_samples c) (mini_batch_size c) ltac:(lia)). lia.
Qed.
Print Assumptions C72_evaluation.
Example C72_evaluation_ex : known Ising 12 (ising_eval 3) (-457.039) /\ known Heisenberg 10 heisenberg_eval (-251.4624) /\
  samples 1 2 1 3 (fun _ _ => [[1]; [-1]]%Z).
Proof.
  split; [right; right; now left|]. split; [right; now left|]. intros r k _ _. split; [reflexivity|]. intros s [<-|[<-|[]]]; [now left|right; now left].
Qed.

(** Where an evaluation draws no sample, it raises IndexError; without a known energy it raises KeyError at the first step. *)
Theorem C72_evaluation_refuted : forall (s : system) machine batch start sampled evaluated now (c : config) (k N : nat),
  func c = Some Eval -> hilbert_state_shape c = [N; N] -> 0 < N -> 0 < mini_batch_size c ->
  let o := script s machine batch start sampled evaluated now c k in
  ((exists x, known s N c x) \/ unknown s N c -> num_of_samples c < mini_batch_size c -> printed o = None /\ raised o = Some IndexError) /\
  (unknown s N c -> mini_batch_size c <= num_of_samples c -> printed o = None /\ raised o = Some KeyError).
Proof.
  intros s M b t1 t2 t3 t4 c k N F Hs HN M0 o. unfold o.
  destruct (represents M b t1 t2 t3 t4 s c N ltac:(congruence) Hs HN) as (op & HO & _ & D & U).
  destruct (world_ok M b t1 t2 t3 t4 [N; N] op None (mini_batch_size c) M0) as (w & E1 & Fr & _).
  split.
  - intros K L. assert (G : exists e0, script s M b t1 t2 t3 t4 c k = dispatch M b t1 t2 t3 t4 op c e0 k) by (destruct K as [[x K]|K]; eauto).
    destruct G as [e0 ->]. unfold dispatch. rewrite F. unfold eval_script. rewrite Hs, E1, (Nat.div_small _ _ L). cbn [bind evaluate]. split; reflexivity.
  - intros K L. rewrite (U k K). unfold dispatch. rewrite F. unfold eval_script. rewrite Hs, E1. cbn [bind]. rewrite default_four.
    rewrite (C53_relative_error_refuted false 1 (mini_batch_size c) (Some (mini_batch_size c)) shown_keys); [split; reflexivity| |exact Fr|right; now left].
    apply Nat.div_str_pos. lia.
Qed.
Print Assumptions C72_evaluation_refuted.
Example C72_evaluation_refuted_ex : forall c, pbc c = true -> unknown Ising 12 c /\ unknown Heisenberg 4 c.
Proof.
  intros c P. split; intros g x; rewrite P; cbn [energies map fst snd]; intros H; repeat destruct H as [H|H]; try discriminate H; destruct H.
Qed.

(** The epochs and the files of a training that is started with a checkpoint after [k] epochs (as in C57). *)
Definition planned (c : config) (k : nat) : list (epoch_run R) * list nat :=
  let stages := stages_of (batch_size c) (num_epoch c) (learning_rate c) in
  let end_of j := length (schedule (firstn j stages)) in
  (remaining k stages, map Datatypes.S (filter (fun j => Nat.max k (end_of j) <? end_of (Datatypes.S j)) (seq 0 (length stages)))).
Definition good_stages (c : config) : Prop :=
  length (num_epoch c) <> 1 /\ length (batch_size c) = length (num_epoch c) /\ length (learning_rate c) = length (num_epoch c) /\
  forall s, In s (stages_of (batch_size c) (num_epoch c) (learning_rate c)) -> fits (mini_batch_size c) s.
Lemma train_planned c k : good_stages c -> workers c = None -> StagesModel.train (mini_batch_size c) (workers c) (batch_size c) (num_epoch c) (learning_rate c) k =
  Ok (planned c k, Nat.max k (length (schedule (stages_of (batch_size c) (num_epoch c) (learning_rate c)))), None).
Proof. intros (A & B & C & D) ->. exact (C57_resume R (mini_batch_size c) (batch_size c) (num_epoch c) (learning_rate c) k A B C D). Qed.

(** C72: training runs the stages, and then prints the means over 2^15 // (mini_batch_size // 16) batches of mini_batch_size samples. *)
Theorem C72_training : forall (s : system) machine batch start sampled evaluated now (c : config) (k N : nat) (x : R),
  func c = Some Train -> workers c = None -> hilbert_state_shape c = [N; N] -> 0 < N -> known s N c x -> good_stages c ->
  let steps := 2 ^ 15 / (mini_batch_size c / 16) in
  16 <= mini_batch_size c -> 0 < steps -> samples (N * N) (mini_batch_size c) 1 steps batch ->
  exists op r, script s machine batch start sampled evaluated now c k =
      {| used := Some op; trained := fst (planned c k); files := snd (planned c k); printed := Some r; raised := None |} /\
    operator_represents (N * N) (matrix s c) op /\
    reports (N * N) (matrix s c) (predicted (evaluation_model machine) [N; N]) x batch 1 1 steps r.
Proof.
  intros s M b t1 t2 t3 t4 c k N x F W Hs HN K G steps M0 S0 S.
  destruct (represents M b t1 t2 t3 t4 s c N ltac:(congruence) Hs HN) as (op & HO & _ & D & _).
  destruct (report_ok M b t1 t2 t3 t4 [N; N] (N * N) (matrix s c) op HO None (mini_batch_size c) steps x false ltac:(lia) S0 Nat.lt_0_1 S) as (w & w' & r & E1 & E2 & R).
  exists op, r. split; [|split; [exact HO|exact R]].
  rewrite (D x k K). unfold dispatch. rewrite F. unfold train_script. rewrite (train_planned c k G W).
  destruct (planned c k) as [ep fs] eqn:P. cbn [fst snd]. unfold final_evaluation. rewrite Hs, W, E1. cbn [bind]. unfold evaluation_steps.
  assert (Z : (mini_batch_size c / 16 =? 0) = false). { apply Nat.eqb_neq. pose proof (Nat.div_str_pos (mini_batch_size c) 16 ltac:(lia)). lia. }
  rewrite Z. cbn [bind]. fold steps. rewrite E2. reflexivity.
Qed.
Print Assumptions C72_training.
Lemma pow2_pos a : 0 < 2 ^ a. Proof. pose proof (Nat.pow_nonzero 2 a). lia. Qed.
Lemma pow2_div a b : b <= a -> 2 ^ a / 2 ^ b = 2 ^ (a - b).
Proof. intros H. replace a with (a - b + b) at 1 by lia. rewrite Nat.pow_add_r. apply Nat.div_mul. pose proof (pow2_pos b). lia. Qed.
Lemma final_steps a : 4 <= a <= 19 -> 2 ^ 15 / (2 ^ a / 16) = 2 ^ (19 - a).
Proof. intros H. change 16 with (2 ^ 4) at 1. rewrite pow2_div by lia. rewrite pow2_div by lia. f_equal. lia. Qed.
Lemma pow2_fits a b : a < b \/ b <= a -> 2 ^ a < 2 ^ b \/ 2 ^ a mod 2 ^ b = 0.
Proof.
  intros [H|H]; [left; apply Nat.pow_lt_mono_r; lia|right]. replace a with (a - b + b) by lia. rewrite Nat.pow_add_r. apply Nat.mod_mul. pose proof (pow2_pos b). lia.
Qed.
Lemma good_documented g : good_stages (ising_train g) /\ good_stages heisenberg_train.
Proof.
  split; (split; [discriminate|]; split; [reflexivity|]; split; [reflexivity|]);
    cbn [batch_size num_epoch learning_rate mini_batch_size ising_train heisenberg_train stages_of combine].
  - intros s [<-|[<-|[<-|[]]]]; (split; [apply pow2_pos|apply pow2_fits; lia]).
  - intros s [<-|[<-|[]]]; (split; [apply pow2_pos|apply pow2_fits; lia]).
Qed.
Lemma at_least_16 a : 4 <= a -> 16 <= 2 ^ a.
Proof. intros H. change 16 with (2 ^ 4). apply Nat.pow_le_mono_r; lia. Qed.
Example C72_training_ex : let c := ising_train 3.5 in
  func c = Some Train /\ workers c = None /\ known Ising 12 c (-524.51) /\ good_stages c /\ 16 <= mini_batch_size c /\ 2 ^ 15 / (mini_batch_size c / 16) = 128.
Proof.
  cbv zeta. split; [reflexivity|]. split; [reflexivity|]. split; [do 3 right; now left|]. split; [apply good_documented|]. split; [apply at_least_16; lia|].
  cbn [mini_batch_size ising_train]. now rewrite final_steps by lia.
Qed.

(** C72: the training commands of the README. They run 250 epochs in three stages, or 450 in two; the final evaluation uses 2^19 samples, 16 times the 2^15
    that the number of steps was computed for. *)
Lemma script_ising : script Ising = ising_main. Proof. reflexivity. Qed.
Theorem C72_documented : forall machine batch start sampled evaluated now (g : R),
  In g [2; 2.5; 3; 3.5; 4]%R -> samples (12 * 12) (2 ^ 12) 1 (2 ^ 7) batch ->
  let o := ising_main machine batch start sampled evaluated now (ising_train g) 0 in
  map (fun e => snd (fst e)) (trained o) = repeat (2 ^ 7) 100 ++ repeat (2 ^ 10) 100 ++ repeat (2 ^ 13) 50 /\
  map (fun e => fst (fst e)) (trained o) = seq 0 250 /\ map snd (trained o) = repeat (StagesModel.Scalar 0.001%R) 250 /\ files o = [1; 2; 3] /\ raised o = None /\
  exists r, printed o = Some r /\ lookup "observables/abs_sigma_z" r = Some (mean_rows (fun s => Rabs (IZR (sumZ s)) / INR 144)%R (all_rows batch 1 (2 ^ 7))) /\
    length (all_rows batch 1 (2 ^ 7)) = 2 ^ 19.
Proof.
  intros M b t1 t2 t3 t4 g Hg S o.
  destruct (proj2 (C72_field_refuted M b t1 t2 t3 t4 (ising_train g) 0 ltac:(discriminate) eq_refl eq_refl) Hg) as [x K].
  assert (S' : samples (12 * 12) (mini_batch_size (ising_train g)) 1 (2 ^ 15 / (mini_batch_size (ising_train g) / 16)) b).
  { cbn [mini_batch_size ising_train]. rewrite final_steps by lia. exact S. }
  destruct (C72_training Ising M b t1 t2 t3 t4 (ising_train g) 0 12 x eq_refl eq_refl eq_refl ltac:(lia) K (proj1 (good_documented g))) as (op & r & E & _ & R).
  - cbn [mini_batch_size ising_train]. apply at_least_16. lia.
  - cbn [mini_batch_size ising_train]. rewrite final_steps by lia. apply pow2_pos.
  - exact S'.
  - unfold o. clear o. rewrite script_ising in E. rewrite E. cbn [trained files printed raised].
    split; [|split; [|split; [|split; [|split; [reflexivity|]]]]].
    + unfold planned. cbn [fst batch_size num_epoch learning_rate ising_train stages_of combine]. generalize (2 ^ 7) (2 ^ 10) (2 ^ 13). intros a1 a2 a3. reflexivity.
    + unfold planned. cbn [fst batch_size num_epoch learning_rate ising_train stages_of combine]. generalize (2 ^ 7) (2 ^ 10) (2 ^ 13). intros a1 a2 a3. reflexivity.
    + unfold planned. cbn [fst batch_size num_epoch learning_rate ising_train stages_of combine]. generalize (2 ^ 7) (2 ^ 10) (2 ^ 13). intros a1 a2 a3. reflexivity.
    + unfold planned. cbn [snd batch_size num_epoch learning_rate ising_train stages_of combine]. generalize (2 ^ 7) (2 ^ 10) (2 ^ 13). intros a1 a2 a3. reflexivity.
    + exists r. split; [reflexivity|]. destruct R as (_ & _ & _ & _ & R). cbn [mini_batch_size ising_train] in R. rewrite final_steps in R by lia. split; [exact R|].
      unfold all_rows. rewrite (flat_map_length_const _ (2 ^ 12)), seq_length.
      * rewrite <- Nat.pow_add_r. reflexivity.
      * intros a Ha. apply in_seq in Ha. cbn [seq flat_map]. rewrite app_nil_r. exact (proj1 (S 0 a Nat.lt_0_1 (proj2 Ha))).
Qed.
Print Assumptions C72_documented.
Definition checkerboard (N : nat) : list Z := map (fun i => if Nat.even i then 1%Z else (-1)%Z) (seq 0 N).
Example C72_documented_ex : samples (12 * 12) (2 ^ 12) 1 (2 ^ 7) (fun _ _ => repeat (repeat 1%Z (12 * 12)) (2 ^ 12)).
Proof.
  intros r k _ _. split; [apply repeat_length|]. intros s Hs. apply repeat_spec in Hs. subst s. apply AutoregressiveProofs.in_strings. split; [reflexivity|].
  apply Forall_forall. intros x Hx. apply repeat_spec in Hx. now left.
Qed.

Lemma script_heisenberg : script Heisenberg = heisenberg_main. Proof. reflexivity. Qed.
Theorem C72_documented_heisenberg : forall machine batch start sampled evaluated now,
  samples (10 * 10) (2 ^ 11) 1 (2 ^ 8) batch ->
  let o := heisenberg_main machine batch start sampled evaluated now heisenberg_train 0 in
  map (fun e => snd (fst e)) (trained o) = repeat (2 ^ 10) 80 ++ repeat (2 ^ 11) 370 /\
  map (fun e => fst (fst e)) (trained o) = seq 0 450 /\ map snd (trained o) = repeat (StagesModel.Scalar 0.001%R) 450 /\ files o = [1; 2] /\ raised o = None /\
  exists r, printed o = Some r /\
    reports 100 (heisenberg_matrix true false [10; 10]) (predicted (evaluation_model machine) [10; 10]) (-251.4624) batch 1 1 (2 ^ 8) r /\
    length (all_rows batch 1 (2 ^ 8)) = 2 ^ 19.
Proof.
  intros M b t1 t2 t3 t4 S o.
  assert (K : known Heisenberg 10 heisenberg_train (-251.4624)) by (right; now left).
  destruct (C72_training Heisenberg M b t1 t2 t3 t4 heisenberg_train 0 10 _ eq_refl eq_refl eq_refl ltac:(lia) K (proj2 (good_documented 0))) as (op & r & E & _ & R).
  - cbn [mini_batch_size heisenberg_train]. apply at_least_16. lia.
  - cbn [mini_batch_size heisenberg_train]. rewrite final_steps by lia. apply pow2_pos.
  - cbn [mini_batch_size heisenberg_train]. rewrite final_steps by lia. exact S.
  - unfold o. clear o. rewrite script_heisenberg in E. rewrite E. cbn [trained files printed raised].
    split; [|split; [|split; [|split; [|split; [reflexivity|]]]]].
    + unfold planned. cbn [fst batch_size num_epoch learning_rate heisenberg_train stages_of combine]. generalize (2 ^ 10) (2 ^ 11). intros a1 a2. reflexivity.
    + unfold planned. cbn [fst batch_size num_epoch learning_rate heisenberg_train stages_of combine]. generalize (2 ^ 10) (2 ^ 11). intros a1 a2. reflexivity.
    + unfold planned. cbn [fst batch_size num_epoch learning_rate heisenberg_train stages_of combine]. generalize (2 ^ 10) (2 ^ 11). intros a1 a2. reflexivity.
    + unfold planned. cbn [snd batch_size num_epoch learning_rate heisenberg_train stages_of combine]. generalize (2 ^ 10) (2 ^ 11). intros a1 a2. reflexivity.
    + exists r. split; [reflexivity|]. cbn [mini_batch_size heisenberg_train] in R. rewrite final_steps in R by lia. split; [exact R|].
      unfold all_rows. rewrite (flat_map_length_const _ (2 ^ 11)), seq_length.
      * rewrite <- Nat.pow_add_r. reflexivity.
      * intros a Ha. apply in_seq in Ha. cbn [seq flat_map]. rewrite app_nil_r. exact (proj1 (S 0 a Nat.lt_0_1 (proj2 Ha))).
Qed.
Print Assumptions C72_documented_heisenberg.
Example C72_documented_heisenberg_ex : samples (10 * 10) (2 ^ 11) 1 (2 ^ 8) (fun _ _ => repeat (checkerboard (10 * 10)) (2 ^ 11)).
Proof.
  intros r k _ _. split; [apply repeat_length|]. intros s Hs. apply repeat_spec in Hs. subst s. apply AutoregressiveProofs.in_strings. split; [reflexivity|].
  apply Forall_forall. intros x Hx. apply in_map_iff in Hx. destruct Hx as (i & <- & _). destruct (Nat.even i); [now left|right; now left].
Qed.

(** C72: the evaluation commands of the README draw 2^16 samples and print their means. *)
Theorem C72_documented_evaluation : forall machine batch start sampled evaluated now (g : R) (k : nat),
  (In g [2; 2.5; 3; 3.5; 4]%R -> samples (12 * 12) (2 ^ 8) 1 (2 ^ 8) batch ->
     exists x r, In (g, x) [(2, -346.982); (2.5, -395.654); (3, -457.039); (3.5, -524.51); (4, -593.536)]%R /\
       printed (ising_main machine batch start sampled evaluated now (ising_eval g) k) = Some r /\
       reports 144 (ising_matrix 1 g false [12; 12]) (predicted (evaluation_model machine) [12; 12]) x batch 1 1 (2 ^ 8) r /\
       length (all_rows batch 1 (2 ^ 8)) = 2 ^ 16) /\
  (samples (10 * 10) (2 ^ 7) 1 (2 ^ 9) batch ->
     exists r, printed (heisenberg_main machine batch start sampled evaluated now heisenberg_eval k) = Some r /\
       reports 100 (heisenberg_matrix true false [10; 10]) (predicted (evaluation_model machine) [10; 10]) (-251.4624) batch 1 1 (2 ^ 9) r /\
       length (all_rows batch 1 (2 ^ 9)) = 2 ^ 16).
Proof.
  intros M b t1 t2 t3 t4 g k. split.
  - intros Hg S. assert (K : exists x, In (g, x) [(2, -346.982); (2.5, -395.654); (3, -457.039); (3.5, -524.51); (4, -593.536)]%R /\ known Ising 12 (ising_eval g) x).
    { unfold known. cbn [field energies map fst snd In gamma ising_eval pbc]. cbn [In] in Hg. destruct Hg as [<-|[<-|[<-|[<-|[<-|[]]]]]];
        [exists (-346.982)%R|exists (-395.654)%R|exists (-457.039)%R|exists (-524.51)%R|exists (-593.536)%R]; split; tauto. }
    destruct K as (x & Hx & K). exists x.
    destruct (C72_evaluation Ising M b t1 t2 t3 t4 (ising_eval g) k 12 x eq_refl eq_refl ltac:(lia) K) as (op & r & E & _ & R & L & _).
    + cbn [mini_batch_size num_of_samples ising_eval]. split; [apply pow2_pos|apply Nat.pow_le_mono_r; lia].
    + cbn [mini_batch_size num_of_samples ising_eval]. rewrite pow2_div by lia. exact S.
    + exists r. rewrite script_ising in E. rewrite E. cbn [mini_batch_size num_of_samples ising_eval] in R, L. rewrite pow2_div in R, L by lia.
      split; [exact Hx|]. split; [reflexivity|]. split; [exact R|]. refine (eq_trans L _). rewrite <- Nat.pow_add_r. reflexivity.
  - intros S. assert (K : known Heisenberg 10 heisenberg_eval (-251.4624)) by (right; now left).
    destruct (C72_evaluation Heisenberg M b t1 t2 t3 t4 heisenberg_eval k 10 _ eq_refl eq_refl ltac:(lia) K) as (op & r & E & _ & R & L & _).
    + cbn [mini_batch_size num_of_samples heisenberg_eval]. split; [apply pow2_pos|apply Nat.pow_le_mono_r; lia].
    + cbn [mini_batch_size num_of_samples heisenberg_eval]. rewrite pow2_div by lia. exact S.
    + exists r. rewrite script_heisenberg in E. rewrite E. cbn [mini_batch_size num_of_samples heisenberg_eval] in R, L. rewrite pow2_div in R, L by lia.
      split; [reflexivity|]. split; [exact R|]. refine (eq_trans L _). rewrite <- Nat.pow_add_r. reflexivity.
Qed.
Print Assumptions C72_documented_evaluation.
Example C72_documented_evaluation_ex : samples (10 * 10) (2 ^ 7) 1 (2 ^ 9) (fun _ _ => repeat (checkerboard (10 * 10)) (2 ^ 7)).
Proof.
  intros r k _ _. split; [apply repeat_length|]. intros s Hs. apply repeat_spec in Hs. subst s. apply AutoregressiveProofs.in_strings. split; [reflexivity|].
  apply Forall_forall. intros x Hx. apply in_map_iff in Hx. destruct Hx as (i & <- & _). destruct (Nat.even i); [now left|right; now left].
Qed.

(** C72 fails when no energy is known for the grid: the whole training is run, and then the evaluation ends with KeyError; nothing is printed. The same with a
    mini batch size below 16, with ZeroDivisionError, and with one of 2^20 or more, with IndexError. *)
Theorem C72_results_lost_refuted : forall (s : system) machine batch start sampled evaluated now (c : config) (k N : nat),
  func c = Some Train -> workers c = None -> hilbert_state_shape c = [N; N] -> 0 < N -> good_stages c -> 0 < mini_batch_size c ->
  (exists x, known s N c x) \/ unknown s N c ->
  let lost e := exists op, script s machine batch start sampled evaluated now c k =
    {| used := Some op; trained := fst (planned c k); files := snd (planned c k); printed := None; raised := Some e |} in
  (mini_batch_size c < 16 -> lost ZeroDivisionError) /\
  (2 ^ 15 < mini_batch_size c / 16 -> lost IndexError) /\
  (unknown s N c -> 16 <= mini_batch_size c -> mini_batch_size c / 16 <= 2 ^ 15 -> lost KeyError).
Proof.
  intros s M b t1 t2 t3 t4 c k N F W Hs HN G M0 K lost. unfold lost.
  destruct (represents M b t1 t2 t3 t4 s c N ltac:(congruence) Hs HN) as (op & HO & _ & D & U).
  destruct (world_ok M b t1 t2 t3 t4 [N; N] op None (mini_batch_size c) M0) as (w & E1 & Fr & _).
  assert (Q : exists e0, script s M b t1 t2 t3 t4 c k = dispatch M b t1 t2 t3 t4 op c e0 k) by (destruct K as [[x K]|K]; eauto).
  destruct (planned c k) as [ep fs] eqn:P. cbn [fst snd].
  assert (T : forall e0, dispatch M b t1 t2 t3 t4 op c e0 k = train_script M b t1 t2 t3 t4 op c e0 k) by (intros; unfold dispatch; now rewrite F).
  split; [|split].
  - intros L. destruct Q as [e0 ->]. exists op. rewrite T. unfold train_script. rewrite (train_planned c k G W), P. unfold final_evaluation. rewrite Hs, W, E1. cbn [bind].
    unfold evaluation_steps. rewrite (Nat.div_small _ _ L). reflexivity.
  - intros L. destruct Q as [e0 ->]. exists op. rewrite T. unfold train_script. rewrite (train_planned c k G W), P. unfold final_evaluation. rewrite Hs, W, E1. cbn [bind].
    unfold evaluation_steps. rewrite (Nat.div_small _ _ L). replace (mini_batch_size c / 16 =? 0) with false by (symmetry; apply Nat.eqb_neq; pose proof (pow2_pos 15); lia).
    reflexivity.
  - intros Un L1 L2. exists op. rewrite (U k Un), T. unfold train_script. rewrite (train_planned c k G W), P. unfold final_evaluation. rewrite Hs, W, E1. cbn [bind].
    assert (Z : 0 < mini_batch_size c / 16) by (apply Nat.div_str_pos; lia). unfold evaluation_steps. replace (mini_batch_size c / 16 =? 0) with false by (symmetry; apply Nat.eqb_neq; lia).
    cbn [bind]. rewrite default_four.
    rewrite (C53_relative_error_refuted false 1 (mini_batch_size c) (Some (mini_batch_size c)) shown_keys); [reflexivity| |exact Fr|right; now left].
    apply Nat.div_str_pos. lia.
Qed.
Print Assumptions C72_results_lost_refuted.
Definition small_heisenberg : config :=
  {| func := Some Train; hilbert_state_shape := [6; 6]; pbc := false; gamma := 0; batch_size := [32; 64]; num_epoch := [3; 2]; learning_rate := [0.1; 0.1]%R;
     mini_batch_size := 64; workers := None; num_of_samples := 0 |}.
Example C72_results_lost_ex : good_stages small_heisenberg /\ unknown Heisenberg 6 small_heisenberg /\ map fst (fst (planned small_heisenberg 1)) = [(1, 32); (2, 32); (3, 64); (4, 64)].
Proof.
  split; [|split].
  - split; [discriminate|]. split; [reflexivity|]. split; [reflexivity|]. intros s [<-|[<-|[]]]; (split; [cbn; lia|cbn [mini_batch_size small_heisenberg]]); [left; lia|right; reflexivity].
  - intros g x. cbn [pbc small_heisenberg energies]. intros H. repeat destruct H as [H|H]; try discriminate H. destruct H.
  - reflexivity.
Qed.

(** A run that evaluates with the given number of steps: the subcommand eval, or train up to its last part. *)
Definition evaluates (c : config) (steps : nat) : Prop :=
  func c = Some Eval /\ steps = num_of_samples c / mini_batch_size c \/
  func c = Some Train /\ workers c = None /\ good_stages c /\ 16 <= mini_batch_size c /\ steps = 2 ^ 15 / (mini_batch_size c / 16).
Definition printed_value (key : string) (o : outcome) : R := match printed o with Some r => match lookup key r with Some v => v | None => 0%R end | None => 0%R end.

Lemma script_reports s M b t1 t2 t3 t4 c k N x steps : hilbert_state_shape c = [N; N] -> 0 < N -> known s N c x -> 0 < mini_batch_size c -> 0 < steps -> evaluates c steps ->
  samples (N * N) (mini_batch_size c) 1 steps b ->
  exists r, printed (script s M b t1 t2 t3 t4 c k) = Some r /\ reports (N * N) (matrix s c) (predicted (evaluation_model M) [N; N]) x b 1 1 steps r.
Proof.
  intros Hs HN K M0 S0 [[F ->]|(F & W & G & L & ->)] S.
  - destruct (C72_evaluation s M b t1 t2 t3 t4 c k N x F Hs HN K) as (op & r & -> & _ & R & _); [|exact S|exists r; auto].
    split; [exact M0|]. destruct (Nat.lt_ge_cases (num_of_samples c) (mini_batch_size c)) as [Q|Q]; [|exact Q]. rewrite Nat.div_small in S0 by exact Q. lia.
  - destruct (C72_training s M b t1 t2 t3 t4 c k N x F W Hs HN K G L S0 S) as (op & r & -> & _ & R). exists r; auto.
Qed.

(** C72: how accurate the printed energy is. With all samples drawn independently from the machine, the printed energy is on average the energy of the symmetrised
    wave function, and its mean square error is the fluctuation of the local energy divided by the number of all samples. *)
Theorem C72_accuracy : forall (s : system) machine (psi : list nat * list Z -> C) start sampled evaluated now (c : config) (k N : nat) (x : R) (steps : nat),
  model_of psi machine -> hilbert_state_shape c = [N; N] -> 0 < N -> known s N c x -> 0 < mini_batch_size c -> 0 < steps -> evaluates c steps ->
  let n := N * N in let H := matrix s c in let log_phi := predicted (evaluation_model machine) [N; N] in
  let m := mini_batch_size c in let B := steps * m in
  let energy rows := printed_value "energy/energy" (script s machine (fun _ i => slice rows (i * m) (i * m + m)) start sampled evaluated now c k) in
  let law := independent n (fun t => psi ([N; N], t)) in
  average_over law n B energy = Re (expectation n H log_phi) /\
  average_over law n B (fun rows => (energy rows - Re (expectation n H log_phi)) ^ 2)%R = (real_fluctuation n H log_phi / INR B)%R.
Proof.
  intros s M psi t1 t2 t3 t4 c k N x steps A Hs HN K M0 S0 Ev n H log_phi m B energy law.
  destruct (represents M (fun _ _ => []) t1 t2 t3 t4 s c N ltac:(destruct Ev as [[? _]|[? _]]; congruence) Hs HN) as (op & HO & LM & _ & _). fold n H in HO, LM.
  assert (EP : forall t, log_phi t = flip_psi (obc_psi true psi) ([N; N], t)) by (apply predicted_rows; exact (evaluation_rows M psi N (fun b _ => A b))).
  assert (SY : symmetrised n (composed flip_maps (eight_maps N)) (fun t => psi ([N; N], t)) log_phi) by (apply (symmetrised_ext _ _ _ _ _ EP), evaluation_symmetrised).
  assert (HS : Forall (fun T => symmetry n T H) (composed flip_maps (eight_maps N))).
  { apply composed_symmetries; [apply flip_maps_permute|now apply (flip_maps_symmetries n (pbc c) [N; N])|now apply (eight_maps_symmetries N (pbc c))]. }
  set (f := fun t => Re (local_energy n H log_phi t)).
  assert (EN : forall rows, In rows (all_batches n B) -> energy rows = (/ INR B * Rsum f rows)%R).
  { intros rows Hr. apply all_batches_in in Hr. destruct Hr as [L In1]. unfold energy.
    destruct (script_reports s M (fun _ i => slice rows (i * m) (i * m + m)) t1 t2 t3 t4 c k N x steps Hs HN K M0 S0 Ev) as (r & E & R & _).
    - intros r0 i _ Hi. split; [apply slice_length; unfold m in *; rewrite L; unfold B, m; nia|]. intros t Ht. apply In1. now apply (slice_in rows) in Ht.
    - unfold printed_value. rewrite E, R. unfold mean_rows. fold n H log_phi. fold f.
      assert (AR : all_rows (fun _ i => slice rows (i * m) (i * m + m)) 1 steps = rows).
      { unfold all_rows. rewrite flat_map_concat_map. etransitivity; [|exact (TrainingProofs.slices_concat rows m steps L)]. apply f_equal. unfold range. apply map_ext. intros i.
        cbn [seq flat_map]. rewrite app_nil_r. f_equal. lia. }
      rewrite AR, L. unfold Rdiv. apply Rmult_comm. }
  assert (HB : 0 < B) by (unfold B; nia).
  assert (ER : Re (expectation n H log_phi) = mean_config n log_phi f) by exact (proj1 (expectation_mean n H log_phi)).
  assert (RI : forall F : R -> R, row_invariant n (composed flip_maps (eight_maps N)) (fun rows => F (/ INR B * Rsum f rows)%R)).
  { intros F b1 t b2 T In1 HT. f_equal. f_equal. apply (Rsum_row n f); [exact In1|]. unfold f. rewrite (local_invariant n _ _ _ SY H HS); [reflexivity| |exact HT].
    exact (row_config n b1 t b2 In1). }
  split.
  - unfold law. rewrite (avg_ext n _ B _ (fun rows => / INR B * Rsum f rows)%R EN). rewrite (C65_statistics n _ _ _ _ B SY (RI (fun z => z))).
    assert (INR B <> 0)%R by (apply not_0_INR; lia). rewrite avg_scal, avg_sum, ER. field. assumption.
  - unfold law. rewrite (avg_ext n _ B _ (fun rows => (/ INR B * Rsum f rows - Re (expectation n H log_phi)) ^ 2)%R) by (intros rows Hr; now rewrite EN).
    rewrite (C65_statistics n _ _ _ _ B SY (RI (fun z => (z - Re (expectation n H log_phi)) ^ 2)%R)). rewrite ER, avg_square_error by exact HB.
    unfold real_fluctuation. rewrite ER. unfold Rdiv. apply Rmult_comm.
Qed.
Print Assumptions C72_accuracy.
Example C72_accuracy_ex : model_of (fun _ => C0) (fun b => Ok (map (fun _ => C0) b)) /\ known Heisenberg 10 heisenberg_eval (-251.4624) /\ evaluates heisenberg_eval (2 ^ 9) /\
  evaluates heisenberg_train (2 ^ 8).
Proof.
  split; [intros b; reflexivity|]. split; [right; now left|]. split.
  - left. split; [reflexivity|]. cbn [num_of_samples mini_batch_size heisenberg_eval]. now rewrite pow2_div by lia.
  - right. split; [reflexivity|]. split; [reflexivity|]. split; [exact (proj2 (good_documented 0))|]. cbn [mini_batch_size heisenberg_train]. split; [apply at_least_16; lia|]. now rewrite final_steps by lia.
Qed.

(** C72: the same with horovod: the energy and its relative error are means over the samples of all workers, the variance and the magnetisations over those of
    rank 0 only, because callbacks[:4] takes away the callback that averages the logs over the workers. *)
Theorem C72_horovod : forall (s : system) machine batch start sampled evaluated now (c : config) (k N W last : nat) (x : R) epochs stage_files,
  func c = Some Train -> workers c = Some W -> 0 < W -> hilbert_state_shape c = [N; N] -> 0 < N -> known s N c x ->
  StagesModel.train (mini_batch_size c) (Some W) (batch_size c) (num_epoch c) (learning_rate c) k = Ok (epochs, stage_files, last, None) ->
  let steps := 2 ^ 15 / (mini_batch_size c / 16) in
  16 <= mini_batch_size c -> 0 < steps -> samples (N * N) (mini_batch_size c) W steps batch ->
  exists op r, script s machine batch start sampled evaluated now c k =
      {| used := Some op; trained := epochs; files := stage_files; printed := Some r; raised := None |} /\
    reports (N * N) (matrix s c) (predicted (evaluation_model machine) [N; N]) x batch W 1 steps r.
Proof.
  intros s M b t1 t2 t3 t4 c k N W last x ep fs F HW W0 Hs HN K T steps M0 S0 S.
  destruct (represents M b t1 t2 t3 t4 s c N ltac:(congruence) Hs HN) as (op & HO & _ & D & _).
  destruct (report_ok M b t1 t2 t3 t4 [N; N] (N * N) (matrix s c) op HO (Some W) (mini_batch_size c) steps x true ltac:(lia) S0 W0 S) as (w & w' & r & E1 & E2 & R).
  exists op, r. split; [|exact R].
  rewrite (D x k K). unfold dispatch. rewrite F. unfold train_script. rewrite HW, T. unfold final_evaluation. rewrite Hs, HW, E1. cbn [bind]. unfold evaluation_steps.
  assert (Z : (mini_batch_size c / 16 =? 0) = false). { apply Nat.eqb_neq. pose proof (Nat.div_str_pos (mini_batch_size c) 16 ltac:(lia)). lia. }
  rewrite Z. cbn [bind]. fold steps. rewrite E2. reflexivity.
Qed.
Print Assumptions C72_horovod.
Definition two_workers : config :=
  {| func := Some Train; hilbert_state_shape := [10; 10]; pbc := true; gamma := 0; batch_size := [16; 32]; num_epoch := [1; 1]; learning_rate := [0.1; 0.1]%R;
     mini_batch_size := 16; workers := Some 2; num_of_samples := 0 |}.
(** Rank 0 draws all spins up, rank 1 all spins down. *)
Definition opposite (r k : nat) : list (list Z) := repeat (repeat (if r =? 0 then 1%Z else (-1)%Z) 100) 16.
Lemma in_opposite r k t : In t (opposite r k) -> t = repeat (if r =? 0 then 1%Z else (-1)%Z) 100. Proof. apply repeat_spec. Qed.
Lemma opposite_samples W steps : samples (10 * 10) 16 W steps opposite.
Proof.
  intros r k _ _. split; [apply repeat_length|]. intros t Ht. apply in_opposite in Ht. subst t. apply in_strings. split; [apply repeat_length|].
  apply Forall_forall. intros v Hv. apply repeat_spec in Hv. subst v. destruct (r =? 0); [now left|right; now left].
Qed.
Lemma two_trained : exists last ep fs, StagesModel.train (mini_batch_size two_workers) (Some 2) (batch_size two_workers) (num_epoch two_workers) (learning_rate two_workers) 0 = Ok (ep, fs, last, None) /\
  map fst ep = [(0, 8); (1, 16)] /\ fs = [1; 2].
Proof. do 3 eexists. split; [reflexivity|]. split; reflexivity. Qed.
Lemma sumZ_repeat v n : sumZ (repeat v n) = (v * Z.of_nat n)%Z.
Proof. induction n as [|n IH]; [cbn [repeat]; unfold sumZ; cbn [fold_right]; lia|]. cbn [repeat]. unfold sumZ in *. cbn [fold_right]. rewrite IH. lia. Qed.
Lemma Rsum_repeat {A} (f : A -> R) a m : Rsum f (repeat a m) = (INR m * f a)%R.
Proof. induction m as [|m IH]; [cbn [repeat]; unfold Rsum; cbn; ring|]. cbn [repeat]. rewrite Rsum_cons, IH, S_INR. ring. Qed.
Lemma mean_const f v rows : rows <> [] -> (forall t, In t rows -> f t = v) -> mean_rows f rows = v.
Proof.
  intros NE H. unfold mean_rows. rewrite (Rsum_ext _ (fun _ => v)) by exact H. rewrite Rsum_const. unfold Rdiv.
  assert (INR (length rows) <> 0)%R by (apply not_0_INR; destruct rows; [congruence|discriminate]). field. assumption.
Qed.

(** C72: with two workers the printed magnetisation is not the one of the samples of both. *)
Theorem C72_metric_average_refuted : forall machine start sampled evaluated now, exists (c : config) batch steps,
  func c = Some Train /\ workers c = Some 2 /\ known Heisenberg 10 c (-268.61976) /\ steps = 2 ^ 15 /\ samples (10 * 10) (mini_batch_size c) 2 steps batch /\
  let o := heisenberg_main machine batch start sampled evaluated now c 0 in
  raised o = None /\
  printed_value "observables/sigma_z" o = 1%R /\ mean_rows (fun s => IZR (sumZ s) / INR (10 * 10))%R (all_rows batch 2 steps) = 0%R.
Proof.
  intros M t1 t2 t3 t4. destruct two_trained as (last & ep & fs & T & _).
  destruct (C72_horovod Heisenberg M opposite t1 t2 t3 t4 two_workers 0 10 2 last _ ep fs eq_refl eq_refl ltac:(lia) eq_refl ltac:(lia) (or_introl eq_refl) T) as (op & r & E & R).
  - apply le_n.
  - change (16 / 16) with 1. rewrite Nat.div_1_r. apply pow2_pos.
  - apply opposite_samples.
  - rewrite script_heisenberg in E. exists two_workers, opposite, (2 ^ 15).
    split; [reflexivity|]. split; [reflexivity|]. split; [now left|]. split; [reflexivity|]. split; [apply opposite_samples|].
    cbv zeta. rewrite E. cbn [raised printed]. split; [reflexivity|].
    destruct R as (_ & _ & _ & R & _). change (mini_batch_size two_workers / 16) with 1 in R. rewrite Nat.div_1_r in R.
    assert (P15 := pow2_pos 15). revert R P15. generalize (2 ^ 15). intros st R P15.
    assert (I1 : forall k, mean_rows (fun s => IZR (sumZ s) / INR (10 * 10))%R (opposite 0 k) = 1%R).
    { intros k. apply mean_const; [discriminate|]. intros t Ht. apply in_opposite in Ht. subst t. cbn [Nat.eqb]. rewrite sumZ_repeat.
      rewrite (INR_IZR_INZ (10 * 10)). replace (1 * Z.of_nat 100)%Z with (Z.of_nat (10 * 10)) by reflexivity. unfold Rdiv. apply Rinv_r. apply not_0_IZR. lia. }
    split.
    + unfold printed_value. cbn [printed]. rewrite R. unfold all_rows. rewrite <- (mean_of_means _ 16); [|lia|exact P15|intros k _; cbn [seq flat_map]; now rewrite app_nil_r].
      rewrite (average_ext _ (fun _ => 1%R)) by (intros k _; cbn [seq flat_map]; rewrite app_nil_r; apply I1). unfold average. rewrite Rsum_const, seq_length.
      assert (INR st <> 0)%R by (apply not_0_INR; lia). field. assumption.
    + unfold all_rows. rewrite <- (mean_of_means _ 32); [|lia|exact P15|intros k _; cbn [seq flat_map]; now rewrite app_nil_r].
      rewrite (average_ext _ (fun _ => 0%R)).
      { unfold average. rewrite Rsum_const. unfold Rdiv. now rewrite Rmult_0_r, Rmult_0_l. }
      intros k _. cbn [seq flat_map]. rewrite app_nil_r. specialize (I1 k). unfold mean_rows in *. rewrite app_length, Rsum_app.
      replace (Rsum (fun s => IZR (sumZ s) / INR (10 * 10))%R (opposite 1 k)) with (- Rsum (fun s => IZR (sumZ s) / INR (10 * 10))%R (opposite 0 k))%R.
      { unfold Rdiv. rewrite Rplus_opp_r. apply Rmult_0_l. }
      unfold opposite. cbn [Nat.eqb]. rewrite !Rsum_repeat, !sumZ_repeat, !mult_IZR. unfold Rdiv. ring.
Qed.
Print Assumptions C72_metric_average_refuted.
Example C72_horovod_ex : known Heisenberg 10 two_workers (-268.61976) /\ samples (10 * 10) 16 2 (2 ^ 15) opposite /\
  exists last ep fs, StagesModel.train (mini_batch_size two_workers) (workers two_workers) (batch_size two_workers) (num_epoch two_workers) (learning_rate two_workers) 0 = Ok (ep, fs, last, None) /\
  map fst ep = [(0, 8); (1, 16)] /\ fs = [1; 2].
Proof. split; [now left|]. split; [apply opposite_samples|exact two_trained]. Qed.
