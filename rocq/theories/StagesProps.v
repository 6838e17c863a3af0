(** C57: training in stages. *)
From Coq Require Import List Bool Arith ZArith Lia.
From Verif Require Import Base TrainingModel CheckpointModel StagesModel StagesSpec StagesProofs.
Import ListNotations.

Lemma spread_many {A} (l : list A) n : length l <> 1 -> spread l n = map Scalar l.
Proof. intros H. unfold spread. now rewrite (proj2 (Nat.eqb_neq _ _)) by exact H. Qed.
Lemma spread_length {A} (l : list A) n : length l <> 1 -> length (spread l n) = length l.
Proof. intros H. rewrite spread_many by exact H. apply map_length. Qed.

(** With one value per stage (two stages or more), a run that is started at any epoch k runs exactly the epochs from k on, in order, each with the settings
    of its stage; ends after the total number of epochs, and writes stage_k.h5 for the stages in which it ran something. *)
Theorem C57_resume : forall L mini batch_size num_epoch (learning_rate : list L) k,
  length num_epoch <> 1 -> length batch_size = length num_epoch -> length learning_rate = length num_epoch ->
  let stages := stages_of batch_size num_epoch learning_rate in
  (forall s, In s stages -> fits mini s) ->
  let end_of j := length (schedule (firstn j stages)) in
  let files := map S (filter (fun j => Nat.max k (end_of j) <? end_of (S j)) (seq 0 (length stages))) in
  train mini None batch_size num_epoch learning_rate k = Ok (remaining k stages, files, Nat.max k (length (schedule stages)), None).
Proof.
  intros L mini bs ne lr k N HB HL stages H end_of files. unfold train, to_valid_stages_config. rewrite !spread_length by congruence. rewrite HB, HL, Nat.eqb_refl. cbn [andb bind].
  rewrite !spread_many by congruence. rewrite combine_lift. pose proof (run_good mini [] stages 0 0 k H ltac:(lia)) as G. rewrite app_nil_r in G. fold stages.
  unfold stages in *. rewrite G. cbn [run_stages]. rewrite !app_nil_r, Nat.sub_0_r, <- remaining_numbered, written_spec by lia. unfold files. do 4 f_equal. apply map_ext. intros j. lia.
Qed.
Print Assumptions C57_resume.
Example C57_resume_ex : train 4 None [4; 8; 2] [2; 1; 2] [10; 20; 30] 1 =
  Ok ([(1, 4, Scalar 10); (2, 8, Scalar 20); (3, 2, Scalar 30); (4, 2, Scalar 30)], [1; 2; 3], 5, None) /\
  (forall s, In s (stages_of [4; 8; 2] [2; 1; 2] [10; 20; 30]) -> fits 4 s).
Proof. split; [reflexivity|]. intros s [<-|[<-|[<-|[]]]]; cbn; split; try lia; auto. Qed.

(** Hence stopping after k epochs and resuming runs the same epochs as one uninterrupted run. *)
Theorem C57_interrupted : forall L mini batch_size num_epoch (learning_rate : list L) k,
  length num_epoch <> 1 -> length batch_size = length num_epoch -> length learning_rate = length num_epoch ->
  (forall s, In s (stages_of batch_size num_epoch learning_rate) -> fits mini s) ->
  match train mini None batch_size num_epoch learning_rate 0, train mini None batch_size num_epoch learning_rate k with
  | Ok (all, _, _, None), Ok (rest, _, _, None) => rest = skipn k all /\ map (fun e => fst (fst e)) all = seq 0 (length all)
  | _, _ => False
  end.
Proof.
  intros L mini bs ne lr k N HB HL H. rewrite !(C57_resume L mini bs ne lr _ N HB HL H).
  rewrite !remaining_numbered. cbn [skipn]. split; [reflexivity|]. change (@length (epoch_run L)) with (@length (nat * nat * value L)). rewrite numbered_length. unfold numbered. rewrite map_map.
  generalize 0. generalize (schedule (stages_of bs ne lr)). induction l as [|[b r] l IH]; intros a; [reflexivity|]. cbn [length seq combine map fst]. now rewrite IH.
Qed.
Print Assumptions C57_interrupted.
Example C57_interrupted_ex : fits 4 (8, 3, 1). Proof. split; [lia|right; reflexivity]. Qed.

(** The number stored by the checkpoints: a periodic save in the epochs [a, a + n) stores one of them; the end of the stage stores a + n, the first epoch
    of the next stage. *)
Theorem C57_checkpoints : forall minutes start a epochs t, epochs <> [] -> (forall es e, In es epochs -> In e es -> exists now b u, e = BatchEnd now b u) ->
  let c := new_callback minutes start in
  Forall (fun s => a <= fst (snd s) < a + length epochs) (snd (handle_all c (stage_events a epochs))) /\
  snd (handle (fst (handle_all c (stage_events a epochs))) (TrainEnd t)) = Some (a + length epochs, 0).
Proof.
  intros minutes start a epochs t NE H c. destruct (stage_events_saves a epochs H c) as [A B]. split; [exact B|]. cbn [handle snd]. rewrite (A NE).
  f_equal. f_equal. destruct epochs; [congruence|]. cbn [length]. lia.
Qed.
Print Assumptions C57_checkpoints.
Example C57_checkpoints_ex : snd (handle_all (new_callback 1 0) (stage_events 3 [[BatchEnd 61 0 61]; [BatchEnd 100 0 100; BatchEnd 125 1 125]] ++ [TrainEnd 130])%Z) =
  [(BatchEnd 61 0 61%Z, (3, 0)); (BatchEnd 125 1 125%Z, (4, 1)); (TrainEnd 130%Z, (5, 0))].
Proof. reflexivity. Qed.

(** The first stage whose batch does not fit the mini batches stops the run with AssertionError, after the epochs before it. *)
Theorem C57_assertion : forall L mini (good : list (stage L)) b n r rest k, 0 < mini -> (forall s, In s good -> fits mini s) -> ~ fits mini (b, n, r) ->
  0 < n -> k < length (schedule good) + n ->
  exists files last, run_stages mini None 0 (map lift (good ++ (b, n, r) :: rest)) 0 k = (remaining k good, files, last, Some AssertionError).
Proof.
  intros L mini good b n r rest k M H F Hn K. rewrite map_app. rewrite run_good by (auto; lia). cbn [map lift run_stages Nat.add].
  rewrite (proj2 (Nat.leb_gt _ _)) by lia.
  assert (Z : stage_sizes mini None (Scalar b) = Err AssertionError).
  { unfold stage_sizes. cbn [bind]. cbn in F. destruct (Nat.ltb_spec b mini); [exfalso; apply F; split; [exact M|now left]|]. rewrite (proj2 (Nat.eqb_neq mini 0)) by lia.
    destruct (Nat.eqb_spec (b mod mini) 0); [exfalso; apply F; split; [exact M|now right]|reflexivity]. }
  rewrite Z, !app_nil_r, Nat.sub_0_r, remaining_numbered. eexists. eexists. reflexivity.
Qed.
Print Assumptions C57_assertion.
Example C57_assertion_ex : train 4 None [4; 6] [2; 1] [10; 20] 1 = Ok ([(1, 4, Scalar 10)], [1], 2, Some AssertionError).
Proof. reflexivity. Qed.

(** Lists of different lengths are rejected. *)
Theorem C57_lengths : forall L mini workers batch_size num_epoch (learning_rate : list L) k,
  (length batch_size <> 1 /\ length batch_size <> length num_epoch) \/ (length learning_rate <> 1 /\ length learning_rate <> length num_epoch) ->
  train mini workers batch_size num_epoch learning_rate k = Err AssertionError.
Proof.
  intros L mini workers bs ne lr k H. unfold train, to_valid_stages_config.
  assert (E : (length (spread bs (length ne)) =? length ne) && (length (spread lr (length ne)) =? length ne) = false).
  { destruct H as [[A B]|[A B]]; rewrite (spread_length _ _ A), (proj2 (Nat.eqb_neq _ _) B); [reflexivity|apply andb_false_r]. }
  now rewrite E.
Qed.
Print Assumptions C57_lengths.
Example C57_lengths_ex : train 4 None [4; 8; 2] [2; 1] [10] 0 = Err AssertionError. Proof. reflexivity. Qed.

(** A single batch size, for one stage or for several, is spread as a list of lists: no epoch is ever run, the run ends with TypeError. *)
Theorem C57_single_value_refuted : forall L mini workers b num_epoch (learning_rate : list L) k,
  length learning_rate = 1 \/ length learning_rate = length num_epoch -> k < fold_right Nat.add 0 num_epoch ->
  exists last, train mini workers [b] num_epoch learning_rate k = Ok ([], [], last, Some TypeError).
Proof.
  intros L mini workers b ne lr k HL K. unfold train, to_valid_stages_config.
  assert (LS : length (spread lr (length ne)) = length ne).
  { unfold spread. destruct (Nat.eqb_spec (length lr) 1); [apply repeat_length|]. rewrite map_length. destruct HL; [contradiction|assumption]. }
  rewrite LS. change (spread [b] (length ne)) with (repeat (Nested [b]) (length ne)). rewrite repeat_length, Nat.eqb_refl. cbn [andb bind].
  exists k. f_equal.
  assert (G : forall ne (rs : list (value L)) idx total, length rs = length ne -> k < total + fold_right Nat.add 0 ne -> total <= k ->
     run_stages mini workers idx (combine (combine (repeat (Nested [b]) (length ne)) ne) rs) total k = ([], [], k, Some TypeError)).
  { clear. induction ne as [|n ne IH]; intros rs idx total Hr K T; [cbn in K; lia|]. destruct rs as [|r rs]; [discriminate|].
    cbn [length repeat combine run_stages]. cbn [fold_right] in K. destruct (Nat.leb_spec (total + n) k); [|reflexivity]. apply IH; [now injection Hr|lia|lia]. }
  apply G; [exact LS|exact K|lia].
Qed.
Print Assumptions C57_single_value_refuted.
Example C57_single_value_ex : train 4 None [8] [3] [10] 0 = Ok ([], [], 0, Some TypeError) /\ train 4 None [8] [3; 2] [10; 20] 4 = Ok ([], [], 4, Some TypeError).
Proof. split; reflexivity. Qed.

(** With several workers each takes the batch size divided by their number, rounded up: together at least the batch size, and less than one more each. *)
Theorem C57_workers : forall mini n b s v, stage_sizes mini (Some n) (Scalar b) = Ok (s, v) -> b <= s * n < b + n /\ v = min (8 * s) (2 ^ 15).
Proof.
  intros mini n b s v. unfold stage_sizes. destruct (Nat.eqb_spec n 0); cbn [bind]; [discriminate|].
  assert (C : b <= ceil_div b n * n < b + n).
  { unfold ceil_div. pose proof (Nat.div_mod (b + n - 1) n ltac:(lia)). pose proof (Nat.mod_upper_bound (b + n - 1) n ltac:(lia)). nia. }
  destruct (_ <? mini); [intros E; injection E as <- <-; split; [exact C|f_equal; lia]|]. destruct (mini =? 0); [discriminate|].
  destruct (_ =? 0); [intros E; injection E as <- <-; split; [exact C|f_equal; lia]|discriminate].
Qed.
Print Assumptions C57_workers.
Example C57_workers_ex : stage_sizes 4 (Some 3) (Scalar 10) = Ok (4, 32). Proof. reflexivity. Qed.

(** The final evaluation fails with ZeroDivisionError exactly for mini batch sizes below 16. *)
Theorem C57_evaluation_steps : forall mini, (evaluation_steps mini = Err ZeroDivisionError <-> mini < 16) /\
  (16 <= mini -> exists steps, evaluation_steps mini = Ok steps /\ steps * (mini / 16) <= 2 ^ 15 < (1 + steps) * (mini / 16)).
Proof.
  intros mini. unfold evaluation_steps. destruct (Nat.eqb_spec (mini / 16) 0) as [E|E].
  - apply Nat.div_small_iff in E; [|lia]. split; [tauto|lia].
  - split; [split; [discriminate|]; intros H; exfalso; apply E; now apply Nat.div_small|]. intros _. eexists. split; [reflexivity|].
    pose proof (Nat.div_mod (2 ^ 15) (mini / 16) E). pose proof (Nat.mod_upper_bound (2 ^ 15) (mini / 16) E).
    set (P := 2 ^ 15) in *. clearbody P. nia.
Qed.
Print Assumptions C57_evaluation_steps.
Example C57_evaluation_steps_ex : evaluation_steps 8 = Err ZeroDivisionError /\ is_ok (evaluation_steps 32) = true.
Proof. split; [reflexivity|]. unfold evaluation_steps. change (32 / 16) with 2. reflexivity. Qed.
