(** C50-C52: checkpoints and TensorBoard. *)
From Coq Require Import List ZArith Bool Arith Lia String Sorted.
From Verif Require Import Base CheckpointModel CheckpointSpec CheckpointProofs.
Import ListNotations.

(** * C50 *)

(** Without a crash the last save comes back. *)
Theorem C50_no_crash : forall W O (h : history W O) w o e b,
  load_weights_if_exist (after (h ++ [(w, o, e, b)]) (List.length (actions_of (h ++ [(w, o, e, b)])))) = Ok (Some (w, o), e).
Proof.
  intros W O h w o e b. unfold after. rewrite firstn_all, all_actions. unfold completed. rewrite rev_app_distr. reflexivity.
Qed.
Print Assumptions C50_no_crash.
Example C50_no_crash_ex : after [(10, 20, 1, 5); (11, 21, 2, 0)] 8 = {| weights_file := Complete 11; optimizer_file := Complete (21, 2, 0) |}.
Proof. reflexivity. Qed.

(** What a crash leaves, for every history and every crash point: with [h] the saves completed before, and the save of (w, o, e, b) interrupted after
    [j] of its four steps. *)
Theorem C50_crash_outcomes : forall W O (h h2 : history W O) w o e b j, j < 4 ->
  let r := load_weights_if_exist (after (h ++ (w, o, e, b) :: h2) (4 * List.length h + j)) in
  match j with
  | 0 => match rev h with [] => r = Ok (None, 0) | (w', o', e', _) :: _ => r = Ok (Some (w', o'), e') end
  | 1 => r = Err OSError
  | 2 => match rev h with [] => r = Err TypeError | (_, o', e', _) :: _ => r = Ok (Some (w, o'), e') end
  | _ => r = Err EOFError
  end.
Proof.
  intros W O h h2 w o e b j Hj r. unfold r. rewrite after_split by assumption. unfold completed.
  destruct (rev h) as [|[[[w' o'] e'] b'] t]; destruct j as [|[|[|[|j]]]]; try lia; reflexivity.
Qed.
Print Assumptions C50_crash_outcomes.
Example C50_crash_outcomes_ex : load_weights_if_exist (after [(10, 20, 1, 5); (11, 21, 2, 0)] (4 * 1 + 2)) = Ok (Some (11, 20), 1).
Proof. reflexivity. Qed.

(** So the claim that a crash leaves files that were saved together is false: new weights with the old optimizer, or nothing that can be loaded. *)
Theorem C50_crash_refuted :
  (exists (h : history nat nat) k w o e, load_weights_if_exist (after h k) = Ok (Some (w, o), e) /\ forall s, In s h -> let '(w', o', _, _) := s in (w', o') <> (w, o)) /\
  (exists (h : history nat nat) k, 4 <= k /\ load_weights_if_exist (after h k) = Err OSError) /\
  (exists (h : history nat nat) k, 4 <= k /\ load_weights_if_exist (after h k) = Err EOFError).
Proof.
  split; [|split].
  - exists [(10, 20, 1, 5); (11, 21, 2, 0)], 6, 11, 20, 1. split; [reflexivity|]. intros s [<-|[<-|[]]]; congruence.
  - exists [(10, 20, 1, 5); (11, 21, 2, 0)], 5. split; [lia|reflexivity].
  - exists [(10, 20, 1, 5); (11, 21, 2, 0)], 7. split; [lia|reflexivity].
Qed.
Print Assumptions C50_crash_refuted.

(** * C51 *)

(** A batch end saves iff the period has passed since the last save (or the construction); it stores the current epoch and the batch. *)
Theorem C51_saves_iff : forall c now batch t,
  (snd (handle c (BatchEnd now batch t)) <> None <-> (save_frequency_in_minutes c * 60 <= now - last_save_time c)%Z) /\
  (forall s, snd (handle c (BatchEnd now batch t)) = Some s -> s = (current_epoch c, batch) /\ last_save_time (fst (handle c (BatchEnd now batch t))) = t).
Proof.
  intros c now batch t. cbn [handle]. destruct (Z.ltb_spec (now - last_save_time c) (save_frequency_in_minutes c * 60)); cbn [snd fst].
  - split; [split; [congruence|lia]|discriminate].
  - split; [split; [lia|discriminate]|]. intros s E. injection E as <-. split; reflexivity.
Qed.
Print Assumptions C51_saves_iff.
Example C51_saves_iff_ex : snd (handle (new_callback 30 0) (BatchEnd 1800 7 1801)) = Some (0, 7) /\ snd (handle (new_callback 30 0) (BatchEnd 1799 7 1801)) = None.
Proof. split; reflexivity. Qed.

(** Over a whole run, two periodic saves are never closer than the period, and the first not sooner than the period after the construction. *)
Theorem C51_spacing : forall minutes start es, (0 <= minutes)%Z -> clock start es ->
  let saves := intervals (snd (handle_all (new_callback minutes start) es)) in
  Forall (fun i => start + minutes * 60 <= fst i)%Z saves /\ StronglySorted (fun a b => snd a + minutes * 60 <= fst b)%Z saves.
Proof.
  intros minutes start es P H saves. destruct (saves_after (new_callback minutes start) es start H) as [A B]; [cbn; lia|exact P|].
  split; [|exact B]. eapply Forall_impl; [|exact A]. cbn. intros i Hi. lia.
Qed.
Print Assumptions C51_spacing.
Example C51_spacing_ex :
  let es := [EpochBegin 0; BatchEnd 50 0 0; BatchEnd 61 1 65; BatchEnd 124 2 0; EpochBegin 1; BatchEnd 126 0 130; TrainEnd 131]%Z in
  intervals (snd (handle_all (new_callback 1 0) es)) = [(61, 65); (126, 130)]%Z.
Proof. reflexivity. Qed.
Example C51_clock_ex : clock 0 [EpochBegin 0; BatchEnd 50 0 50; BatchEnd 61 1 65; TrainEnd 70]%Z.
Proof. unfold clock. cbn. repeat (constructor; [|repeat (constructor; try lia)]). constructor. Qed.

(** The end of the training always saves, with the epoch counter advanced, whatever happened before. *)
Theorem C51_train_end : forall c es t,
  snd (handle (fst (handle_all c es)) (TrainEnd t)) = Some (current_epoch (fst (handle_all c es)) + 1, 0).
Proof. reflexivity. Qed.
Print Assumptions C51_train_end.
Theorem C51_current_epoch : forall c es1 ep es2, (forall e, In e es2 -> exists now b t, e = BatchEnd now b t) ->
  current_epoch (fst (handle_all c (es1 ++ EpochBegin ep :: es2))) = ep.
Proof.
  intros c es1 ep es2 H. revert c. induction es1 as [|e es1 IH]; intros c.
  - cbn [app handle_all handle].
    assert (G : forall c', current_epoch c' = ep -> current_epoch (fst (handle_all c' es2)) = ep).
    { clear c. revert H. induction es2 as [|e es2 IH]; intros H c' E; [exact E|]. cbn [handle_all].
      destruct (H e (or_introl eq_refl)) as (now & b & t & ->). cbn [handle]. destruct (_ <? _)%Z.
      - specialize (IH ltac:(intros; apply H; now right) c' E). destruct (handle_all c' es2). exact IH.
      - specialize (IH ltac:(intros; apply H; now right) {| save_frequency_in_minutes := save_frequency_in_minutes c'; last_save_time := t; current_epoch := current_epoch c' |} E).
        destruct (handle_all _ es2). exact IH. }
    specialize (G {| save_frequency_in_minutes := save_frequency_in_minutes c; last_save_time := last_save_time c; current_epoch := ep |} eq_refl).
    destruct (handle_all _ es2). exact G.
  - cbn [app handle_all]. destruct (handle c e) as [c1 s]. specialize (IH c1). destruct (handle_all c1 _). exact IH.
Qed.
Print Assumptions C51_current_epoch.
Example C51_current_epoch_ex : snd (handle_all (new_callback 1 0) [EpochBegin 3; BatchEnd 10 0 0; TrainEnd 20]%Z) = [(TrainEnd 20, (4, 0)%nat)]%Z.
Proof. reflexivity. Qed.

(** The file name: a path with fields works iff the logs have all the keys. *)
Theorem C51_file_name : forall V path (logs : list (string * V)),
  (exists r, format_path path (Some logs) = Ok r) <-> (forall k, In k (fields path) -> In k (map fst logs)).
Proof.
  intros V path logs. cbn [format_path].
  assert (L : forall k, (exists v, lookup k logs = Some v) <-> In k (map fst logs)).
  { intros k. induction logs as [|[k' v] t IH]; cbn [lookup map fst In].
    - split; [intros [v H]; discriminate|tauto].
    - destruct (String.eqb_spec k' k) as [->|N]; [split; [now left|intros _; now exists v]|]. rewrite IH. split; [now right|intros [?|?]; [congruence|assumption]]. }
  induction path as [|[s|k] path IH]; cbn [format_pieces fields flat_map app].
  - split; [intros _ k []|intros _; now exists []].
  - fold (fields path). rewrite <- IH. destruct (format_pieces path logs); cbn [bind]; split; intros [r H]; try discriminate; eexists; reflexivity.
  - fold (fields path). split.
    + intros [r H] k' [<-|Hk].
      * destruct (lookup k logs) eqn:E; [|discriminate]. apply L. now exists v.
      * apply IH; [|exact Hk]. destruct (lookup k logs); [|discriminate]. destruct (format_pieces path logs); [eexists; reflexivity|discriminate].
    + intros H. destruct (proj2 (L k) (H k (or_introl eq_refl))) as [v E]. rewrite E. destruct (proj2 IH) as [r Hr]; [intros k' Hk; apply H; now right|].
      rewrite Hr. eexists. reflexivity.
Qed.
Print Assumptions C51_file_name.
Example C51_file_name_ex : format_path [Text "w."; Field "loss"] (Some [("loss"%string, 3); ("size"%string, 4)]) = Ok [inl "w."%string; inr 3].
Proof. reflexivity. Qed.

(** A missing key is a KeyError; without logs (None) the double star is a TypeError. *)
Theorem C51_file_name_errors : forall V path (logs : option (list (string * V))) e,
  format_path path logs = Err e -> match logs with None => e = TypeError | Some _ => e = KeyError end.
Proof.
  intros V path [logs|] e; cbn [format_path]; [|congruence].
  induction path as [|[s|k] path IH]; cbn [format_pieces]; [discriminate| |].
  - destruct (format_pieces path logs); cbn [bind]; [discriminate|]. intros E. apply IH. congruence.
  - destruct (lookup k logs); [|congruence]. destruct (format_pieces path logs); cbn [bind]; [discriminate|]. intros E. apply IH. congruence.
Qed.
Print Assumptions C51_file_name_errors.
Example C51_file_name_errors_ex : format_path [Text "w."] (None : option (list (string * nat))) = Err TypeError /\
  format_path [Field "loss"] (Some [("size"%string, 4)]) = Err KeyError.
Proof. split; reflexivity. Qed.

(** The documented example weights.{epoch:02d}-{val_loss:.2f}.hdf5 does not work: the epoch is not among the logs of a batch (keys batch, size, loss) nor of
    the end of the training (no keys at all). *)
Theorem C51_documented_path_refuted : forall V (b s l : V),
  format_path [Text "weights."; Field "epoch"; Text "-"; Field "val_loss"; Text ".hdf5"] (Some [("batch"%string, b); ("size"%string, s); ("loss"%string, l)]) = Err KeyError /\
  format_path [Text "weights."; Field "epoch"; Text ".hdf5"] (Some ([] : list (string * V))) = Err KeyError.
Proof. intros. split; reflexivity. Qed.
Print Assumptions C51_documented_path_refuted.

(** * C52 *)

(** With an update frequency of n samples the writes at batch ends are at least n samples apart (so there are at most samples / n of them), and
    afterwards fewer than n samples are pending. *)
Theorem C52_rate : forall n sizes, 0 < n ->
  let ws := snd (batches (new_tensorboard (PerSamples n)) sizes) in
  StronglySorted (fun a b => a + n <= b) ws /\ n * List.length ws <= list_sum sizes /\ list_sum sizes - last ws 0 < n.
Proof.
  intros n sizes Hn. pose proof (batches_spec n (new_tensorboard (PerSamples n)) sizes Hn eq_refl ltac:(cbn; lia)) as H.
  destruct (batches _ sizes) as [t' ws]. cbn [snd]. cbn [new_tensorboard samples_seen samples_seen_at_last_write] in H.
  destruct H as (I1 & _ & I3 & _ & I5 & I6 & I7 & I8). split; [exact I5|]. split; [lia|]. specialize (I6 ltac:(lia)). lia.
Qed.
Print Assumptions C52_rate.
Example C52_rate_ex : snd (batches (new_tensorboard (PerSamples 10)) [4; 4; 4; 20; 1; 9; 3]) = [12; 32; 42].
Proof. reflexivity. Qed.

(** 'batch': a write at every end of a non empty batch; 'epoch': none. *)
Theorem C52_batch_epoch : forall sizes, (forall s, In s sizes -> 0 < s) ->
  List.length (snd (batches (new_tensorboard PerBatch) sizes)) = List.length sizes /\ snd (batches (new_tensorboard PerEpoch) sizes) = [].
Proof.
  intros sizes. split.
  - assert (G : forall t, update_freq t = Some 1 -> samples_seen_at_last_write t <= samples_seen t -> List.length (snd (batches t sizes)) = List.length sizes).
    { revert H. induction sizes as [|s sizes IH]; intros H t F L; [reflexivity|]. cbn [batches]. unfold on_batch_end. rewrite F. cbn zeta.
      specialize (H s (or_introl eq_refl)) as Hs. rewrite (proj2 (Nat.leb_le _ _)) by lia.
      specialize (IH ltac:(intros; apply H; now right) {| update_freq := Some 1; samples_seen := samples_seen t + s; samples_seen_at_last_write := samples_seen t + s |} eq_refl ltac:(cbn; lia)).
      destruct (batches _ sizes). cbn [snd List.length] in *. now rewrite IH. }
    apply G; [reflexivity|cbn; lia].
  - generalize (eq_refl (update_freq (new_tensorboard PerEpoch))). generalize (new_tensorboard PerEpoch) at 1 3 as t. clear H.
    induction sizes as [|s sizes IH]; intros t E; [reflexivity|]. cbn [batches]. unfold on_batch_end. rewrite E. cbn [new_tensorboard update_freq].
    specialize (IH t E). destruct (batches t sizes). exact IH.
Qed.
Print Assumptions C52_batch_epoch.
Example C52_batch_epoch_ex : snd (batches (new_tensorboard PerBatch) [3; 5]) = [3; 8]. Proof. reflexivity. Qed.

(** The documented rate is exceeded all the same, since every epoch end writes: two epochs of 4 samples give two writes with a frequency of 1000. *)
Theorem C52_documented_rate_refuted : exists n sizes1 sizes2, 
  let (t1, w1) := batches (new_tensorboard (PerSamples n)) sizes1 in
  let e1 := on_epoch_end t1 0 in
  let (t2, w2) := batches t1 sizes2 in
  let e2 := on_epoch_end t2 1 in
  w1 = [] /\ w2 = [] /\ e1 < e2 /\ e2 < n.
Proof. exists 1000, [4], [4]. cbn. repeat split; lia. Qed.
Print Assumptions C52_documented_rate_refuted.
