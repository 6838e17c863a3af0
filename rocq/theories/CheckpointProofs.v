(** Lemmas about checkpoints and TensorBoard. *)
From Coq Require Import List ZArith Bool Arith Lia String Sorted.
From Verif Require Import Base CheckpointModel CheckpointSpec.
Import ListNotations.

Section Crash.
  Context {W O : Type}.
  Notation history := (history W O).
  (** The disk after the first saves. *)
  Definition completed (h : history) : disk W O :=
    match rev h with
    | [] => empty_disk
    | (w, o, e, b) :: _ => {| weights_file := Complete w; optimizer_file := Complete (o, e, b) |}
    end.
  Lemma actions_app (h1 h2 : history) : actions_of (h1 ++ h2) = actions_of h1 ++ actions_of h2.
  Proof. unfold actions_of. apply flat_map_app. Qed.
  Lemma actions_length (h : history) : List.length (actions_of h) = 4 * List.length h.
  Proof. induction h as [|[[[w o] e] b] h IH]; [reflexivity|]. change (actions_of ((w, o, e, b) :: h)) with (save_actions w (Some o) e b ++ actions_of h). rewrite app_length, IH. change (List.length (save_actions w (Some o) e b)) with 4. cbn [List.length]. lia. Qed.

  Lemma all_actions (h : history) : fold_left perform (actions_of h) empty_disk = completed h.
  Proof.
    induction h as [|[[[w o] e] b] h IH] using rev_ind; [reflexivity|]. rewrite actions_app, fold_left_app, IH. unfold completed at 2. rewrite rev_app_distr.
    reflexivity.
  Qed.
  Lemma after_split (h1 : history) w o e b h2 j : j < 4 ->
    after (h1 ++ (w, o, e, b) :: h2) (4 * List.length h1 + j) = fold_left perform (firstn j (save_actions w (Some o) e b)) (completed h1).
  Proof.
    intros Hj. unfold after. rewrite actions_app, firstn_app, actions_length.
    rewrite firstn_all2 by (rewrite actions_length; lia). replace (4 * List.length h1 + j - 4 * List.length h1) with j by lia.
    rewrite fold_left_app, all_actions. f_equal. change (actions_of ((w, o, e, b) :: h2)) with (save_actions w (Some o) e b ++ actions_of h2).
    rewrite firstn_app. replace (j - List.length (save_actions w (Some o) e b)) with 0 by (cbn; lia). cbn [firstn]. now rewrite app_nil_r.
  Qed.
End Crash.

Lemma clock_after start e es : clock start (e :: es) -> clock (match e with EpochBegin _ => start | BatchEnd _ _ t => t | TrainEnd t => t end) es /\
  (forall now b t, e = BatchEnd now b t -> (start <= now <= t)%Z) /\ (forall t, e = TrainEnd t -> (start <= t)%Z) /\ clock start es.
Proof.
  unfold clock. cbn [flat_map]. intros H. inversion H as [|? ? S F]; subst.
  assert (G : StronglySorted Z.le (flat_map readings es)).
  { revert S. generalize (readings e) as l. induction l as [|x l IH]; intros S; [exact S|]. inversion S; subst. now apply IH. }
  assert (K : Forall (Z.le start) (flat_map readings es)).
  { apply Forall_app in F. apply F. }
  destruct e as [ep|now b t|t]; cbn [readings app] in *.
  - repeat split; try discriminate; try (constructor; assumption).
  - inversion S as [|? ? S1 F1]; subst. inversion S1 as [|? ? S2 F2]; subst. inversion F; subst. inversion F1; subst.
    split; [constructor; assumption|]. split; [intros ? ? ? E; injection E as <- <- <-; split; assumption|]. split; [discriminate|constructor; assumption].
  - inversion S; subst. inversion F; subst. split; [constructor; assumption|]. split; [discriminate|]. split; [|constructor; assumption].
    intros ? E. injection E as <-. assumption.
Qed.

Lemma saves_after c es : forall start, clock start es -> (last_save_time c <= start)%Z -> (0 <= save_frequency_in_minutes c)%Z ->
  Forall (fun i => last_save_time c + save_frequency_in_minutes c * 60 <= fst i /\ fst i <= snd i)%Z (intervals (snd (handle_all c es))) /\
  StronglySorted (fun a b => snd a + save_frequency_in_minutes c * 60 <= fst b)%Z (intervals (snd (handle_all c es))).
Proof.
  revert c. induction es as [|e es IH]; intros c start H L P; [split; constructor|].
  destruct (clock_after start e es H) as (H1 & HB & HT & H2).
  cbn [handle_all]. destruct e as [ep|now b t|t].
  - cbn [handle]. specialize (IH {| save_frequency_in_minutes := save_frequency_in_minutes c; last_save_time := last_save_time c; current_epoch := ep |} start H2 L P).
    destruct (handle_all _ es) as [c2 r]. cbn [snd save_frequency_in_minutes last_save_time] in *. exact IH.
  - specialize (HB now b t eq_refl). cbn [handle]. destruct (Z.ltb_spec (now - last_save_time c) (save_frequency_in_minutes c * 60)).
    + assert (L' : (last_save_time c <= t)%Z) by lia. specialize (IH c t H1 L' P). destruct (handle_all c es) as [c2 r]. cbn [snd] in *. exact IH.
    + specialize (IH {| save_frequency_in_minutes := save_frequency_in_minutes c; last_save_time := t; current_epoch := current_epoch c |} t H1 ltac:(cbn; lia) P).
      destruct (handle_all _ es) as [c2 r]. cbn [snd save_frequency_in_minutes last_save_time intervals flat_map interval fst app] in *. fold (intervals r) in *.
      destruct IH as [I1 I2]. split.
      * constructor; [cbn; lia|]. eapply Forall_impl; [|exact I1]. cbn. intros i Hi. lia.
      * constructor; [exact I2|]. eapply Forall_impl; [|exact I1]. cbn. intros i Hi. lia.
  - specialize (HT t eq_refl). cbn [handle]. specialize (IH {| save_frequency_in_minutes := save_frequency_in_minutes c; last_save_time := t; current_epoch := current_epoch c + 1 |} t H1 ltac:(cbn; lia) P).
    destruct (handle_all _ es) as [c2 r]. cbn [snd save_frequency_in_minutes last_save_time intervals flat_map interval fst app] in *. fold (intervals r) in *.
    destruct IH as [I1 I2]. split; [|exact I2]. eapply Forall_impl; [|exact I1]. cbn. intros i Hi. lia.
Qed.

Lemma last_cons {A} (ws : list A) a d : last ws a = last (a :: ws) d.
Proof. revert a. induction ws as [|w ws IH]; intros a; [reflexivity|]. cbn [last]. destruct ws as [|w' ws]; [reflexivity|]. rewrite IH. reflexivity. Qed.
Lemma batches_spec n t sizes : 0 < n -> update_freq t = Some n -> samples_seen_at_last_write t <= samples_seen t ->
  let '(t', ws) := batches t sizes in
  samples_seen t' = samples_seen t + list_sum sizes /\ update_freq t' = Some n /\ samples_seen_at_last_write t' <= samples_seen t' /\
  Forall (fun w => samples_seen_at_last_write t + n <= w) ws /\ StronglySorted (fun a b => a + n <= b) ws /\
  (samples_seen t - samples_seen_at_last_write t < n -> samples_seen t' - samples_seen_at_last_write t' < n) /\
  samples_seen_at_last_write t' = last ws (samples_seen_at_last_write t) /\
  samples_seen_at_last_write t + n * List.length ws <= samples_seen_at_last_write t'.
Proof.
  intros Hn. revert t. induction sizes as [|s sizes IH]; intros t F L.
  - cbn. repeat split; auto; try constructor; lia.
  - cbn [batches]. unfold on_batch_end. rewrite F. cbn zeta.
    destruct (Nat.leb_spec n (samples_seen t + s - samples_seen_at_last_write t)) as [G|G].
    + specialize (IH {| update_freq := Some n; samples_seen := samples_seen t + s; samples_seen_at_last_write := samples_seen t + s |} eq_refl ltac:(cbn; lia)).
      destruct (batches _ sizes) as [t' ws]. cbn [samples_seen samples_seen_at_last_write update_freq] in IH.
      destruct IH as (I1 & I2 & I3 & I4 & I5 & I6 & I7 & I8). cbn [list_sum fold_right].
      change (fold_right Nat.add 0 sizes) with (list_sum sizes).
      split; [lia|]. split; [exact I2|]. split; [exact I3|].
      split; [constructor; [lia|]; eapply Forall_impl; [|exact I4]; cbn; intros; lia|].
      split; [constructor; assumption|]. split; [intros _; apply I6; lia|].
      split; [|cbn [List.length]; lia]. rewrite I7. apply last_cons.
    + specialize (IH {| update_freq := Some n; samples_seen := samples_seen t + s; samples_seen_at_last_write := samples_seen_at_last_write t |} eq_refl ltac:(cbn; lia)).
      destruct (batches _ sizes) as [t' ws]. cbn [samples_seen samples_seen_at_last_write update_freq] in IH.
      destruct IH as (I1 & I2 & I3 & I4 & I5 & I6 & I7 & I8). cbn [list_sum fold_right]. change (fold_right Nat.add 0 sizes) with (list_sum sizes).
      split; [lia|]. split; [exact I2|]. split; [exact I3|]. split; [exact I4|]. split; [exact I5|]. split; [intros _; apply I6; lia|]. split; [exact I7|exact I8].
Qed.

