(** Lemmas about training in stages. *)
From Coq Require Import List Bool Arith ZArith Lia.
From Verif Require Import Base TrainingModel CheckpointModel StagesModel StagesSpec.
Import ListNotations.

Section Stages.
  Context {L : Type}.
  Notation stage := (stage L).

  Definition numbered (a : nat) (l : list (nat * L)) : list (nat * nat * value L) :=
    map (fun e => let '(i, (b, r)) := e in (i, b, Scalar r)) (combine (seq a (length l)) l).

  Lemma numbered_app a l m : numbered a (l ++ m) = numbered a l ++ numbered (a + length l) m.
  Proof.
    unfold numbered. rewrite app_length, seq_app. revert a. induction l as [|x l IH]; intros a; [cbn; now rewrite Nat.add_0_r|].
    cbn [length seq app combine map]. rewrite <- Nat.add_succ_comm. now rewrite IH.
  Qed.
  Lemma numbered_length a l : length (numbered a l) = length l.
  Proof. unfold numbered. rewrite map_length, combine_length, seq_length. lia. Qed.
  Lemma numbered_repeat a n b r : numbered a (repeat (b, r) n) = map (fun e => (e, b, Scalar r)) (seq a n).
  Proof. unfold numbered. rewrite repeat_length. revert a. induction n as [|n IH]; intros a; [reflexivity|]. cbn [repeat seq combine map]. now rewrite IH. Qed.
  Lemma skipn_seq k a n : skipn k (seq a n) = seq (a + k) (n - k).
  Proof. revert a n. induction k as [|k IH]; intros a [|n]; cbn [skipn seq]; rewrite ?Nat.add_0_r; try reflexivity. rewrite IH. f_equal; lia. Qed.
  Lemma skipn_map_ {A B} (f : A -> B) k l : skipn k (map f l) = map f (skipn k l).
  Proof. revert l. induction k as [|k IH]; intros [|x l]; cbn; auto. Qed.

  Lemma schedule_cons b n (r : L) t : schedule ((b, n, r) :: t) = repeat (b, r) n ++ schedule t.
  Proof. reflexivity. Qed.

  (** The stages whose last epoch lies beyond [init]. *)
  Fixpoint written (idx : nat) (stages : list stage) (total init : nat) : list nat :=
    match stages with
    | [] => []
    | (_, n, _) :: t => if total + n <=? init then written (S idx) t (total + n) init else (idx + 1) :: written (S idx) t (total + n) (total + n)
    end.

  Lemma run_good mini tail : forall stages idx total init, (forall s, In s stages -> fits mini s) -> total <= init ->
    run_stages mini None idx (map lift stages ++ tail) total init =
    let '(e, f, l, err) := run_stages mini None (idx + length stages) tail (total + length (schedule stages)) (Nat.max init (total + length (schedule stages))) in
    (skipn (init - total) (numbered total (schedule stages)) ++ e, written idx stages total init ++ f, l, err).
  Proof.
    induction stages as [|[[b n] r] t IH]; intros idx total init H Hi.
    - cbn [map app schedule flat_map length written]. rewrite !Nat.add_0_r, Nat.max_l by lia. unfold numbered. cbn [length seq combine map]. rewrite skipn_nil.
      destruct (run_stages _ _ _ _ _ _) as [[[e f] l] err]. reflexivity.
    - cbn [map app lift run_stages written]. rewrite schedule_cons, app_length, repeat_length, numbered_app, repeat_length. 
      destruct (Nat.leb_spec (total + n) init) as [G|G].
      + rewrite IH by (try lia; intros; apply H; now right). cbn [length]. replace (S idx + length t) with (idx + S (length t)) by lia. rewrite !Nat.add_assoc.
        destruct (run_stages _ _ _ _ _ _) as [[[e f] l] err]. do 3 f_equal. f_equal. rewrite skipn_app, numbered_length, repeat_length.
        rewrite (skipn_all2 (numbered total (repeat (b, r) n))) by (rewrite numbered_length, repeat_length; lia). cbn [app]. f_equal. lia.
      + assert (Z : stage_sizes mini None (Scalar b) = Ok (b, min (b * 8) (2 ^ 15))).
        { destruct (H (b, n, r) (or_introl eq_refl)) as [M [F|F]]; unfold stage_sizes; cbn [bind].
          - now rewrite (proj2 (Nat.ltb_lt b mini)) by exact F.
          - destruct (b <? mini); [reflexivity|]. rewrite (proj2 (Nat.eqb_neq mini 0)) by lia. now rewrite F. }
        rewrite Z. rewrite IH by (try lia; intros; apply H; now right). cbn [length]. replace (S idx + length t) with (idx + S (length t)) by lia. rewrite !Nat.add_assoc.
        rewrite (Nat.max_r (total + n)) by lia. rewrite (Nat.max_r init) by lia. destruct (run_stages _ _ _ _ _ _) as [[[e f] l] err].
        rewrite skipn_app, numbered_length, repeat_length, numbered_repeat, skipn_map_, skipn_seq.
        replace (init - total - n) with 0 by lia. replace (total + n - (total + n)) with 0 by lia. replace (total + (init - total)) with init by lia.
        replace (n - (init - total)) with (total + n - init) by lia. cbn [skipn app]. now rewrite app_assoc.
  Qed.
  Lemma written_spec : forall stages idx total init, total <= init ->
    written idx stages total init = map (fun j => idx + j + 1) (filter (fun j => Nat.max init (total + length (schedule (firstn j stages))) <? total + length (schedule (firstn (S j) stages))) (seq 0 (length stages))).
  Proof.
    induction stages as [|[[b n] r] t IH]; intros idx total init Ti; [reflexivity|]. cbn [written length seq filter].
    assert (Sh : forall init', (init' = init \/ init < total + n /\ init' = total + n) ->
      map (fun j => S idx + j + 1) (filter (fun j => Nat.max init' (total + n + length (schedule (firstn j t))) <? total + n + length (schedule (firstn (S j) t))) (seq 0 (length t))) =
      map (fun j => idx + j + 1) (filter (fun j => Nat.max init (total + length (schedule (firstn j ((b, n, r) :: t)))) <? total + length (schedule (firstn (S j) ((b, n, r) :: t)))) (seq 1 (length t)))).
    { intros init' Hi. rewrite <- seq_shift. generalize (seq 0 (length t)) as l. induction l as [|j l IHl]; [reflexivity|]. cbn [map filter].
      replace (Nat.max init (total + length (schedule (firstn (S j) ((b, n, r) :: t)))) <? total + length (schedule (firstn (S (S j)) ((b, n, r) :: t))))
        with (Nat.max init' (total + n + length (schedule (firstn j t))) <? total + n + length (schedule (firstn (S j) t))).
      - destruct (_ <? _); cbn [map]; rewrite IHl; [f_equal; lia|reflexivity].
      - change (firstn (S (S j)) ((b, n, r) :: t)) with ((b, n, r) :: firstn (S j) t). change (firstn (S j) ((b, n, r) :: t)) with ((b, n, r) :: firstn j t).
        rewrite !schedule_cons, !app_length, !repeat_length. rewrite !Nat.add_assoc. f_equal. lia. }
    change (firstn 0 ((b, n, r) :: t)) with (@nil stage). change (firstn 1 ((b, n, r) :: t)) with [(b, n, r)]. rewrite schedule_cons, app_length, repeat_length. cbn [schedule flat_map length].
    rewrite !Nat.add_0_r. destruct (Nat.leb_spec (total + n) init) as [G|G].
    - rewrite (proj2 (Nat.ltb_ge _ _)) by lia. rewrite IH by lia. apply Sh. now left.
    - destruct (Nat.ltb_spec (Nat.max init total) (total + n)) as [K|K].
      + cbn [map]. rewrite Nat.add_0_r. f_equal. rewrite IH by lia. apply Sh. right. lia.
      + exfalso. lia.
  Qed.
  Lemma remaining_numbered k stages : remaining k stages = skipn k (numbered 0 (schedule stages)).
  Proof. unfold remaining, numbered. now rewrite skipn_map_. Qed.
  Lemma combine_lift bs : forall ne (lr : list L), combine (combine (map Scalar bs) ne) (map Scalar lr) = map lift (stages_of bs ne lr).
  Proof. induction bs as [|b bs IH]; intros [|n ne] [|r lr]; cbn; try reflexivity. now rewrite IH. Qed.
End Stages.

Lemma stage_events_saves a epochs : (forall es e, In es epochs -> In e es -> exists now b t, e = BatchEnd now b t) -> forall c,
  (epochs <> [] -> current_epoch (fst (handle_all c (stage_events a epochs))) = a + length epochs - 1) /\
  Forall (fun s => a <= fst (snd s) < a + length epochs) (snd (handle_all c (stage_events a epochs))).
Proof.
  revert a. induction epochs as [|es t IH]; intros a H c; [split; [congruence|constructor]|].
  cbn [stage_events handle_all handle]. set (c1 := {| save_frequency_in_minutes := _; last_save_time := _; current_epoch := a |}).
  assert (G : forall es' c', (forall e, In e es' -> exists now b t, e = BatchEnd now b t) -> current_epoch c' = a ->
    exists c2 r, handle_all c' (es' ++ stage_events (S a) t) = (let (c3, r') := handle_all c2 (stage_events (S a) t) in (c3, r ++ r')) /\ current_epoch c2 = a /\ Forall (fun s => fst (snd s) = a) r).
  { induction es' as [|e es' IH']; intros c' He E.
    - exists c', []. cbn [app]. split; [now destruct (handle_all c' _)|]. split; [exact E|constructor].
    - cbn [app handle_all]. destruct (He e (or_introl eq_refl)) as (now & b & tt & ->). cbn [handle]. destruct (_ <? _)%Z.
      + destruct (IH' c' ltac:(intros; apply He; now right) E) as (c2 & r & A & B & C). exists c2, r. rewrite A. destruct (handle_all c2 _). repeat split; auto.
      + destruct (IH' {| save_frequency_in_minutes := save_frequency_in_minutes c'; last_save_time := tt; current_epoch := current_epoch c' |}
                    ltac:(intros; apply He; now right) E) as (c2 & r & A & B & C).
        exists c2, ((BatchEnd now b tt, (current_epoch c', b)) :: r). rewrite A. destruct (handle_all c2 _). split; [reflexivity|]. split; [exact B|]. constructor; [exact E|exact C]. }
  destruct (G es c1 (fun e He => H es e (or_introl eq_refl) He) eq_refl) as (c2 & r & A & B & C). rewrite A.
  destruct (IH (S a) ltac:(intros; eapply H; [right; eassumption|eassumption]) c2) as [I1 I2]. cbn [length].
  destruct (handle_all c2 (stage_events (S a) t)) as [c3 r'] eqn:E3. cbn [fst snd] in *. split.
  - intros _. destruct t as [|x t]; [cbn in E3; injection E3 as <- <-; cbn; lia|]. rewrite I1 by discriminate. cbn [length]. lia.
  - apply Forall_app. split; [eapply Forall_impl; [|exact C]; cbn; intros; lia|eapply Forall_impl; [|exact I2]; cbn; intros; lia].
Qed.
