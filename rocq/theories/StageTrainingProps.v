(** Property C69: the updates over the stages of experiments/train.py. *)
From Coq Require Import List Reals Lra Lia Arith Bool.
From Verif Require Import Base Cplx Vec TrainingModel TrainingSpec StagesModel StageTrainingModel StageTrainingSpec StageTrainingProofs.
Import ListNotations.
Local Open Scope R_scope.

(** A one parameter optimizer and one number per sample as its gradient, for the examples. *)
Definition descent : optimizer R := {| weights := fun s => [s]; apply_gradients := fun s g => s - nth 0 g 0 |}.
Definition plain_gradient (w : list R) (x : R) : list R := [x].

(** C69: one stage, whatever the optimizer has counted and accumulated before: with f mini batches per batch and r = (mini batches counted before) mod f, every
    update uses the gradients that waited and those of the first f - r mini batches of the next batch; the other r are evaluated with the
    new weights and wait. *)
Theorem C69_stage : forall (X S : Type) (O : optimizer S) (d mini B : nat) (sum : bool) (next_batch : nat -> list R -> list X)
    (sample_gradient : list R -> X -> list R) (A : accumulating S) (k : nat),
  (0 < B)%nat -> (0 < mini)%nat -> (B < mini \/ B mod mini = 0)%nat ->
  (forall c w, length (next_batch c w) = B) -> (forall s, length (weights O s) = d) -> (forall w x, length (sample_gradient w x) = d) ->
  length (accumulators A) = d ->
  let f := frequency mini B in
  let U := shifted_updates O d (step_scale sum f) f (acc_iterations A mod f) (Nat.min mini B) next_batch sample_gradient (accumulators A) (inner A) k in
  exists G Gn An, new_generator B (Some mini) = Ok G /\ gen_freq G = f /\
    fit O sum d next_batch sample_gradient G (set_update_params_frequency A f) (k * f) = Ok (Gn, An) /\
    inner An = fst U /\ accumulators An = snd U /\ length (accumulators An) = d /\ acc_iterations An = (acc_iterations A + k * f)%nat.
Proof. exact @stage_fit. Qed.
Print Assumptions C69_stage.
Example C69_stage_ex : frequency 4 12 = 3%nat /\ (12 mod 4 = 0)%nat /\ (forall s, length (weights descent s) = 1%nat) /\
  shifted_updates descent 1 1 2 1 1 (fun c w => [INR c; 10]) plain_gradient [100] 7 2 = (7 - (100 + (0 + 0)) - (10 + 0 + (1 + 0)), [10 + 0]).
Proof.
  split; [reflexivity|]. split; [reflexivity|]. split; [reflexivity|].
  cbv -[Rplus Rmult Rminus Rinv IZR INR]. apply f_equal2; [simpl INR; field|]. simpl INR. f_equal. field.
Qed.

(** C69: all stages, one after the other. *)
Theorem C69_run : forall (X S : Type) (O : nat -> optimizer S) (d mini : nat) (sum : bool) (next_batch : nat -> nat -> list R -> list X)
    (sample_gradient : list R -> X -> list R) (stages : list stage) (A : accumulating S),
  (0 < mini)%nat -> (forall i s, length (weights (O i) s) = d) -> (forall w x, length (sample_gradient w x) = d) ->
  Forall (good_stage mini) stages ->
  (forall i c w st, nth_error stages i = Some st -> length (next_batch i c w) = stage_batch_size st) -> length (accumulators A) = d ->
  exists An, train_stages O sum d mini next_batch sample_gradient 0 stages A = Ok An /\
    (inner An, accumulators An) = shifted_stages O d mini sum next_batch sample_gradient 0 (acc_iterations A) stages (accumulators A) (inner A) /\
    length (accumulators An) = d /\ acc_iterations An = (acc_iterations A + steps_before mini stages)%nat.
Proof. intros X S O d mini sum nb sg stages A Hm HO Hsg HF HnB Hacc. exact (stages_fit O d mini sum nb sg Hm HO Hsg stages 0 A HF HnB Hacc). Qed.
Print Assumptions C69_run.
Example C69_run_ex : Forall (good_stage 256) [{| stage_batch_size := 128; stage_updates := 100 |}; {| stage_batch_size := 1024; stage_updates := 30 |}].
Proof. repeat constructor; cbn [stage_batch_size]; lia. Qed.

(** C69: when every stage starts at a multiple of its frequency and no gradient waits, the run makes exactly the updates of whole batch training, and
    again no gradient waits at the end. *)
Theorem C69_aligned : forall (X S : Type) (O : nat -> optimizer S) (d mini : nat) (sum : bool) (next_batch : nat -> nat -> list R -> list X)
    (sample_gradient : list R -> X -> list R) (stages : list stage) (A : accumulating S),
  (0 < mini)%nat -> (forall i s, length (weights (O i) s) = d) -> (forall w x, length (sample_gradient w x) = d) ->
  Forall (good_stage mini) stages ->
  (forall i c w st, nth_error stages i = Some st -> length (next_batch i c w) = stage_batch_size st) ->
  accumulators A = repeat 0 d -> aligned mini (acc_iterations A) stages ->
  exists An, train_stages O sum d mini next_batch sample_gradient 0 stages A = Ok An /\ accumulators An = repeat 0 d /\
    inner An = staged_training O d mini (fun f => if sum then INR f else 1) next_batch sample_gradient 0 stages (inner A).
Proof.
  intros X S O d mini sum nb sg stages A Hm HO Hsg HF HnB HA HL.
  destruct (stages_fit O d mini sum nb sg Hm HO Hsg stages 0 A HF HnB ltac:(rewrite HA; apply repeat_length)) as (An & E1 & E2 & _ & _).
  exists An. split; [exact E1|]. rewrite HA in E2. change (repeat 0 d) with (vzero d) in E2.
  rewrite (aligned_stages O d mini sum nb sg Hm Hsg stages 0 (acc_iterations A) (inner A) HF HnB HL) in E2.
  injection E2 as E2 E3. split; [exact E3|exact E2].
Qed.
Print Assumptions C69_aligned.
Example C69_aligned_ex : aligned 256 0 [{| stage_batch_size := 128; stage_updates := 100 |}; {| stage_batch_size := 1024; stage_updates := 30 |}].
Proof. split; [reflexivity|]. split; [reflexivity|exact Logic.I]. Qed.

(** C69: stages whose batches fit into one mini batch are always aligned. *)
Theorem C69_small_batches : forall (mini : nat) (stages : list stage) (seen : nat),
  (forall st, In st stages -> 0 < stage_batch_size st <= mini)%nat -> aligned mini seen stages.
Proof.
  intros mini stages. induction stages as [|st t IH]; intros seen H; [exact Logic.I|]. cbn [aligned].
  assert (E : frequency mini (stage_batch_size st) = 1%nat).
  { specialize (H st (or_introl eq_refl)). unfold frequency. rewrite Nat.min_r by lia. apply Nat.div_same. lia. }
  rewrite E. split; [reflexivity|]. apply IH. intros st' Hst. apply H. now right.
Qed.
Print Assumptions C69_small_batches.
Example C69_small_batches_ex : forall st, In st [{| stage_batch_size := 128; stage_updates := 100 |}; {| stage_batch_size := 256; stage_updates := 30 |}] ->
  (0 < stage_batch_size st <= 256)%nat.
Proof. intros st [<-|[<-|[]]]; cbn [stage_batch_size]; lia. Qed.

(** The stages of ising_runner.py:17 and heisenberg_runner.py:16 with the default 100 steps per epoch, as updates per stage. *)
Definition ising_stages : list stage :=
  [{| stage_batch_size := 2 ^ 7; stage_updates := 100 * 100 |}; {| stage_batch_size := 2 ^ 10; stage_updates := 100 * 100 |};
   {| stage_batch_size := 2 ^ 13; stage_updates := 50 * 100 |}].
Definition heisenberg_stages : list stage :=
  [{| stage_batch_size := 2 ^ 10; stage_updates := 80 * 100 |}; {| stage_batch_size := 2 ^ 11; stage_updates := 370 * 100 |}].

Lemma andb_true_intro_le : forall a b : nat, ((0 <? a) && (a <=? b))%nat = true -> (0 < a <= b)%nat.
Proof. intros a b H. apply andb_true_iff in H as [H1 H2]. apply Nat.ltb_lt in H1. apply Nat.leb_le in H2. lia. Qed.

(** C69: the default settings are aligned. *)
Theorem C69_defaults : aligned (2 ^ 12) 0 ising_stages /\ aligned (2 ^ 11) 0 heisenberg_stages /\
  Forall (good_stage (2 ^ 12)) ising_stages /\ Forall (good_stage (2 ^ 11)) heisenberg_stages.
Proof.
  split.
  { cbn [aligned ising_stages stage_batch_size stage_updates]. split; [reflexivity|]. split; [apply Nat.mod_1_r|]. split; [|exact Logic.I].
    replace (frequency (2 ^ 12) (2 ^ 13)) with 2%nat by (vm_compute; reflexivity).
    replace (frequency (2 ^ 12) (2 ^ 10)) with 1%nat by (vm_compute; reflexivity).
    replace (frequency (2 ^ 12) (2 ^ 7)) with 1%nat by (vm_compute; reflexivity).
    symmetry. apply (Nat.mod_unique _ 2 (100 * 100)); lia. }
  split.
  { apply C69_small_batches. intros st Hst. apply andb_true_intro_le.
    destruct Hst as [<-|[<-|[]]]; vm_compute; reflexivity. }
  assert (G : forall m st, ((0 <? stage_batch_size st) && ((stage_batch_size st <? m) || (stage_batch_size st mod m =? 0)))%nat = true -> good_stage m st).
  { intros m st H. apply andb_true_iff in H as [H1 H2]. apply Nat.ltb_lt in H1. split; [exact H1|]. apply orb_true_iff in H2 as [H2|H2].
    - left. now apply Nat.ltb_lt. - right. now apply Nat.eqb_eq. }
  split; repeat (apply Forall_cons; [apply G; vm_compute; reflexivity|]); apply Forall_nil.
Qed.
Print Assumptions C69_defaults.
Example C69_defaults_ex : map (fun st => frequency (2 ^ 12) (stage_batch_size st)) ising_stages = [1; 1; 2]%nat /\
  map (fun st => frequency (2 ^ 11) (stage_batch_size st)) heisenberg_stages = [1; 1]%nat.
Proof. split; vm_compute; reflexivity. Qed.

(** C69 fails with --mini_batch_size 256 for the Ising stages, which passes the assertion of train.py:100: the last stage has 32 mini batches per batch and
    starts after 50000 mini batches, so its updates take 16 mini batches of one batch and 16 of the next. *)
Theorem C69_ising_256_refuted : Forall (good_stage 256) ising_stages /\ ~ aligned 256 0 ising_stages /\
  steps_before 256 (firstn 2 ising_stages) = (50 * 1000)%nat /\ frequency 256 (2 ^ 13) = 32%nat /\ ((50 * 1000) mod 32 = 16)%nat.
Proof.
  assert (G : forall m st, ((0 <? stage_batch_size st) && ((stage_batch_size st <? m) || (stage_batch_size st mod m =? 0)))%nat = true -> good_stage m st).
  { intros m st H. apply andb_true_iff in H as [H1 H2]. apply Nat.ltb_lt in H1. split; [exact H1|]. apply orb_true_iff in H2 as [H2|H2].
    - left. now apply Nat.ltb_lt. - right. now apply Nat.eqb_eq. }
  split; [repeat (apply Forall_cons; [apply G; vm_compute; reflexivity|]); apply Forall_nil|].
  assert (F1 : frequency 256 (2 ^ 7) = 1%nat) by (vm_compute; reflexivity).
  assert (F2 : frequency 256 (2 ^ 10) = 4%nat) by (vm_compute; reflexivity).
  assert (F3 : frequency 256 (2 ^ 13) = 32%nat) by (vm_compute; reflexivity).
  assert (M : ((50 * 1000) mod 32 = 16)%nat) by (symmetry; apply (Nat.mod_unique _ 32 1562); lia).
  split.
  { intros (_ & _ & H & _). cbn [stage_batch_size stage_updates] in H. rewrite F1, F2, F3 in H.
    replace (0 + 100 * 100 * 1 + 100 * 100 * 4)%nat with (50 * 1000)%nat in H by lia. rewrite M in H. discriminate H. }
  split; [|split; [exact F3|exact M]].
  cbn [steps_before ising_stages firstn stage_batch_size stage_updates]. rewrite F1, F2. lia.
Qed.
Print Assumptions C69_ising_256_refuted.

(** C69, what an update out of step does: one stage with one update of batches of one sample, then one with one update of batches of two samples in mini batches of one.
    Whole batch training takes both samples of the second batch; the run takes one of them and ends with the other one waiting. *)
Definition late_stages : list stage := [{| stage_batch_size := 1; stage_updates := 1 |}; {| stage_batch_size := 2; stage_updates := 1 |}].
Definition late_batch (idx c : nat) (w : list R) : list R := match idx with O => [1] | _ => [1; 1] end.
Theorem C69_out_of_step_refuted : exists A An, convert_to_accumulate descent 0 1 = Ok A /\ Forall (good_stage 1) late_stages /\
  train_stages (fun _ => descent) true 1 1 late_batch plain_gradient 0 late_stages A = Ok An /\
  inner An = -2 /\ accumulators An = [1] /\
  staged_training (fun _ => descent) 1 1 (fun f => INR f) late_batch plain_gradient 0 late_stages 0 = -3.
Proof.
  assert (HF : Forall (good_stage 1) late_stages).
  { repeat (apply Forall_cons; [split; [cbn [stage_batch_size]; lia|right; reflexivity]|]). apply Forall_nil. }
  destruct (convert_to_accumulate descent 0 1) as [A|e] eqn:EA; [|discriminate EA].
  assert (HA : inner A = 0 /\ acc_iterations A = 0%nat /\ accumulators A = [0]).
  { injection EA as <-. split; [reflexivity|]. split; reflexivity. }
  destruct HA as (H1 & H2 & H3). exists A.
  destruct (C69_run R R (fun _ => descent) 1 1 true late_batch plain_gradient late_stages A) as (An & E1 & E2 & _ & _).
  - lia.
  - reflexivity.
  - reflexivity.
  - exact HF.
  - intros [|[|i]] c w st E; cbn [late_stages nth_error] in E; [injection E as <-; reflexivity|injection E as <-; reflexivity|].
    rewrite (proj2 (nth_error_None [] i)) in E by (cbn; lia). discriminate E.
  - now rewrite H3.
  - exists An. split; [reflexivity|]. split; [exact HF|]. split; [exact E1|].
    rewrite H1, H2, H3 in E2.
    assert (S1 : shifted_stages (fun _ : nat => descent) 1 1 true late_batch plain_gradient 0 0 late_stages [0] 0 = (-2, [1])).
    { cbv -[Rplus Rmult Rminus Rinv IZR Ropp]. apply f_equal2; [field|]. f_equal. field. }
    rewrite S1 in E2. injection E2 as E2 E3.
    split; [exact E2|]. split; [exact E3|].
    cbv -[Rplus Rmult Rminus Rinv IZR Ropp]. field.
Qed.
Print Assumptions C69_out_of_step_refuted.

(** C69, a restart: the counter and the accumulators start from zero, the wrapped optimizer keeps its state. So the gradients that waited are lost, and the stage
    that is continued makes the updates of whole batch training whatever happened before. *)
Theorem C69_restart : forall (X S : Type) (O : optimizer S) (d mini : nat) (sum : bool) (next_batch : nat -> list R -> list X)
    (sample_gradient : list R -> X -> list R) (st : stage) (A : accumulating S),
  (0 < mini)%nat -> (forall s, length (weights O s) = d) -> (forall w x, length (sample_gradient w x) = d) -> good_stage mini st ->
  (forall c w, length (next_batch c w) = stage_batch_size st) ->
  exists A' An, restart O A = Ok A' /\ acc_iterations A' = 0%nat /\ accumulators A' = repeat 0 d /\ inner A' = inner A /\
    train_stages (fun _ => O) sum d mini (fun _ => next_batch) sample_gradient 0 [st] A' = Ok An /\ accumulators An = repeat 0 d /\
    inner An = full_batch_training O d (if sum then INR (frequency mini (stage_batch_size st)) else 1) next_batch sample_gradient (inner A) (stage_updates st).
Proof.
  intros X S O d mini sum nb sg st A Hm HO Hsg Hst HnB.
  unfold restart, convert_to_accumulate. cbn [Nat.ltb Nat.leb]. eexists.
  destruct (C69_aligned X S (fun _ => O) d mini sum (fun _ => nb) sg [st]
    {| acc_iterations := 0; acc_freq := 1; accumulators := vzero (length (weights O (inner A))); inner := inner A; total_iterations := 0;
       params_ema := vzero (length (weights O (inner A))) |}) as (An & E1 & E2 & E3).
  - exact Hm.
  - intros _. exact HO.
  - exact Hsg.
  - apply Forall_cons; [exact Hst|apply Forall_nil].
  - intros [|[|i]] c w st' E; cbn [nth_error] in E; [injection E as <-; apply HnB|discriminate E|discriminate E].
  - cbn [accumulators]. now rewrite HO.
  - cbn [aligned acc_iterations]. split; [|exact Logic.I]. apply Nat.mod_0_l. unfold frequency. destruct Hst as [B0 HB].
    assert (H := Nat.div_str_pos (stage_batch_size st) (Nat.min mini (stage_batch_size st))). lia.
  - exists An. split; [reflexivity|]. cbn [acc_iterations accumulators inner]. split; [reflexivity|]. rewrite HO at 1. split; [reflexivity|].
    split; [reflexivity|]. split; [exact E1|]. split; [exact E2|exact E3].
Qed.
Print Assumptions C69_restart.
Example C69_restart_ex : restart descent {| acc_iterations := 3; acc_freq := 2; accumulators := [1]; inner := -2; total_iterations := 0; params_ema := [0] |} =
  Ok {| acc_iterations := 0; acc_freq := 1; accumulators := [0]; inner := -2; total_iterations := 0; params_ema := [0] |} /\
  good_stage 1 {| stage_batch_size := 2; stage_updates := 5 |}.
Proof. split; [reflexivity|]. split; [cbn; lia|right; reflexivity]. Qed.
