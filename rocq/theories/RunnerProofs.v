(** Lemmas about the experiment scripts. *)
From Coq Require Import String List ZArith Reals Bool Arith Lia Lra.
From Verif Require Import Base OrderingModel OrderingSpec Cplx IsingModel HeisenbergModel LatticeSpec AutoregressiveSpec AutoregressiveProofs ObservableModel ObservableSpec ObservableProofs ExactModel ExactSpec ExactProofs
  ExactOperatorProofs MonteCarloModel MonteCarloSpec MonteCarloProofs SymmetryModel SymmetrySpec SymmetryProofs SymmetryEnsembleProofs
  SymmetricEvaluationModel SymmetricEvaluationSpec SymmetricEvaluationProofs
  TrainingModel CheckpointModel CallbackModel CallbackSpec CallbackProofs CallbackProps StagesModel StagesSpec StagesProofs StagesProps RunnerModel RunnerSpec.
Import ListNotations.

Lemma flat_map_length_const {A B} (f : A -> list B) m l : (forall a, In a l -> List.length (f a) = m) -> List.length (flat_map f l) = List.length l * m.
Proof. induction l as [|a l IH]; intros H; [reflexivity|]. cbn [flat_map List.length]. rewrite app_length, (H a), IH by (intros; try apply H; cbn; auto). lia. Qed.
Lemma Rsum_flat_map {A B} (f : B -> R) (g : A -> list B) l : Rsum f (flat_map g l) = Rsum (fun a => Rsum f (g a)) l.
Proof. induction l as [|a l IH]; [reflexivity|]. cbn [flat_map]. rewrite Rsum_app, IH, Rsum_cons. reflexivity. Qed.
Lemma mean_of_means (f : list Z -> R) m (b : nat -> list (list Z)) steps : 0 < m -> 0 < steps -> (forall k, k < steps -> List.length (b k) = m) ->
  average (fun k => mean_rows f (b k)) steps = mean_rows f (flat_map b (seq 0 steps)).
Proof.
  intros M S L. unfold average, mean_rows. rewrite (flat_map_length_const b m), seq_length by (intros a Ha; apply in_seq in Ha; apply L; lia).
  rewrite Rsum_flat_map. rewrite (Rsum_ext _ (fun a => / INR m * Rsum f (b a))%R).
  - rewrite Rsum_scal, mult_INR. assert (INR m <> 0)%R by (apply not_0_INR; lia). assert (INR steps <> 0)%R by (apply not_0_INR; lia). now field.
  - intros a Ha. apply in_seq in Ha. rewrite L by lia. unfold Rdiv. ring.
Qed.
Lemma average_ext f g n : (forall k, k < n -> f k = g k) -> average f n = average g n.
Proof. intros H. unfold average. f_equal. apply Rsum_ext. intros k Hk. apply in_seq in Hk. apply H. lia. Qed.

Section Report.
  Context (machine : list (array Z) -> res (list C)) (batch : nat -> nat -> list (list Z)) (start sampled evaluated now : nat -> R).
  Context (shape : list nat) (n : nat) (H : list Z -> list Z -> C) (op : operator).
  Context (HO : operator_represents n H op).
  Let log_phi := predicted (evaluation_model machine) shape.
  Let local s := Re (local_energy n H log_phi s).
  Let count (workers : option nat) := match workers with None => 1 | Some W => W end.

  Lemma Re_spec b : Re (spec_energy n H log_phi b) = mean_rows local b.
  Proof. unfold spec_energy, mean_rows. rewrite Re_scale, Re_Csum. unfold local, Rdiv. apply Rmult_comm. Qed.
  Lemma Rvar_rows b : Rvar (map local b) = variance_rows local b.
  Proof.
    unfold Rvar, variance_rows, mean_rows. unfold Rmean. rewrite !map_map, !map_length, !Rsum_map. cbv beta. unfold Rdiv. rewrite Rmult_comm. f_equal.
    apply Rsum_ext. intros s _. rewrite (Rmult_comm (Rsum _ b)). reflexivity.
  Qed.
  Lemma step_values workers mini steps k : 0 < mini -> 0 < count workers -> samples n mini (count workers) steps batch -> k < steps ->
    exists st, evaluation_step machine batch op shape workers k = Ok st /\
      Re (energy_of_step st) = mean_rows local (flat_map (fun r => batch r k) (seq 0 (count workers))) /\
      variance_of_step st = variance_rows local (flat_map (fun r => batch r k) (seq 0 1)).
  Proof.
    intros M W S Hk. unfold evaluation_step. fold log_phi. cbn [seq flat_map]. rewrite app_nil_r. destruct workers as [W'|]; cbn [count] in *.
    - rewrite (horovod_ok n H op log_phi mini); auto.
      + unfold range. destruct W' as [|W']; [lia|]. cbn [seq map bind]. eexists. split; [reflexivity|]. cbn [energy_of_step variance_of_step].
        split; [|apply Rvar_rows]. rewrite Re_spec. f_equal. change (batch 0 k :: map (fun r => batch r k) (seq 1 W')) with (map (fun r => batch r k) (seq 0 (Datatypes.S W'))).
        now rewrite flat_map_concat_map.
      + unfold range. destruct W'; [lia|discriminate].
      + apply Forall_forall. intros c Hc. apply in_map_iff in Hc. destruct Hc as (r & <- & Hr). apply in_seq in Hr. apply S; lia.
      + intros s Hs. apply in_concat in Hs. destruct Hs as (c & Hc & Hs). apply in_map_iff in Hc. destruct Hc as (r & <- & Hr). apply in_seq in Hr.
        apply (S r k); [lia|lia|exact Hs].
    - destruct (S 0 k ltac:(lia) Hk) as [L A]. rewrite (next_batch_ok n H op log_phi) by (auto; intros E; rewrite E in L; cbn in L; lia).
      eexists. split; [reflexivity|]. cbn [energy_of_step variance_of_step flat_map seq]. rewrite app_nil_r. split; [apply Re_spec|apply Rvar_rows].
  Qed.

  Lemma world_ok workers mini : 0 < mini -> exists w, evaluation_world machine batch start sampled evaluated now op shape workers mini = Ok w /\
    fresh mini (Some mini) (CallbackModel.train w) /\ CallbackModel.train w = evaluation_vmc machine batch start sampled evaluated op shape workers (served (CallbackModel.train w)).
  Proof.
    intros M. unfold evaluation_world. cbn [sampler_sizes fst].
    destruct (new_generator mini (Some mini)) as [G|e] eqn:E.
    - eexists. split; [reflexivity|]. split; [exact E|reflexivity].
    - exfalso. unfold new_generator, set_batch_size in E. rewrite Nat.ltb_irrefl in E. destruct mini; [lia|]. discriminate E.
  Qed.
  Lemma default_four e0 h : statistics (evaluation_callbacks e0 h) = default_callbacks false e0 false 1.
  Proof. destruct h; reflexivity. Qed.

  Lemma report_ok workers mini steps x h : 0 < mini -> 0 < steps -> 0 < count workers -> samples n mini (count workers) steps batch ->
    exists w w' r, evaluation_world machine batch start sampled evaluated now op shape workers mini = Ok w /\
      evaluate (statistics (evaluation_callbacks (Some x) h)) (Some shown_keys) steps w = Ok (w', r) /\
      reports n H log_phi x batch (count workers) 1 steps r.
  Proof.
    intros M S0 W S. destruct (world_ok workers mini M) as (w & Ew & F & EV). rewrite default_four.
    destruct (C53_default (Some x) false 1 mini mini 1 steps w S0 M ltac:(lia) ltac:(lia) F) as (w' & r & E & R1 & R2 & R3 & R4 & _ & R6).
    cbv zeta in *. exists w, w', r. split; [exact Ew|]. split.
    - rewrite <- E. pose proof (logged_default (Some x) false 1 steps 0 w (fresh_ready _ _ _ F)) as L. apply (C53_progress_bar _ shown_keys _ _ _ L).
      intros key l Hk Hl. apply in_map_iff in Hl. destruct Hl as (j & <- & _). destruct Hk as [<-|[<-|[<-|[]]]]; eexists; reflexivity.
    - assert (B : forall i, (i + 1) / 1 - 1 = i) by (intros i; rewrite Nat.div_1_r; lia).
      assert (EE : forall i, i < steps -> Re (current_energy (CallbackModel.train w) ((i + 1) / 1)) = mean_rows local (flat_map (fun r => batch r i) (seq 0 (count workers)))).
      { intros i Hi. rewrite EV. cbn [evaluation_vmc current_energy]. rewrite B. destruct (step_values workers mini steps i M W S Hi) as (st & -> & Q & _). exact Q. }
      assert (LL : forall k, k < steps -> List.length (flat_map (fun r => batch r k) (seq 0 (count workers))) = count workers * mini).
      { intros k Hk. rewrite (flat_map_length_const _ mini), seq_length; [reflexivity|]. intros r0 Hr. apply in_seq in Hr. apply S; lia. }
      assert (EQ : average (fun i => Re (current_energy (CallbackModel.train w) ((i + 1) / 1))) steps = mean_rows local (all_rows batch (count workers) steps)).
      { rewrite (average_ext _ _ _ EE). apply (mean_of_means local (count workers * mini)); [nia|exact S0|exact LL]. }
      unfold reports. fold local. cbv zeta. rewrite R1, R2, R3, R4, R6, EQ. split; [reflexivity|]. split; [|split; [|split]]; f_equal.
      + rewrite <- EQ. unfold average. unfold Rdiv at 1 2. set (f := fun i => Re (current_energy (CallbackModel.train w) ((i + 1) / 1))).
        rewrite (Rsum_ext _ (fun i => / x * (x - f i))%R) by (intros; unfold f, Rdiv; ring). rewrite Rsum_scal, Rsum_minus.
        replace (Rsum (fun _ => x) (seq 0 steps)) with (INR steps * x)%R.
        2: { rewrite <- (seq_length steps 0) at 1. clear. generalize (seq 0 steps). intros l. induction l as [|a l IH]; [cbn [List.length INR]; rewrite Rmult_0_l; reflexivity|].
             rewrite Rsum_cons, <- IH. cbn [List.length]. rewrite S_INR. ring. }
        assert (INR steps <> 0)%R by (apply not_0_INR; lia). unfold Rdiv, Rminus. rewrite !Rmult_plus_distr_l, !Rmult_plus_distr_r.
        replace (/ x * (INR steps * x) * / INR steps)%R with (x * / x * (INR steps * / INR steps))%R by ring. rewrite (Rinv_r (INR steps)) by assumption. ring.
      + apply average_ext. intros i Hi. rewrite EV. cbn [evaluation_vmc current_local_energy_variance]. rewrite B.
        destruct (step_values workers mini steps i M W S Hi) as (st & -> & _ & Q). exact Q.
      + unfold all_rows. rewrite <- (mean_of_means _ mini); auto.
        * apply average_ext. intros i Hi. rewrite EV. cbn [evaluation_vmc observable_value String.eqb]. cbn -[sigma_z mean_rows batch_mean Nat.div Nat.sub].
          rewrite B, app_nil_r. unfold batch_mean, Rmean, mean_rows. rewrite map_length, Rsum_map. unfold Rdiv. rewrite Rmult_comm. f_equal. apply Rsum_ext.
          intros s Hs. destruct (S 0 i ltac:(lia) Hi) as [_ A]. unfold sigma_z. destruct (spin_configs_spins n s (A s Hs)) as [-> _]. reflexivity.
        * intros k Hk. cbn [seq flat_map]. rewrite app_nil_r. apply S; lia.
      + unfold all_rows. rewrite <- (mean_of_means _ mini); auto.
        * apply average_ext. intros i Hi. rewrite EV. cbn [evaluation_vmc observable_value String.eqb]. cbn -[abs_sigma_z mean_rows batch_mean Nat.div Nat.sub].
          rewrite B, app_nil_r. unfold batch_mean, Rmean, mean_rows. rewrite map_length, Rsum_map. unfold Rdiv. rewrite Rmult_comm. f_equal. apply Rsum_ext.
          intros s Hs. destruct (S 0 i ltac:(lia) Hi) as [_ A]. unfold abs_sigma_z. destruct (spin_configs_spins n s (A s Hs)) as [-> _]. now rewrite abs_IZR.
        * intros k Hk. cbn [seq flat_map]. rewrite app_nil_r. apply S; lia.
  Qed.
End Report.
