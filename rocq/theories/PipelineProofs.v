(** Proofs about training runs. *)
From Coq Require Import List ZArith Reals Lra Lia Bool Arith.
From Verif Require Import Base Cplx Vec IsingModel OrderingModel OrderingSpec OrderingProofs TensorModel AutoregressiveModel AutoregressiveSpec AutoregressiveProofs
  MachinesModel MachinesSpec MachinesProps GraphModel GraphSpec FastMachineModel FastMachineSpec FastMachineEndProofs
  TrainingModel TrainingSpec TrainingProofs ObservableModel ObservableSpec ObservableProofs ExactModel ExactSpec ExactGradientProofs
  MonteCarloModel MonteCarloSpec MonteCarloProofs MonteCarloSamplerProofs PipelineModel PipelineSpec.
Import ListNotations.

(** * The sampler *)
Lemma mapM_ext {A B} (f g : A -> res B) l : (forall a, f a = g a) -> mapM f l = mapM g l.
Proof. intros H. induction l as [|a l IH]; [reflexivity|]. cbn [mapM]. now rewrite H, IH. Qed.

Section Sampler.
  Context (machine : tensor Z -> res (tensor (list C))) (shape : list nat) (model : graph * nat) (HS : samplable machine shape model).
  Let n := volume shape.
  Let net := conditionals machine shape.

  Lemma samplable_rows : forall s i, length (net s i) = 2.
  Proof. destruct HS as (_ & _ & HW & _). intros s i. unfold net, conditionals. destruct (HW s) as (out & -> & _ & L). apply L. Qed.

  Lemma sampling_row_next u : exists s, sampling_row shape model u = Ok s /\ sampler_next shape false (conditional_log_probs net) (raster shape) u = Ok s /\
    In s (spin_configs n).
  Proof.
    destruct HS as (HR & (construct & HG) & HW & HA). destruct model as [S h]. cbn [fst snd] in HG.
    destruct (graph_site_by_site construct machine shape S h u HG HR HA) as (s & EN & x & EF & HX).
    assert (HA' := HA). rewrite <- raster_seq in HA'.
    destruct (sampler_total shape (raster shape) net u HR (raster_ordering shape) HA') as (s1 & E1 & I1).
    unfold net in E1. rewrite EN in E1. injection E1 as <-. exists s. split; [|split; [exact EN|exact I1]].
    unfold sampling_row. cbn [fst]. rewrite EF. cbn [bind]. f_equal. unfold extract_the_sample.
    rewrite (map_ext_in _ (fun l => nth (row_major shape l) s 0%Z)).
    - rewrite <- (map_map (row_major shape) (fun i => nth i s 0%Z)), raster_row_major.
      rewrite <- (spin_configs_length _ _ I1). apply map_nth_range.
    - intros l Hl. rewrite HX by (now apply in_raster). reflexivity.
  Qed.

  Lemma sampling_rows us : mapM (sampling_row shape model) us = autoregressive_batch shape false (conditional_log_probs net) (raster shape) us.
  Proof. apply mapM_ext. intros u. destruct (sampling_row_next u) as (s & -> & -> & _). reflexivity. Qed.

  Lemma sampling_rows_ok us : exists b, mapM (sampling_row shape model) us = Ok b /\ In b (all_batches n (length us)).
  Proof.
    induction us as [|u us IH]; cbn [mapM].
    - exists []. split; [reflexivity|]. now left.
    - destruct IH as (b & -> & Hb). destruct (sampling_row_next u) as (s & -> & _ & Hs). cbn [bind]. exists (s :: b). split; [reflexivity|].
      apply all_batches_in in Hb. destruct Hb as [L A]. apply all_batches_in. split; [cbn; lia|]. intros t [<-|Ht]; auto.
  Qed.
End Sampler.

(** * Sizes *)
Definition eff (B : nat) (mini : option nat) : nat := match mini with None => B | Some m => Nat.min m B end.
Lemma sampler_sizes_eff B mini : sampler_sizes B mini = (B, eff B mini).
Proof.
  unfold sampler_sizes, eff. destruct mini as [m|]; [|now rewrite Nat.ltb_irrefl]. destruct (Nat.ltb_spec B m); f_equal; lia.
Qed.
Lemma eff_range B mini : 0 < B -> mini <> Some 0 -> 0 < eff B mini <= B.
Proof. intros H1 H2. unfold eff. destruct mini as [[|m]|]; try congruence; lia. Qed.

Lemma fast_next_rows (random : nat -> nat -> list (list R)) B m c : 0 < m <= B ->
  fast_next random B m (c * (B / m)) = Ok ((c + 1) * (B / m), rows_of_batch random (B / m) m c).
Proof.
  intros Hm. unfold fast_next, rows_of_batch. destruct (Nat.ltb_spec m B) as [L|L].
  - destruct (Nat.eqb_spec m 0); [lia|]. f_equal. apply f_equal2; [lia|reflexivity].
  - assert (m = B) by lia. subst m. rewrite Nat.div_same by lia. cbn [seq map concat]. rewrite app_nil_r. f_equal. apply f_equal2; [lia|]. apply f_equal2; [lia|reflexivity].
Qed.

Lemma rows_of_batch_length n random runs m c : fresh_rows n random -> length (rows_of_batch random runs m c) = runs * m.
Proof.
  intros F. unfold rows_of_batch. rewrite (concat_length_const _ m). { now rewrite map_length, seq_length. }
  intros x Hx. apply in_map_iff in Hx. destruct Hx as (i & <- & _). apply F.
Qed.
Lemma rows_of_batch_uniform n random runs m c : fresh_rows n random -> uniform_rows n (rows_of_batch random runs m c).
Proof.
  intros F u Hu. unfold rows_of_batch in Hu. apply in_concat in Hu. destruct Hu as (l & Hl & Hu). apply in_map_iff in Hl.
  destruct Hl as (i & <- & _). now apply (proj2 (F (c * runs + i) m)).
Qed.

Section Batches.
  Context (machine : tensor Z -> res (tensor (list C))) (shape : list nat) (model : graph * nat) (HS : samplable machine shape model).
  Let n := volume shape.
  Let log_psi := predictions (conditionals machine shape).
  Context (B : nat) (mini : option nat) (HB : 0 < B) (Hm : mini <> Some 0).
  Let m := eff B mini.
  Let runs := B / m.

  Lemma fast_sampler_rows random c : fast_sampler_next shape model B mini random (c * runs) =
    (do rows <- mapM (sampling_row shape model) (rows_of_batch random runs m c); Ok ((c + 1) * runs, rows)).
  Proof. unfold fast_sampler_next. rewrite sampler_sizes_eff, fast_next_rows by now apply eff_range. reflexivity. Qed.

  Lemma sampler_law : exists box : list (list Z) -> nat -> nat -> R * R,
    (forall b k i, 0 <= fst (box b k i) /\ snd (box b k i) <= 1)%R /\
    (forall random c b, fresh_rows n random -> In b (all_batches n (runs * m)) ->
       (fast_sampler_next shape model B mini random (c * runs) = Ok ((c + 1) * runs, b) <->
        forall k i, k < runs * m -> i < n -> inside (nth i (nth k (rows_of_batch random runs m c) []) 0%R) (box b k i))) /\
    (forall b, In b (all_batches n (runs * m)) ->
       Rprod (fun k => Rprod (fun i => len (box b k i)) (seq 0 n)) (seq 0 (runs * m)) = independent n log_psi b).
  Proof.
    destruct HS as (HR & _ & _ & HA). rewrite <- raster_seq in HA.
    destruct (autoregressive_batches shape (raster shape) (conditionals machine shape) (runs * m) HR (raster_ordering shape) HA
      (samplable_rows machine shape model HS)) as (box & B1 & B2 & B3).
    exists box. split; [exact B1|]. split; [|exact B3]. intros random c b F Hb. rewrite fast_sampler_rows.
    rewrite (sampling_rows machine shape model HS).
    specialize (B2 (rows_of_batch random runs m c) b (rows_of_batch_length n random runs m c F) (rows_of_batch_uniform n random runs m c F) Hb).
    etransitivity; [|exact B2]. destruct (autoregressive_batch _ _ _ _ _) as [r|e]; cbn [bind]; split; intros E; congruence.
  Qed.

  Context (H : list Z -> list Z -> C) (op : operator) (HO : operator_represents n H op).

  (** The targets of a batch. *)
  Definition target_of (lp : list Z -> C) (b : list (list Z)) (s : list Z) : C :=
    Cscale (/ INR (length b)) (Cconj (local_energy n H lp s - Cscale (/ INR (length b)) (Csum (local_energy n H lp) b))%C).

  Lemma generator_ok random c lp : B mod m = 0 -> fresh_rows n random ->
    exists b, In b (all_batches n B) /\ fast_sampler_next shape model B mini random (c * runs) = Ok ((c + 1) * runs, b) /\
      sample_and_next_batch op lp shape model B mini random (c * runs) = Ok ((c + 1) * runs, map (fun s => (s, target_of lp b s)) b).
  Proof.
    intros HD F. destruct (sampling_rows_ok machine shape model HS (rows_of_batch random runs m c)) as (b & Eb & Hb).
    rewrite (rows_of_batch_length n) in Hb by exact F.
    assert (EB : runs * m = B). { pose proof (eff_range B mini HB Hm) as R. fold m in R. pose proof (Nat.div_mod B m ltac:(lia)). unfold runs. lia. }
    rewrite EB in Hb. exists b. split; [exact Hb|]. unfold sample_and_next_batch. rewrite fast_sampler_rows, Eb. cbn [bind fst snd]. split; [reflexivity|].
    apply all_batches_in in Hb. destruct Hb as [L A].
    rewrite (next_batch_ok n H op lp b HO (nonempty_batch b B HB L) A). cbn [bind batch_of_step targets_of_step]. f_equal. f_equal.
    fold (target_of lp b). unfold spec_energy. change (fun s => Cscale (/ INR (length b)) (Cconj (local_energy n H lp s - Cscale (/ INR (length b)) (Csum (local_energy n H lp) b))%C))
      with (target_of lp b). clear. generalize (target_of lp b). intros f. induction b as [|s b IH]; [reflexivity|]. cbn [map combine]. now rewrite IH.
  Qed.
End Batches.

(** * The gradient *)
Local Open Scope R_scope.
Lemma half_derivative f x l : derivable_pt_lim (fun v => 2 * f v) x l -> derivable_pt_lim f x (l / 2).
Proof.
  intros D. apply (limit_ext (fun v => / 2 * (2 * f v))); [intros; field|].
  apply (limit_value _ _ (/ 2 * l)); [field|]. exact (derivable_pt_lim_scal _ (/ 2) x _ D).
Qed.

Lemma loss_gradient_derive n d log_psi sg w i s : loss_gradient n d log_psi sg w -> (i < d)%nat -> In s (spin_configs n) ->
  Cderive (fun v => log_psi (upd w i v) s) (nth i w 0) (nth i (sg w (s, C1)) 0 / 2, nth i (sg w (s, (0, -1))) 0 / 2).
Proof.
  intros (_ & D) Hi Hs. split; cbn [Re Im fst snd]; apply half_derivative.
  - apply (limit_ext (fun v => 2 * Re (log_psi (upd w i v) s * C1)%C)); [|apply D; assumption].
    intros v. unfold Cmult, C1, Re. cbn [fst snd]. ring.
  - apply (limit_ext (fun v => 2 * Re (Cmult (log_psi (upd w i v) s) (0, -1)))); [|apply D; assumption].
    intros v. unfold Cmult, Re, Im. cbn [fst snd]. ring.
Qed.

Lemma loss_gradient_value n d log_psi sg w i s t : loss_gradient n d log_psi sg w -> (i < d)%nat -> In s (spin_configs n) ->
  nth i (sg w (s, t)) 0 = 2 * Re (Cmult t (nth i (sg w (s, C1)) 0 / 2, nth i (sg w (s, (0, -1))) 0 / 2)).
Proof.
  intros HG Hi Hs. pose proof (loss_gradient_derive n d log_psi sg w i s HG Hi Hs) as D. destruct HG as (_ & G).
  eapply uniqueness_limite; [apply (G i s t Hi Hs)|].
  apply (limit_ext (fun v => 2 * Re (t * log_psi (upd w i v) s)%C)). { intros v. unfold Cmult, Re. cbn [fst snd]. ring. }
  apply (derivable_pt_lim_scal (fun v => Re (t * log_psi (upd w i v) s)%C) 2). exact (proj1 (Cderive_scal t _ _ _ D)).
Qed.

Lemma upd_same_value {A} (l : list A) i d : upd l i (nth i l d) = l.
Proof. revert i. induction l as [|a l IH]; intros [|i]; try reflexivity. cbn [upd nth]. now rewrite IH. Qed.

Lemma mean_gradient_average n d H op log_psi sg w i B : (0 < B)%nat -> operator_represents n H op -> hermitian n H ->
  loss_gradient n d log_psi sg w -> (i < d)%nat ->
  exists G, derivable_pt_lim (fun v => Re (expectation n H (log_psi (upd w i v)))) (nth i w 0) G /\
    average_over (independent n (log_psi w)) n B
      (fun b => nth i (mean_gradient d sg w (map (fun s => (s, Cscale (/ INR (length b)) (Cconj (local_energy n H (log_psi w) s -
         Cscale (/ INR (length b)) (Csum (local_energy n H (log_psi w)) b))%C))) b)) 0) = (INR B - 1) / INR B ^ 2 * G.
Proof.
  intros HB HO HH HG Hi. assert (NZ : INR B <> 0) by (apply not_0_INR; lia).
  set (ds := fun s => (nth i (sg w (s, C1)) 0 / 2, nth i (sg w (s, (0, -1))) 0 / 2)).
  assert (HD : forall s, In s (spin_configs n) -> Cderive (fun v => log_psi (upd w i v) s) (nth i w 0) (ds s)).
  { intros s Hs. exact (loss_gradient_derive n d log_psi sg w i s HG Hi Hs). }
  pose proof (energy_gradient n H (fun v => log_psi (upd w i v)) ds (nth i w 0) HH HD) as DE. cbv beta in DE. rewrite upd_same_value in DE.
  eexists. split; [exact DE|].
  rewrite (avg_ext n (log_psi w) B _ (fun b => / INR B / INR B * covariance_sum n H (log_psi w) ds b)).
  - rewrite avg_scal, covariance_average by assumption. field. assumption.
  - intros b Hb. apply all_batches_in in Hb. destruct Hb as [L A]. unfold mean_gradient. rewrite nth_vscale, nth_vsum.
    2: { intros v Hv. apply in_map_iff in Hv. destruct Hv as (x & <- & _). apply HG. }
    rewrite map_length, L, !Rsum_map. unfold covariance_sum, Rdiv. rewrite Rmult_assoc. apply f_equal2; [reflexivity|]. rewrite <- Rsum_scal. apply Rsum_ext. intros s Hs.
    rewrite (loss_gradient_value n d log_psi sg w i s _ HG Hi (A s Hs)). fold (ds s). unfold spec_energy. rewrite L.
    unfold Cmult, Cscale, Re. cbn [fst snd]. ring.
Qed.

(** * Whole runs *)
Lemma eff_divides B mini : (0 < B)%nat -> (0 < mini)%nat -> (B < mini \/ B mod mini = 0)%nat -> (B mod Nat.min mini B = 0)%nat.
Proof.
  intros HB Hm [L|D].
  - rewrite Nat.min_r by lia. apply Nat.mod_same. lia.
  - assert (mini <= B)%nat. { destruct (Nat.le_gt_cases mini B); [assumption|]. rewrite Nat.mod_small in D by lia. lia. }
    now rewrite Nat.min_l by lia.
Qed.

Lemma set_batch_size_min {X} (G : generator X) B mini : TrainingModel.set_batch_size G B (Some mini) = TrainingModel.set_batch_size G B (Some (Nat.min mini B)).
Proof.
  unfold TrainingModel.set_batch_size. destruct (Nat.ltb_spec B mini) as [L|L].
  - rewrite Nat.min_r, Nat.ltb_irrefl by lia. reflexivity.
  - rewrite Nat.min_l by lia. destruct (Nat.ltb_spec B mini); [lia|reflexivity].
Qed.

Lemma training_end_to_end (shape : list nat) (d : nat) (machine : list R -> tensor Z -> res (tensor (list C))) (model : list R -> graph * nat)
    (H : list Z -> list Z -> C) (op : operator) (St : Type) (O : optimizer St) (sum : bool) (B mini : nat)
    (sample_gradient : list R -> list Z * C -> list R) (s0 : St) (random : nat -> nat -> list (list R)) :
  (forall w, samplable (machine w) shape (model w)) -> operator_represents (volume shape) H op ->
  (0 < B)%nat -> (0 < mini)%nat -> (B < mini \/ B mod mini = 0)%nat -> fresh_rows (volume shape) random ->
  (forall s, length (TrainingModel.weights O s) = d) -> (forall w x, length (sample_gradient w x) = d) ->
  exists runs batches,
    (forall c w, sample_and_next_batch op (predictions (conditionals (machine w) shape)) shape (model w) B (Some mini) random (c * runs)%nat =
       Ok ((c + 1) * runs, batches c w)%nat) /\
    forall k, exists G A Gn An, new_generator B (Some mini) = Ok G /\ convert_to_accumulate O s0 (gen_freq G) = Ok A /\
      fit O sum d batches sample_gradient G A (k * gen_freq G) = Ok (Gn, An) /\ gen_freq G = runs /\
      inner An = full_batch_training O d (if sum then INR runs else 1%R) batches sample_gradient s0 k.
Proof.
  intros HS HO HB Hm HD F HW HG. pose proof (eff_divides B mini HB Hm HD) as HDE. set (m := Nat.min mini B) in *. set (runs := (B / m)%nat).
  assert (Nm : Some mini <> Some 0%nat) by (intros E; injection E; lia).
  assert (Rm : (0 < m <= B)%nat) by (unfold m; lia).
  set (next := fun c w => sample_and_next_batch op (predictions (conditionals (machine w) shape)) shape (model w) B (Some mini) random (c * runs)).
  set (batches := fun c w => match next c w with Ok r => snd r | Err _ => [] end).
  assert (HN : forall c w, next c w = Ok ((c + 1) * runs, batches c w)%nat /\ length (batches c w) = B).
  { intros c w. destruct (generator_ok (machine w) shape (model w) (HS w) B (Some mini) HB Nm H op HO random c (predictions (conditionals (machine w) shape)) HDE F)
      as (b & Hb & _ & EG). change (next c w = Ok (((c + 1) * runs)%nat, map (fun s => (s, target_of shape H (predictions (conditionals (machine w) shape)) b s)) b)) in EG.
    unfold batches. rewrite EG. cbn [snd]. split; [reflexivity|]. rewrite map_length. apply all_batches_in in Hb. apply Hb. }
  exists runs, batches. split; [intros c w; apply HN|]. intros k.
  destruct (fit_full O d B m sum batches sample_gradient s0 (proj1 Rm) HB HDE (fun c w => proj2 (HN c w)) HW HG empty_generator k eq_refl (proj2 Rm))
    as (G & A & Gn & An & E1 & E2 & E3 & E4).
  assert (EF : gen_freq G = runs).
  { destruct (new_generator_ok (X := list Z * C) empty_generator B (Some m) HB ltac:(intros E; injection E; lia)) as (G' & EG' & G1 & G2 & G3 & G4 & _).
    rewrite E1 in EG'. injection EG' as <-.
    assert (EM : gen_mini G = m). { unfold TrainingModel.set_batch_size in E1. destruct (Nat.ltb_spec B m); [lia|]. destruct (Nat.eqb_spec m 0); [lia|]. injection E1 as <-. reflexivity. }
    rewrite G4, EM, ceil_div_spec by lia. rewrite HDE. unfold runs. reflexivity. }
  exists G, A, Gn, An. split. { unfold new_generator. rewrite set_batch_size_min. exact E1. }
  split; [exact E2|]. split; [exact E3|]. split; [exact EF|]. rewrite E4, EF. reflexivity.
Qed.

Lemma update_end_to_end (shape : list nat) (d : nat) (machine : list R -> tensor Z -> res (tensor (list C))) (model : list R -> graph * nat)
    (H : list Z -> list Z -> C) (op : operator) (B mini : nat) (sample_gradient : list R -> list Z * C -> list R) (w : list R) :
  samplable (machine w) shape (model w) -> operator_represents (volume shape) H op -> hermitian (volume shape) H ->
  (0 < B)%nat -> (0 < mini)%nat -> (B < mini \/ B mod mini = 0)%nat ->
  let n := volume shape in
  let log_psi := fun w => predictions (conditionals (machine w) shape) in
  let runs := (B / Nat.min mini B)%nat in
  loss_gradient n d log_psi sample_gradient w ->
  exists update : list (list Z) -> list R,
    (forall random c, fresh_rows n random -> exists b pairs, In b (all_batches n B) /\
       fast_sampler_next shape (model w) B (Some mini) random (c * runs) = Ok ((c + 1) * runs, b)%nat /\
       sample_and_next_batch op (log_psi w) shape (model w) B (Some mini) random (c * runs) = Ok ((c + 1) * runs, pairs)%nat /\
       mean_gradient d sample_gradient w pairs = update b) /\
    forall i, (i < d)%nat -> exists G, derivable_pt_lim (fun v => Re (expectation n H (log_psi (upd w i v)))) (nth i w 0%R) G /\
      average_over (independent n (log_psi w)) n B (fun b => nth i (update b) 0%R) = ((INR B - 1) / INR B ^ 2 * G)%R.
Proof.
  intros HS HO HH HB Hm HD n log_psi runs HG. pose proof (eff_divides B mini HB Hm HD) as HDE.
  assert (Nm : Some mini <> Some 0%nat) by (intros E; injection E; lia).
  exists (fun b => mean_gradient d sample_gradient w (map (fun s => (s, target_of shape H (log_psi w) b s)) b)). split.
  - intros random c F. destruct (generator_ok (machine w) shape (model w) HS B (Some mini) HB Nm H op HO random c (log_psi w) HDE F) as (b & Hb & ES & EG).
    exists b. eexists. split; [exact Hb|]. split; [exact ES|]. split; [exact EG|]. reflexivity.
  - intros i Hi. exact (mean_gradient_average n d H op log_psi sample_gradient w i B HB HO HH HG Hi).
Qed.
