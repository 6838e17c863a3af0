(** Lemmas about whole runs of stochastic gradient descent. *)
From Coq Require Import List ZArith Reals Lra Lia Bool Arith.
From Verif Require Import Base Cplx Vec IsingModel OrderingModel OrderingSpec TensorModel AutoregressiveModel AutoregressiveSpec MachinesModel MachinesSpec
  GraphModel GraphSpec FastMachineModel FastMachineSpec ObservableModel ObservableSpec ExactModel ExactSpec
  TrainingModel TrainingSpec TrainingProofs MonteCarloModel MonteCarloSpec MonteCarloProofs MonteCarloSamplerProofs PipelineModel PipelineSpec PipelineProofs
  ExactTrainingSpec ExactTrainingProofs DescentModel DescentSpec DescentProofs.
Import ListNotations.
Local Open Scope R_scope.

Lemma all_paths_in n B : forall k bs, In bs (all_paths n B k) <-> (length bs = k /\ forall b, In b bs -> In b (all_batches n B)).
Proof.
  induction k as [|k IH]; intros bs; cbn [all_paths].
  - split; [intros [<-|[]]; split; [reflexivity|intros b []]|]. intros [L _]. destruct bs; [now left|discriminate].
  - rewrite in_flat_map. split.
    + intros (b & Hb & Hm). apply in_map_iff in Hm. destruct Hm as (t & <- & Ht). apply IH in Ht. destruct Ht as [L A]. split; [cbn; now rewrite L|].
      intros c [<-|Hc]; [exact Hb|now apply A].
    + intros [L A]. destruct bs as [|b t]; [discriminate|]. exists b. split; [apply A; now left|]. apply in_map. apply IH. split; [now injection L|]. intros c Hc. apply A. now right.
Qed.

Section Paths.
  Context (n d : nat) (H : list Z -> list Z -> C) (lp : list R -> list Z -> C) (sg : list R -> list Z * C -> list R) (a : R) (B : nat).
  Local Notation step := (descend n d H lp sg a).
  Local Notation go := (after n d H lp sg a).
  Local Notation prob := (path_probability n d H lp sg a).
  Local Notation mean := (average_after n d H lp sg a B).
  Local Notation avg w := (average_over (independent n (lp w)) n B).

  Lemma mean_0 w f : mean 0 w f = f w.
  Proof. unfold average_after. cbn [all_paths]. rewrite Rsum_cons, Rsum_nil. cbn [path_probability after fold_left]. unfold after. cbn [fold_left]. ring. Qed.
  Lemma mean_S k w f : mean (S k) w f = avg w (fun b => mean k (step w b) f).
  Proof.
    unfold average_after, average_over. cbn [all_paths]. rewrite Rsum_flat_map. apply Rsum_ext. intros b _. rewrite Rsum_map, <- Rsum_scal. apply Rsum_ext. intros bs _.
    cbn [path_probability]. unfold after. cbn [fold_left]. ring.
  Qed.
  Lemma mean_last k : forall w f, mean (S k) w f = mean k w (fun v => avg v (fun b => f (step v b))).
  Proof.
    induction k as [|k IH]; intros w f.
    - rewrite mean_S, mean_0. apply avg_ext. intros b _. apply mean_0.
    - rewrite mean_S, (mean_S k w). apply avg_ext. intros b _. apply IH.
  Qed.
  Context (HL : forall w x, length (sg w x) = d).
  Lemma step_length w b : length w = d -> length (step w b) = d.
  Proof. intros L. unfold descend. rewrite vadd_length; [exact L|]. now rewrite vscale_length, batch_gradient_length. Qed.
  Lemma go_length bs : forall w, length w = d -> length (go w bs) = d.
  Proof. induction bs as [|b bs IH]; intros w L; [exact L|]. unfold after. cbn [fold_left]. apply IH. now apply step_length. Qed.
  Lemma mean_le k : forall w f g, length w = d -> (forall v, length v = d -> f v <= g v) -> mean k w f <= mean k w g.
  Proof.
    induction k as [|k IH]; intros w f g L E; [rewrite !mean_0; now apply E|]. rewrite !mean_S. apply avg_le. intros b _. apply IH; [now apply step_length|exact E].
  Qed.
  Lemma mean_plus k : forall w f g, mean k w (fun v => f v + g v) = mean k w f + mean k w g.
  Proof. induction k as [|k IH]; intros w f g; [now rewrite !mean_0|]. rewrite !mean_S, <- avg_plus. apply avg_ext. intros b _. apply IH. Qed.
  Lemma mean_scal k : forall w c f, mean k w (fun v => c * f v) = c * mean k w f.
  Proof. induction k as [|k IH]; intros w c f; [now rewrite !mean_0|]. rewrite !mean_S, <- avg_scal. apply avg_ext. intros b _. apply IH. Qed.
  Lemma mean_const k : forall w c, mean k w (fun _ => c) = c.
  Proof. induction k as [|k IH]; intros w c; [now rewrite mean_0|]. rewrite mean_S, (avg_ext n (lp w) B _ (fun _ => c)) by (intros; apply IH). apply avg_const. Qed.

  Lemma prob_total w k : Rsum (prob w) (all_paths n B k) = 1.
  Proof. rewrite <- (mean_const k w 1). unfold average_after. apply Rsum_ext. intros; ring. Qed.
  Lemma prob_nonneg bs : forall w, 0 <= prob w bs.
  Proof.
    induction bs as [|b bs IH]; intros w; cbn [path_probability]; [lra|]. apply Rmult_le_pos; [|apply IH]. unfold independent.
    induction b as [|s b IHb]; [unfold Rprod; simpl; lra|]. rewrite Rprod_cons. apply Rmult_le_pos; [apply ExactSamplerProofs.probability_nonneg|exact IHb].
  Qed.
  Lemma prob_product bs : forall w, prob w bs = Rprod (fun j => independent n (lp (go w (firstn j bs))) (nth j bs [])) (seq 0 (length bs)).
  Proof.
    induction bs as [|b bs IH]; intros w; [reflexivity|]. cbn [path_probability length seq]. rewrite Rprod_cons, <- seq_shift. cbn [firstn nth]. unfold after at 1. cbn [fold_left].
    f_equal. rewrite IH. generalize (seq 0 (length bs)). intros l. induction l as [|j l IHl]; [reflexivity|]. cbn [map]. rewrite !Rprod_cons, IHl. reflexivity.
  Qed.

  (** The sum of the squared gradients along a run. *)
  Lemma telescope op grad L M : (0 < B)%nat -> operator_represents n H op -> hermitian n H -> (forall w, length w = d -> loss_gradient n d lp sg w) ->
    (forall w, length w = d -> energy_gradient_is n d H lp w (grad w)) -> smooth n d H lp grad L ->
    (forall w, length w = d -> L / 2 * (a * a) * avg w (fun b => square_norm d (batch_gradient n d H lp sg w b)) <= M) ->
    forall w K, length w = d ->
    a * ((INR B - 1) / INR B ^ 2) * Rsum (fun k => mean k w (fun v => square_norm d (grad v))) (seq 0 K) <= energy_at n H lp w - mean K w (energy_at n H lp) + INR K * M.
  Proof.
    intros HB HO HH HG DG HS HM w K Lw. set (al := a * ((INR B - 1) / INR B ^ 2)). induction K as [|K IH].
    - cbn [seq INR]. rewrite Rsum_nil, mean_0. lra.
    - rewrite seq_S, Rsum_app, Rsum_cons, Rsum_nil, Rmult_plus_distr_l, Rplus_0_r, S_INR. cbn [Nat.add].
      assert (Q : mean (S K) w (energy_at n H lp) <= mean K w (energy_at n H lp) + (- al * mean K w (fun v => square_norm d (grad v)) + M)).
      { rewrite mean_last, <- mean_scal, <- (mean_const K w M), <- !mean_plus. apply mean_le; [exact Lw|]. intros v Lv.
        pose proof (average_descent n d H lp sg op v grad L a B HB HO HH Lv (HG v Lv) (DG v Lv) HS) as P. specialize (HM v Lv). fold al in P. lra. }
      lra.
  Qed.
End Paths.

(** * The code *)
Lemma finite_choice {A} (x0 : A) (P : nat -> A -> Prop) : forall k, (forall j, (j < k)%nat -> exists x, P j x) -> exists f, forall j, (j < k)%nat -> P j (f j).
Proof.
  induction k as [|k IH]; intros E; [exists (fun _ => x0); intros; lia|]. destruct IH as [f Hf]; [intros; apply E; lia|]. destruct (E k ltac:(lia)) as [x Hx].
  exists (fun j => if (j =? k)%nat then x else f j). intros j Hj. destruct (Nat.eqb_spec j k) as [->|N]; [exact Hx|apply Hf; lia].
Qed.
Lemma sgd_of_weights d lr w : length w = d -> weights (sgd_of d lr) w = w.
Proof.
  intros L. cbn [sgd_of weights]. apply (list_ext_nth 0); [now rewrite map_length, seq_length|]. intros i.
  destruct (Nat.lt_ge_cases i d) as [Hi|Hi]; [|rewrite !nth_overflow; [reflexivity|lia|rewrite map_length, seq_length; lia]].
  rewrite (nth_indep _ 0 (nth d w 0)) by (rewrite map_length, seq_length; lia). rewrite (map_nth (fun i => nth i w 0)), seq_nth by lia. reflexivity.
Qed.

Section Run.
  Context (shape : list nat) (d : nat) (machine : list R -> tensor Z -> res (tensor (list C))) (model : list R -> graph * nat)
    (H : list Z -> list Z -> C) (op : operator) (lr : R) (sum : bool) (B mini : nat) (sg : list R -> list Z * C -> list R) (w0 : list R).
  Context (HS : forall w, samplable (machine w) shape (model w)) (HO : operator_represents (volume shape) H op)
    (HB : (0 < B)%nat) (Hm : (0 < mini)%nat) (HD : (B < mini \/ B mod mini = 0)%nat) (Lw : length w0 = d) (HL : forall w x, length (sg w x) = d).
  Let n := volume shape.
  Let lp := fun w => predictions (conditionals (machine w) shape).
  Let runs := (B / Nat.min mini B)%nat.
  Let a := lr * (if sum then INR runs else 1).
  Local Notation go := (after n d H lp sg a w0).

  Lemma run_path random batches : fresh_rows n random ->
    (forall c w, sample_and_next_batch op (lp w) shape (model w) B (Some mini) random (c * runs) = Ok ((c + 1) * runs, batches c w)%nat) ->
    forall k, exists bs, In bs (all_paths n B k) /\ full_batch_training (sgd_of d lr) d (if sum then INR runs else 1) batches sg w0 k = go bs /\
      forall j, (j < k)%nat -> fast_sampler_next shape (model (go (firstn j bs))) B (Some mini) random (j * runs) = Ok ((j + 1) * runs, nth j bs [])%nat.
  Proof.
    intros F HN. pose proof (eff_divides B mini HB Hm HD) as HDE. assert (Nm : Some mini <> Some 0%nat) by (intros E; injection E; lia).
    induction k as [|k IH]; [exists []; split; [now left|]; split; [reflexivity|lia]|]. destruct IH as (bs & I & E & S).
    apply all_paths_in in I. destruct I as [Lb A].
    destruct (generator_ok (machine (go bs)) shape (model (go bs)) (HS _) B (Some mini) HB Nm H op HO random k (lp (go bs)) HDE F) as (b & Hb & ES & EG).
    change (B / eff B (Some mini))%nat with runs in ES, EG. rewrite HN in EG. injection EG as EG.
    exists (bs ++ [b]). split; [|split].
    - apply all_paths_in. split; [rewrite app_length; cbn; lia|]. intros c Hc. apply in_app_or in Hc. destruct Hc as [Hc|[<-|[]]]; [now apply A|exact Hb].
    - cbn [full_batch_training]. rewrite E, sgd_of_weights by now apply go_length. rewrite EG. unfold after. rewrite fold_left_app. cbn [fold_left sgd_of apply_gradients].
      fold (go bs). unfold descend at 1. f_equal. rewrite vscale_scale. replace (- lr * (if sum then INR runs else 1)) with (- a) by (unfold a; ring). unfold batch_gradient. rewrite map_length, map_map. reflexivity.
    - intros j Hj. destruct (Nat.eq_dec j k) as [->|N].
      + rewrite firstn_app, <- Lb, firstn_all, Nat.sub_diag, firstn_O, app_nil_r, app_nth2, Nat.sub_diag by lia. cbn [nth]. rewrite Lb. exact ES.
      + rewrite firstn_app, (proj2 (Nat.sub_0_le j (length bs))) by lia. rewrite firstn_O, app_nil_r, app_nth1 by lia. apply S. lia.
  Qed.

  Lemma path_law k bs : In bs (all_paths n B k) -> exists box : nat -> nat -> nat -> R * R,
    (forall j r i, (j < k)%nat -> 0 <= fst (box j r i) /\ snd (box j r i) <= 1) /\
    (forall random, fresh_rows n random ->
       ((forall j, (j < k)%nat -> fast_sampler_next shape (model (go (firstn j bs))) B (Some mini) random (j * runs) = Ok ((j + 1) * runs, nth j bs [])%nat) <->
        (forall j r i, (j < k)%nat -> (r < B)%nat -> (i < n)%nat -> AutoregressiveSpec.inside (nth i (nth r (rows_of_batch random runs (Nat.min mini B) j) []) 0) (box j r i)))) /\
    Rprod (fun j => Rprod (fun r => Rprod (fun i => len (box j r i)) (seq 0 n)) (seq 0 B)) (seq 0 k) = path_probability n d H lp sg a w0 bs.
  Proof.
    intros I. apply all_paths_in in I. destruct I as [Lb A]. pose proof (eff_divides B mini HB Hm HD) as HDE. assert (Nm : Some mini <> Some 0%nat) by (intros E; injection E; lia).
    assert (EB : (runs * Nat.min mini B = B)%nat). { pose proof (Nat.div_mod B (Nat.min mini B) ltac:(lia)). unfold runs. lia. }
    assert (X : forall j, (j < k)%nat -> exists x : nat -> nat -> R * R, (forall r i, 0 <= fst (x r i) /\ snd (x r i) <= 1) /\
      (forall random, fresh_rows n random -> (fast_sampler_next shape (model (go (firstn j bs))) B (Some mini) random (j * runs) = Ok ((j + 1) * runs, nth j bs [])%nat <->
         forall r i, (r < B)%nat -> (i < n)%nat -> AutoregressiveSpec.inside (nth i (nth r (rows_of_batch random runs (Nat.min mini B) j) []) 0) (x r i))) /\
      Rprod (fun r => Rprod (fun i => len (x r i)) (seq 0 n)) (seq 0 B) = independent n (lp (go (firstn j bs))) (nth j bs [])).
    { intros j Hj. destruct (sampler_law (machine (go (firstn j bs))) shape (model (go (firstn j bs))) (HS _) B (Some mini) HB Nm) as (box & B1 & B2 & B3).
      change (eff B (Some mini)) with (Nat.min mini B) in B2, B3. fold runs in B2, B3. rewrite EB in B2, B3.
      assert (In (nth j bs []) (all_batches n B)) as Hb by (apply A, nth_In; lia).
      exists (box (nth j bs [])). split; [intros; apply B1|]. split; [|exact (B3 _ Hb)]. intros random F. exact (B2 random j _ F Hb). }
    destruct (finite_choice (fun _ _ => (0, 0)) _ k X) as (box & HX). exists box. split; [|split].
    - intros j r i Hj. now apply (HX j Hj).
    - intros random F. split.
      + intros S j r i Hj Hr Hi. now apply (HX j Hj); [|apply S|..].
      + intros S j Hj. apply (HX j Hj); [exact F|]. intros r i Hr Hi. now apply S.
    - rewrite prob_product, Lb. assert (Q : forall l, (forall j, In j l -> (j < k)%nat) -> Rprod (fun j => Rprod (fun r => Rprod (fun i => len (box j r i)) (seq 0 n)) (seq 0 B)) l =
        Rprod (fun j => independent n (lp (go (firstn j bs))) (nth j bs [])) l).
      { induction l as [|j l IH]; intros Hl; [reflexivity|]. rewrite !Rprod_cons, IH by (intros; apply Hl; now right). f_equal. apply (HX j). apply Hl. now left. }
      apply Q. intros j Hj. apply in_seq in Hj. lia.
  Qed.
End Run.
