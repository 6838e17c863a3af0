(** C74: what the TensorBoard callback feeds, writes and raises. *)
From Coq Require Import String List ZArith Lia Arith Bool Ascii.
From Verif Require Import Base OrderingModel OrderingSpec TensorModel CheckpointModel TensorboardModel TensorboardSpec TensorboardProofs.
Import ListNotations.
Local Open Scope nat_scope.

Definition example_options : options := {| histogram_freq := 2; write_grads := false; write_images := true; write_output := true |}.
(** The weights of a dense layer (3 inputs, 2 units) and of a convolution (kernel 2 x 1, 2 channels, 3 filters). *)
Definition example_kernel : weight := {| weight_name := "dense/kernel:0"; weight_shape := [3; 2]; weight_trainable := true |}.
Definition example_bias : weight := {| weight_name := "dense/bias:0"; weight_shape := [2]; weight_trainable := true |}.
Definition example_filters : weight := {| weight_name := "conv/kernel:0"; weight_shape := [2; 1; 2; 3]; weight_trainable := true |}.
Definition example_layers : list layer :=
  [ {| layer_name := "dense"; layer_weights := [example_kernel; example_bias]; layer_output := OneOutput false |};
    {| layer_name := "conv"; layer_weights := [example_filters]; layer_output := OneOutput true |};
    {| layer_name := "pair"; layer_weights := []; layer_output := ManyOutputs [true; false] |} ].

(** Every [histogram_freq] epochs all validation samples are fed exactly once, in order and in batches of at most
    [batch_size]; one event per batch, numbered with the epoch. *)
Theorem C74_validation_batches : forall (V : Type) (fuel : nat) (o : options) (tensors batch_size epoch n : nat) (data : list (entry V)),
  histogram_freq o <> 0 -> epoch mod histogram_freq o = 0 -> data <> [] -> length data = tensors -> 0 < batch_size -> n < fuel -> 0 < n ->
  Forall (fun e => exists l, e = Rows l /\ length l = n) data ->
  exists bs, write_histograms fuel o true false tensors batch_size epoch (Some data) false = Some (Ok (map (fun b => Summaries b epoch) bs)) /\
    length bs = batches_needed n batch_size /\
    Forall (fun b => length b = length data /\ exists m, 0 < m <= batch_size /\ Forall (fun e => exists l, e = Rows l /\ length l = m) b) bs /\
    forall k e, nth_error data k = Some e -> concat (map (fun b => rows_of (nth k b e)) bs) = rows_of e.
Proof.
  intros V fuel o tensors b epoch n data H E D T B F N R. exists (map (batch_number data b 0) (range (batches_needed n b))).
  unfold write_histograms. destruct data as [|e0 data]; [contradiction|]. destruct (Nat.eqb_spec (histogram_freq o) 0); [contradiction|].
  rewrite E, T. cbn [negb andb Nat.eqb]. rewrite Nat.eqb_refl. cbn [negb].
  assert (VS : val_size (e0 :: data) = Ok n). { inversion R as [|? ? [l [-> L]] _]; subst. reflexivity. }
  rewrite VS, (feed_loop_rows b n) by (auto; lia). rewrite Nat.sub_0_r. split; [|split; [|split]].
  - rewrite (needed_step n b) by lia. rewrite range_S. cbn [map]. reflexivity.
  - rewrite map_length. unfold range. now rewrite seq_length.
  - apply Forall_forall. intros x Hx. apply in_map_iff in Hx. destruct Hx as [k [<- Hk]]. apply in_seq in Hk. unfold batch_number. rewrite map_length.
    split; [first [exact T|reflexivity]|]. assert (K : k * b < n).
    { unfold batches_needed in Hk. destruct Hk as [_ Hk]. cbn [Nat.add] in Hk.
      assert (b * ((n + b - 1) / b) <= n + b - 1) by (apply Nat.mul_div_le; lia). nia. }
    exists (Nat.min b (n - k * b)). split; [lia|]. apply Forall_forall. intros y Hy. apply in_map_iff in Hy. destruct Hy as [e [<- He]].
    rewrite Forall_forall in R. destruct (R e He) as [l [-> L]]. eexists. split; [reflexivity|]. cbn [rows_of Nat.add]. rewrite firstn_length, skipn_length, L. reflexivity.
  - intros k e Hk. rewrite map_map. unfold batch_number.
    rewrite (map_ext _ (fun i => firstn b (skipn (0 + i * b) (rows_of e)))).
    + assert (L : length (rows_of e) - 0 = n). { rewrite Forall_forall in R. destruct (R e (nth_error_In _ _ Hk)) as [l [-> L]]. cbn [rows_of]. lia. }
      rewrite <- L at 1. rewrite cover by exact B. reflexivity.
    + intros i. rewrite (nth_indep _ e (Rows (firstn b (skipn (0 + i * b) (rows_of e))))) by (rewrite map_length; apply nth_error_Some; congruence).
      rewrite (map_nth (fun e => Rows (firstn b (skipn (0 + i * b) (rows_of e))))). now rewrite (nth_error_nth _ _ e Hk).
Qed.
Print Assumptions C74_validation_batches.
Example C74_validation_batches_ex : write_histograms 10 example_options true false 2 2 4 (Some [Rows [1; 2; 3]; Rows [7; 8; 9]]) false =
  Some (Ok [Summaries [Rows [1; 2]; Rows [7; 8]] 4; Summaries [Rows [3]; Rows [9]] 4]).
Proof. reflexivity. Qed.

(** A model with a learning phase: the last entry is handed over unchanged with every batch, the others as above. *)
Theorem C74_learning_phase : forall (V : Type) (fuel : nat) (o : options) (tensors batch_size epoch n : nat) (data : list (entry V)) (phase : entry V),
  histogram_freq o <> 0 -> epoch mod histogram_freq o = 0 -> data <> [] -> length data = tensors -> 0 < batch_size -> n < fuel -> 0 < n ->
  Forall (fun e => exists l, e = Rows l /\ length l = n) data ->
  exists bs, write_histograms fuel o true false tensors batch_size epoch (Some data) false = Some (Ok (map (fun b => Summaries b epoch) bs)) /\
    write_histograms fuel o true true tensors batch_size epoch (Some (data ++ [phase])) false = Some (Ok (map (fun b => Summaries (b ++ [phase]) epoch) bs)) /\
    write_histograms fuel o true true tensors batch_size epoch (Some data) false = Some (Err AssertionError).
Proof.
  intros V fuel o tensors b epoch n data phase H E D T B F N R. exists (map (batch_number data b 0) (range (batches_needed n b))).
  assert (VS : val_size data = Ok n). { inversion R as [|? ? [l [-> L]] _]; subst; [contradiction|]. reflexivity. }
  assert (VP : val_size (data ++ [phase]) = Ok n). { destruct data; [contradiction|]. exact VS. }
  pose proof (feed_loop_phase b n data phase B R fuel 0 ltac:(lia)) as FP.
  unfold write_histograms. destruct (Nat.eqb_spec (histogram_freq o) 0); [contradiction|].
  rewrite E. rewrite VS, VP, (feed_loop_rows b n), FP by (auto; lia). rewrite Nat.sub_0_r, app_length. cbn [length]. rewrite T.
  rewrite (needed_step n b) by lia. rewrite range_S.
  destruct data as [|e0 data]; [contradiction|]. cbn [app negb andb Nat.eqb]. rewrite !Nat.eqb_refl. cbn [negb map].
  split; [reflexivity|]. split; [|destruct (Nat.eqb_spec tensors (tensors + 1)); [lia|reflexivity]]. rewrite !map_map. reflexivity.
Qed.
Print Assumptions C74_learning_phase.
Example C74_learning_phase_ex : write_histograms 10 example_options true true 1 2 0 (Some [Rows [1; 2; 3]; Number 0]) false =
  Some (Ok [Summaries [Rows [1; 2]; Number 0] 0; Summaries [Rows [3]; Number 0] 0]).
Proof. reflexivity. Qed.

(** With batch_size = 0 the loop never ends. *)
Theorem C74_zero_batch_size : forall (V : Type) (fuel : nat) (o : options) (tensors epoch n : nat) (data : list (entry V)),
  histogram_freq o <> 0 -> epoch mod histogram_freq o = 0 -> data <> [] -> length data = tensors -> 0 < n ->
  Forall (fun e => exists l, e = Rows l /\ length l = n) data -> write_histograms fuel o true false tensors 0 epoch (Some data) false = None.
Proof.
  intros V fuel o tensors epoch n data H E D T N R. unfold write_histograms. destruct (Nat.eqb_spec (histogram_freq o) 0); [contradiction|].
  assert (VS : val_size data = Ok n). { inversion R as [|? ? [l [-> L]] _]; subst; [contradiction|]. reflexivity. }
  rewrite E, T, VS, (feed_loop_stuck n) by auto. destruct data as [|e0 data]; [contradiction|]. cbn [negb andb Nat.eqb]. rewrite Nat.eqb_refl. reflexivity.
Qed.
Print Assumptions C74_zero_batch_size.
Example C74_zero_batch_size_ex : write_histograms 100 example_options true false 1 0 2 (Some [Rows [1; 2; 3]]) false = None. Proof. reflexivity. Qed.

(** Histograms without validation data and embeddings without data are ValueErrors in every epoch;
    epochs that are not due write nothing. *)
Theorem C74_missing_data : forall (V : Type) (fuel : nat) (o : options) (m p : bool) (tensors batch_size epoch : nat) (data : list (entry V)),
  histogram_freq o <> 0 ->
  (forall e, write_histograms fuel o m p tensors batch_size epoch (None : option (list (entry V))) e = Some (Err ValueError)) /\
  (forall e, write_histograms fuel o m p tensors batch_size epoch (Some ([] : list (entry V))) e = Some (Err ValueError)) /\
  write_histograms fuel o m p tensors batch_size epoch (Some data) true = Some (Err ValueError) /\
  (data <> [] -> epoch mod histogram_freq o <> 0 -> write_histograms fuel o m p tensors batch_size epoch (Some data) false = Some (Ok [])).
Proof.
  intros V fuel o m p tensors b epoch data H. unfold write_histograms. destruct (Nat.eqb_spec (histogram_freq o) 0); [contradiction|].
  split; [reflexivity|]. split; [reflexivity|]. split; [destruct data; reflexivity|]. intros D E. destruct data; [contradiction|]. cbn [negb andb].
  destruct (Nat.eqb_spec (epoch mod histogram_freq o) 0); [contradiction|reflexivity].
Qed.
Print Assumptions C74_missing_data.
Example C74_missing_data_ex : write_histograms 9 example_options true false 1 2 3 (None : option (list (entry nat))) false = Some (Err ValueError)
  /\ write_histograms 9 example_options true false 1 2 3 (Some [Rows [5]]) false = Some (Ok []).
Proof. split; reflexivity. Qed.

(** histogram_freq = 0: no validation data are needed, whatever they are nothing is fed. *)
Theorem C74_no_histograms : forall (V : Type) (fuel : nat) (o : options) (m p : bool) (tensors batch_size epoch : nat) (data : option (list (entry V))),
  histogram_freq o = 0 -> write_histograms fuel o m p tensors batch_size epoch data false = Some (Ok []).
Proof.
  intros V fuel o m p tensors b epoch data H. unfold write_histograms. rewrite H. cbn [Nat.eqb negb andb]. rewrite andb_false_r.
  destruct data as [[|e d]|]; reflexivity.
Qed.
Print Assumptions C74_no_histograms.
Example C74_no_histograms_ex : histogram_freq {| histogram_freq := 0; write_grads := true; write_images := true; write_output := true |} = 0. Proof. reflexivity. Qed.

(** The generator variant: the batch, a column of zeros and weights 1/n in the epochs that write, after all of it the logs.
    A model with a learning phase raises; so does an epoch before the first batch, even without histograms. *)
Theorem C74_generator : forall (V : Type) (zero : V) (inverse : nat -> V) (fuel : nat) (o : options) (t : tensorboard) (batch_size epoch : nat)
    (logs : list (string * log_value V)) (rows : list V),
  histogram_freq o <> 0 -> epoch mod histogram_freq o = 0 -> 0 < batch_size -> rows <> [] -> length rows < fuel ->
  (exists bs, generator_epoch_end zero inverse fuel o true false 3 batch_size t epoch logs (Some rows) =
      Some (map (fun b => Summaries b epoch) bs ++ fst (write_logs logs (on_epoch_end t epoch)), snd (write_logs logs (on_epoch_end t epoch))) /\
    length bs = batches_needed (length rows) batch_size /\
    Forall (fun b => exists m r, length r = m /\ b = [Rows r; Rows (repeat zero m); Rows (repeat (inverse (length rows)) m)]) bs /\
    concat (map (fun b => rows_of (nth 0 b (Rows []))) bs) = rows) /\
  generator_epoch_end zero inverse fuel o true true 3 batch_size t epoch logs (Some rows) = Some ([], Some AssertionError) /\
  (forall o m p n, generator_epoch_end zero inverse fuel o m p n batch_size t epoch logs None = Some ([], Some AttributeError)).
Proof.
  intros V zero inverse fuel o t b epoch logs rows H E B Ne F. set (n := length rows).
  assert (N : 0 < n) by (unfold n; destruct rows; [contradiction|cbn; lia]).
  set (data := [Rows rows; Rows (repeat zero n); Rows (repeat (inverse n) n)]).
  assert (GD : generator_validation_data zero inverse (Some rows) = Ok data).
  { cbn [generator_validation_data]. fold n. destruct (Nat.eqb_spec n 0); [lia|reflexivity]. }
  assert (R : Forall (fun e => exists l, e = Rows l /\ length l = n) data).
  { repeat constructor; eexists; (split; [reflexivity|]); [reflexivity|apply repeat_length|apply repeat_length]. }
  split; [|split].
  - exists (map (batch_number data b 0) (range (batches_needed n b))). unfold generator_epoch_end. rewrite GD. unfold epoch_end, write_histograms.
    destruct (Nat.eqb_spec (histogram_freq o) 0); [contradiction|]. rewrite E. change (length data) with 3. unfold data at 1. cbn [negb andb Nat.eqb].
    change (val_size data) with (Ok n). change (match data with [] => false | _ :: _ => true end) with true. cbn [andb].
    rewrite (feed_loop_rows b n) by (auto; lia). rewrite Nat.sub_0_r.
    split; [|split; [|split]].
    + rewrite (needed_step n b) by lia. rewrite range_S. cbn [map]. destruct (write_logs logs (on_epoch_end t epoch)). reflexivity.
    + rewrite map_length. unfold range. now rewrite seq_length.
    + apply Forall_forall. intros x Hx. apply in_map_iff in Hx. destruct Hx as [k [<- _]]. cbn [batch_number map data rows_of Nat.add].
      exists (Nat.min b (n - k * b)), (firstn b (skipn (k * b) rows)). split; [rewrite firstn_length, skipn_length; reflexivity|].
      now rewrite !slice_repeat.
    + rewrite map_map. rewrite (map_ext _ (fun k => firstn b (skipn (0 + k * b) rows))) by reflexivity.
      unfold n. rewrite <- (Nat.sub_0_r (length rows)) at 1. rewrite cover by exact B. reflexivity.
  - unfold generator_epoch_end. rewrite GD. unfold epoch_end, write_histograms. destruct (Nat.eqb_spec (histogram_freq o) 0); [contradiction|].
    rewrite E. unfold data. cbn [negb andb Nat.eqb length Nat.add]. reflexivity.
  - reflexivity.
Qed.
Print Assumptions C74_generator.
Example C74_generator_ex : generator_epoch_end 0 (fun n => n) 9 example_options true false 3 2 (new_tensorboard PerEpoch) 4 [("loss"%string, RealValue 5)] (Some [11; 12; 13]) =
  Some ([Summaries [Rows [11; 12]; Rows [0; 0]; Rows [3; 3]] 4; Summaries [Rows [13]; Rows [0]; Rows [3]] 4; Scalar "loss" 5 4], None).
Proof. reflexivity. Qed.

(** Embeddings: after the loop row i of the variable is the output for sample i, whatever it held before. *)
Theorem C74_embedding_rows : forall (V : Type) (g : V -> V) (fuel batch_size : nat) (data variable : list V),
  0 < batch_size -> length variable = length data -> length data < fuel ->
  embedding_loop fuel batch_size 0 (map g) data variable = Some (map g data, batches_needed (length data) batch_size).
Proof. intros V g fuel b data variable B L F. rewrite (embedding_rows g) by (auto; lia). now rewrite Nat.sub_0_r. Qed.
Print Assumptions C74_embedding_rows.
Example C74_embedding_rows_ex : embedding_loop 9 2 0 (map (fun x => x * x)) [1; 2; 3; 4; 5] [0; 0; 0; 0; 0] = Some ([1; 4; 9; 16; 25], 3).
Proof. reflexivity. Qed.

(** Images: a weight with one to three axes longer than one is drawn completely, every entry at its own pixel, and the
    assertion never fails; other weights are left out. *)
Theorem C74_weight_image : forall (V : Type) (channels_last : bool) (w : tensor V),
  (1 <= length (dims (tshape w)) <= 3 ->
     exists img, weight_image channels_last w = Ok (Some img) /\ tshape img = drawn_shape channels_last (dims (tshape w)) /\
     forall l, in_shape (tshape w) l -> tval img (pixel channels_last (dims (tshape w)) (without_units (tshape w) l)) = tval w l) /\
  (~ 1 <= length (dims (tshape w)) <= 3 -> weight_image channels_last w = Ok None).
Proof.
  intros V cl w. pose proof (image_drawn cl w) as H. destruct (length (dims (tshape w))) as [|[|[|[|n]]]]; (split; [intros ?; try lia; exact H|intros ?; try lia; exact H]).
Qed.
Print Assumptions C74_weight_image.
Example C74_weight_image_ex : match weight_image true {| tshape := [2; 1; 2; 3]; tval := fun l => l |} with
  | Ok (Some img) => tshape img = [3; 2; 2; 1] /\ tval img [2; 1; 0; 0] = [1; 0; 0; 2] | _ => False end.
Proof. split; reflexivity. Qed.

(** The summaries: a histogram for every weight, in order; for every trainable weight one for what the optimizer returns,
    if asked for; an image for every weight that can be drawn; the outputs that are not complex. A second call, or
    histogram_freq = 0, adds nothing. *)
Theorem C74_summaries : forall (o : options) (channels_last : bool) (gradients : weight -> res (list (list nat))) (layers : list layer)
    (collection all : list summary) (merged : option (list summary)),
  (histogram_freq o <> 0 -> set_model o channels_last gradients layers collection None = Ok (all, merged) ->
    exists xs, all = collection ++ xs /\ merged = (match all with [] => None | _ => Some all end) /\
      weights_in xs = flat_map layer_weights layers /\
      images_in xs = (if write_images o then map (fun w => (w, drawn_shape channels_last (dims (weight_shape w))))
                        (filter (fun w => (1 <=? length (dims (weight_shape w))) && (length (dims (weight_shape w)) <=? 3)) (flat_map layer_weights layers)) else []) /\
      Forall2 (fun w g => exists shapes, gradients w = Ok shapes /\ (forall s1 s2, In s1 shapes -> In s2 shapes -> s1 = s2) /\
                                         g = (append (mapped_name (weight_name w)) "_grad", shapes))
              (if write_grads o then filter weight_trainable (flat_map layer_weights layers) else []) (gradients_in xs) /\
      forall n i, In (n, i) (outputs_in xs) <-> write_output o = true /\ exists l, In l layers /\ layer_name l = n /\ output_is l i false) /\
  (forall m, histogram_freq o = 0 \/ m <> None ->
     set_model o channels_last gradients layers collection m = Ok (collection, match collection with [] => None | _ => Some collection end)).
Proof.
  intros o cl gradients layers collection all merged. split.
  - intros H S. rewrite set_model_first in S by exact H. destruct (added o cl gradients layers) as [xs|] eqn:A; [|discriminate]. cbn [bind] in S.
    injection S as <- <-. exists xs. split; [reflexivity|]. split; [reflexivity|]. destruct (added_spec _ _ _ _ _ A) as [W [Im [G O]]]. split; [exact W|]. split; [exact Im|]. split; [|exact O].
    clear -G. induction G as [|w g ws gs [shapes [E [P Q]]] _ IH]; constructor; [|exact IH]. exists shapes. split; [exact E|]. split; [|exact Q].
    intros s1 s2 H1 H2. destruct (list_eq_dec Nat.eq_dec s1 s2) as [|N]; [assumption|]. rewrite (packed_false _ _ _ H1 H2 N) in P. discriminate.
  - intros m H. unfold set_model. replace (negb (histogram_freq o =? 0) && match m with Some _ => false | None => true end) with false.
    + cbn [bind]. now rewrite app_nil_r.
    + destruct H as [->|H]; [reflexivity|]. destruct m; [now rewrite andb_false_r|contradiction].
Qed.
Print Assumptions C74_summaries.
Example C74_summaries_ex : set_model example_options true (fun _ => Ok []) example_layers [] None =
  let l := [Histogram "dense/kernel_0" (WeightValues example_kernel); Image "dense/kernel_0" example_kernel [1; 2; 3; 1];
            Histogram "dense/bias_0" (WeightValues example_bias); Image "dense/bias_0" example_bias [1; 2; 1; 1];
            Histogram "dense_out" (OutputValues "dense" 0);
            Histogram "conv/kernel_0" (WeightValues example_filters); Image "conv/kernel_0" example_filters [3; 2; 2; 1];
            Histogram "pair_out_1" (OutputValues "pair" 1)] in Ok (l, Some l).
Proof. reflexivity. Qed.

(** get_gradients of the gradient accumulating optimizer ignores its arguments and returns the accumulators of all
    parameters (accumulate_gradient_optimizer.py:50-54): with write_grads and parameters of different shapes set_model raises. *)
Theorem C74_accumulated_gradients : forall (o : options) (channels_last : bool) (shapes : list (list nat)) (layers : list layer) (collection : list summary)
    (l : layer) (w : weight) (s1 s2 : list nat),
  histogram_freq o <> 0 -> write_grads o = true -> In l layers -> In w (layer_weights l) -> weight_trainable w = true ->
  In s1 shapes -> In s2 shapes -> s1 <> s2 -> set_model o channels_last (fun _ => Ok shapes) layers collection None = Err ValueError.
Proof.
  intros o cl shapes layers collection l w s1 s2 H G Hl Hw T H1 H2 N. rewrite set_model_first by exact H. now rewrite (added_conflict o cl shapes layers l w s1 s2).
Qed.
Print Assumptions C74_accumulated_gradients.
Example C74_accumulated_gradients_ex :
  set_model {| histogram_freq := 1; write_grads := true; write_images := false; write_output := false |} true
    (fun _ => Ok (map weight_shape [example_kernel; example_bias])) example_layers [] None = Err ValueError.
Proof. reflexivity. Qed.

(** Logs: every entry but 'batch' and 'size' is written once, in order, with its value. *)
Theorem C74_logs_written : forall (V : Type) (logs : list (string * log_value V)) (index : nat),
  (forall e, In e logs -> wanted e = true -> exists x, one_real (snd e) x) ->
  exists es, write_logs logs index = (es, None) /\
             Forall2 (fun e ev => exists x, one_real (snd e) x /\ ev = Scalar (fst e) x index) (filter wanted logs) es.
Proof. intros V logs index. apply write_logs_all. Qed.
Print Assumptions C74_logs_written.
Example C74_logs_written_ex : write_logs [("batch", RealValue 3); ("size", RealValue 8); ("loss", RealValue 5); ("energy", RealArray [7])]%string 40 =
  ([Scalar "loss" 5 40; Scalar "energy" 7 40]%string, None).
Proof. reflexivity. Qed.

(** The first value that is not one real number ends the writing: the entries before it are in the file, the others are
    lost; ValueError for an array without exactly one entry, TypeError for a complex number. *)
Theorem C74_logs_exception : forall (V : Type) (before after : list (string * log_value V)) (name : string) (v : log_value V) (index : nat),
  (forall e, In e before -> wanted e = true -> exists x, one_real (snd e) x) -> wanted (name, v) = true -> (forall x, ~ one_real v x) ->
  exists es, write_logs before index = (es, None) /\
    write_logs (before ++ (name, v) :: after) index =
      (es, Some (match v with RealArray _ => ValueError | ComplexArray [_] => TypeError | ComplexArray _ => ValueError | _ => TypeError end)).
Proof.
  intros V before after name v index H W N. destruct (write_logs_all before index H) as [es [E _]]. exists es. split; [exact E|].
  rewrite (write_logs_app _ _ _ _ E). cbn [write_logs]. rewrite (wanted_existsb name v), W. cbn [negb].
  assert (S : simple_value v = Err (match v with RealArray _ => ValueError | ComplexArray [_] => TypeError | ComplexArray _ => ValueError | _ => TypeError end)).
  { destruct v as [x|x|[|x [|y l]]|[|x [|y l]]]; try reflexivity; exfalso; apply (N x); unfold one_real; auto. }
  rewrite S. cbn [fst snd]. now rewrite app_nil_r.
Qed.
Print Assumptions C74_logs_exception.
Example C74_logs_exception_ex : write_logs [("a", RealValue 1); ("b", RealArray [1; 2]); ("c", RealValue 3)]%string 4 = ([Scalar "a"%string 1 4], Some ValueError).
Proof. reflexivity. Qed.

(** on_batch_end without 'epoch': no logs is a TypeError, no 'size' a KeyError; otherwise the events are the logs, at the
    number of samples seen, exactly when the write rate says so. After an exception while writing the samples are
    counted but the write is not, so the next batch tries again. *)
Theorem C74_batch_end : forall (V : Type) (to_nat : V -> nat) (t : tensorboard) (f : nat) (logs : list (string * log_value V)) (size : V),
  update_freq t = Some f ->
  batch_end to_nat t None = (t, [], Some TypeError) /\
  ((forall v, ~ In ("size"%string, v) logs) -> batch_end to_nat t (Some logs) = (t, [], Some KeyError)) /\
  (logged_size to_nat logs = Ok (to_nat size) ->
    let t' := fst (fst (batch_end to_nat t (Some logs))) in
    let events := snd (fst (batch_end to_nat t (Some logs))) in
    samples_seen t' = samples_seen t + to_nat size /\ update_freq t' = Some f /\
    (samples_seen t' - samples_seen_at_last_write t < f -> events = [] /\ samples_seen_at_last_write t' = samples_seen_at_last_write t) /\
    (f <= samples_seen t' - samples_seen_at_last_write t ->
       events = fst (write_logs logs (samples_seen t')) /\ snd (batch_end to_nat t (Some logs)) = snd (write_logs logs (samples_seen t')) /\
       samples_seen_at_last_write t' = match snd (write_logs logs (samples_seen t')) with None => samples_seen t' | Some _ => samples_seen_at_last_write t end)).
Proof.
  intros V to_nat t f logs size U. unfold batch_end. rewrite U. split; [reflexivity|]. split.
  - intros N. unfold logged_size. destruct (find _ logs) as [[n v]|] eqn:F; [|reflexivity]. exfalso. apply find_some in F. destruct F as [I E].
    apply String.eqb_eq in E. cbn [fst] in E. subst n. exact (N v I).
  - intros E. rewrite E. unfold on_batch_end. rewrite U. cbn zeta.
    destruct (Nat.leb_spec f (samples_seen t + to_nat size - samples_seen_at_last_write t)) as [L|L].
    + destruct (write_logs logs (samples_seen t + to_nat size)) as [es [e|]] eqn:W; cbn [fst snd samples_seen update_freq samples_seen_at_last_write];
        (split; [reflexivity|]; split; [reflexivity|]; split; [intros; lia|intros _; rewrite W; cbn [fst snd]; auto]).
    + cbn [fst snd samples_seen update_freq samples_seen_at_last_write]. split; [reflexivity|]. split; [reflexivity|]. split; [intros _; auto|intros; lia].
Qed.
Print Assumptions C74_batch_end.
Example C74_batch_end_ex : batch_end (fun n => n) (new_tensorboard (PerSamples 10)) (Some [("size", RealValue 16); ("loss", RealValue 3)]%string) =
  ({| update_freq := Some 10; samples_seen := 16; samples_seen_at_last_write := 16 |}, [Scalar "loss"%string 3 16], None).
Proof. reflexivity. Qed.

(** Without 'epoch' the logs at the end of the epoch get the number of samples as well: when the last batch was written,
    its entries and those of the epoch have the same number. *)
Theorem C74_same_step : forall (V : Type) (to_nat : V -> nat) (fuel : nat) (o : options) (m p : bool) (tensors batch_size epoch : nat) (t t' : tensorboard)
    (f : nat) (batch_logs epoch_logs : list (string * log_value V)) (data : option (list (entry V))) (written : list (event V)) (es : list (event V)) (r : option exn),
  update_freq t = Some f -> batch_end to_nat t (Some batch_logs) = (t', written, None) ->
  epoch_end fuel o m p tensors batch_size t' epoch epoch_logs data = Some (es, r) ->
  (forall tag v s, In (Scalar tag v s) written -> s = samples_seen t') /\ (forall tag v s, In (Scalar tag v s) es -> s = samples_seen t').
Proof.
  intros V to_nat fuel o m p tensors b epoch t t' f bl el data written es r U B E.
  assert (U' : update_freq t' = Some f /\ (forall tag v s, In (Scalar tag v s) written -> s = samples_seen t')).
  { unfold batch_end in B. rewrite U in B. destruct (logged_size to_nat bl) as [n|]; [|discriminate]. unfold on_batch_end in B. rewrite U in B.
    destruct (f <=? samples_seen t + n - samples_seen_at_last_write t).
    - pose proof (write_logs_step bl (samples_seen t + n)) as S. destruct (write_logs bl (samples_seen t + n)) as [ws [e|]]; [discriminate|]. injection B as <- <-.
      split; [reflexivity|]. intros tag v s H. cbn [fst] in S. rewrite Forall_forall in S. exact (S _ H).
    - injection B as <- <-. split; [reflexivity|]. intros tag v s []. }
  destruct U' as [U' W]. split; [exact W|]. unfold epoch_end in E.
  destruct (write_histograms fuel o m p tensors b epoch data false) as [[hs|e]|] eqn:Hh; [| |discriminate].
  - assert (HS : forall tag v s, ~ In (Scalar tag v s) hs).
    { intros tag v s I. unfold write_histograms in Hh. destruct (negb _ && negb _); [discriminate|]. destruct data as [d|]; [|injection Hh as <-; destruct I].
      destruct (_ && _ && _); [|injection Hh as <-; destruct I]. destruct (negb _); [discriminate|]. destruct (val_size d) as [n|]; [|discriminate].
      destruct (feed_loop fuel b n 0 p d) as [[bs|]|]; [|discriminate|discriminate]. destruct bs as [|b0 bs]; [injection Hh as <-; destruct I|].
      destruct m; [|discriminate]. injection Hh as <-. apply (in_map_iff (fun b => Summaries b epoch) (b0 :: bs)) in I. destruct I as [x [Q _]]. discriminate. }
    pose proof (write_logs_step el (on_epoch_end t' epoch)) as S. destruct (write_logs el (on_epoch_end t' epoch)) as [ls r']. injection E as <- <-.
    intros tag v s I. apply in_app_or in I. destruct I as [I|I]; [destruct (HS _ _ _ I)|]. cbn [fst] in S. rewrite Forall_forall in S. specialize (S _ I). cbn in S.
    unfold on_epoch_end in S. rewrite U' in S. exact S.
  - injection E as <- <-. intros tag v s [].
Qed.
Print Assumptions C74_same_step.
Example C74_same_step_ex :
  let t := fst (fst (batch_end (fun n => n) (new_tensorboard PerBatch) (Some [("size", RealValue 16); ("loss", RealValue 3)]%string))) in
  epoch_end 9 {| histogram_freq := 0; write_grads := false; write_images := false; write_output := false |} false false 3 2 t 0 [("loss", RealValue 4)]%string None
  = Some ([Scalar "loss"%string 4 16], None).
Proof. reflexivity. Qed.

(** A graph without any summary: running None is a TypeError in the epochs that write. *)
Theorem C74_nothing_merged : forall (V : Type) (fuel : nat) (o : options) (tensors batch_size epoch n : nat) (data : list (entry V)),
  histogram_freq o <> 0 -> epoch mod histogram_freq o = 0 -> data <> [] -> length data = tensors -> 0 < batch_size -> n < fuel -> 0 < n ->
  Forall (fun e => exists l, e = Rows l /\ length l = n) data ->
  write_histograms fuel o false false tensors batch_size epoch (Some data) false = Some (Err TypeError).
Proof.
  intros V fuel o tensors b epoch n data H E D T B F N R. unfold write_histograms. destruct (Nat.eqb_spec (histogram_freq o) 0); [contradiction|].
  assert (VS : val_size data = Ok n). { inversion R as [|? ? [l [-> L]] _]; subst; [contradiction|]. reflexivity. }
  rewrite E, T, VS, (feed_loop_rows b n) by (auto; lia). rewrite Nat.sub_0_r, (needed_step n b) by lia. rewrite range_S.
  destruct data as [|e0 data]; [contradiction|]. cbn [negb andb Nat.eqb]. rewrite Nat.eqb_refl. reflexivity.
Qed.
Print Assumptions C74_nothing_merged.
Example C74_nothing_merged_ex : set_model {| histogram_freq := 1; write_grads := true; write_images := true; write_output := true |} true (fun _ => Ok [])
  [{| layer_name := "complex"; layer_weights := []; layer_output := OneOutput true |}] [] None = Ok ([], None).
Proof. reflexivity. Qed.

(** Tags: the name of the weight, character by character, with '_' for ':'; output number i of a layer with several
    outputs has the tag name_out_i with i in decimal. *)
Theorem C74_tags : forall (o : options) (channels_last : bool) (gradients : weight -> res (list (list nat))) (w : weight) (l : layer) (xs : list summary) (tag n : string)
    (i : nat) (cs : list bool),
  (weight_summaries o channels_last gradients w = Ok xs -> In (Histogram tag (WeightValues w)) xs ->
     list_ascii_of_string tag = map (fun c => if Ascii.eqb c ":"%char then "_"%char else c) (list_ascii_of_string (weight_name w))) /\
  (layer_output l = ManyOutputs cs -> In (Histogram tag (OutputValues n i)) (output_summaries o l) ->
     exists digits, tag = append (layer_name l) (append "_out_" digits) /\ read_digits 0 digits = i).
Proof.
  intros o cl gradients w l xs tag n i cs. split.
  - rewrite weight_summaries_eq. unfold gradient_summary. intros E I.
    assert (Q : tag = mapped_name (weight_name w)).
    { destruct (write_grads o && weight_trainable w).
      - destruct (gradients w) as [shapes|]; [|discriminate]. cbn [bind] in E. destruct (packed shapes); [|discriminate]. cbn [bind] in E. injection E as <-.
        cbn [app In] in I. destruct I as [I|[I|I]]; [congruence|discriminate|]. destruct (write_images o && drawable w); [destruct I as [I|[]]; discriminate|contradiction].
      - cbn [bind] in E. injection E as <-. cbn [app In] in I. destruct I as [I|I]; [congruence|].
        destruct (write_images o && drawable w); [destruct I as [I|[]]; discriminate|contradiction]. }
    subst tag. generalize (weight_name w) as s. induction s as [|c s IH]; [reflexivity|]. cbn [mapped_name list_ascii_of_string map]. now rewrite IH.
  - intros L I. unfold output_summaries in I. rewrite L in I. destruct (negb (write_output o)); [contradiction|].
    apply in_flat_map in I. destruct I as [[j c] [_ I]]. cbn [fst snd] in I. destruct c; [contradiction|]. destruct I as [I|[]]. injection I as <- _ <-.
    eexists. split; [reflexivity|]. apply decimal_reads. lia.
Qed.
Print Assumptions C74_tags.
Example C74_tags_ex : mapped_name "dense/kernel:0" = "dense/kernel_0"%string /\ decimal 305 305 = "305"%string. Proof. split; reflexivity. Qed.

(** set_model succeeds whenever the optimizer returns, for every trainable weight, tensors of one shape; it cannot fail
    without write_grads. *)
Theorem C74_set_model_succeeds : forall (o : options) (channels_last : bool) (gradients : weight -> res (list (list nat))) (layers : list layer)
    (collection : list summary) (merged : option (list summary)),
  (write_grads o = true -> forall l w, In l layers -> In w (layer_weights l) -> weight_trainable w = true ->
     exists shapes, gradients w = Ok shapes /\ forall s1 s2, In s1 shapes -> In s2 shapes -> s1 = s2) ->
  exists r, set_model o channels_last gradients layers collection merged = Ok r.
Proof.
  intros o cl gradients layers collection merged H. unfold set_model. destruct (_ && _); [|eexists; reflexivity].
  fold (added o cl gradients layers). destruct (concat_res_all (flat_map (layer_pieces o cl gradients) layers)) as [xs E].
  - intros r Hr. apply in_flat_map in Hr. destruct Hr as [l [Hl Hr]]. unfold layer_pieces in Hr. apply in_app_or in Hr.
    destruct Hr as [Hr|[<-|[]]]; [|eexists; reflexivity]. apply in_map_iff in Hr. destruct Hr as [w [<- Hw]]. rewrite weight_summaries_eq. unfold gradient_summary.
    destruct (write_grads o) eqn:G; cbn [andb]; [|eexists; reflexivity]. destruct (weight_trainable w) eqn:T; [|eexists; reflexivity].
    destruct (H eq_refl l w Hl Hw T) as [shapes [-> S]]. cbn [bind]. rewrite (packed_equal _ S). eexists; reflexivity.
  - unfold layer_pieces in E. rewrite E. eexists; reflexivity.
Qed.
Print Assumptions C74_set_model_succeeds.
Example C74_set_model_succeeds_ex : exists r,
  set_model {| histogram_freq := 1; write_grads := true; write_images := true; write_output := true |} true (fun w => Ok [weight_shape w]) example_layers [] None = Ok r
  /\ gradients_in (fst r) = [("dense/kernel_0_grad", [[3; 2]]); ("dense/bias_0_grad", [[2]]); ("conv/kernel_0_grad", [[2; 1; 2; 3]])]%string.
Proof. eexists. split; reflexivity. Qed.

(** Validation data whose first entry is a number have no shape (AttributeError); a number further on cannot be cut
    (TypeError) unless it is the last entry of a model with a learning phase. *)
Theorem C74_numbers : forall (V : Type) (fuel : nat) (o : options) (m : bool) (tensors batch_size epoch : nat) (first : list V) (data before after : list (entry V)) (v : V),
  histogram_freq o <> 0 -> epoch mod histogram_freq o = 0 -> 0 < fuel -> first <> [] ->
  (length data + 1 = tensors -> write_histograms fuel o m false tensors batch_size epoch (Some (Number v :: data)) false = Some (Err AttributeError)) /\
  (length before + length after + 2 = tensors -> Forall (fun e => exists l, e = Rows l) before ->
   write_histograms fuel o m false tensors batch_size epoch (Some (Rows first :: before ++ Number v :: after)) false = Some (Err TypeError)).
Proof.
  intros V fuel o m tensors b epoch first data before after v H E F Ne. unfold write_histograms. destruct (Nat.eqb_spec (histogram_freq o) 0); [contradiction|]. rewrite E.
  cbn [negb andb Nat.eqb length]. split.
  - intros T. replace tensors with (Datatypes.S (length data)) by lia. cbn [Nat.eqb]. rewrite Nat.eqb_refl. reflexivity.
  - intros T B. rewrite app_length. cbn [length]. replace tensors with (Datatypes.S (length before + Datatypes.S (length after))) by lia.
    cbn [Nat.eqb]. rewrite Nat.eqb_refl. cbn [negb val_size].
    destruct fuel as [|fuel]; [lia|]. cbn [feed_loop]. destruct (Nat.ltb_spec 0 (length first)) as [_|L]; [|destruct first; [contradiction|cbn in L; lia]].
    cbn [batch_val map_res slice_entry bind].
    replace (map_res (slice_entry 0 (0 + Nat.min b (length first - 0))) (before ++ Number v :: after)) with (@Err (list (entry V)) TypeError); [reflexivity|].
    clear -B. induction B as [|e before [l ->] _ IH]; cbn [app map_res slice_entry bind]; [reflexivity|]. now rewrite <- IH.
Qed.
Print Assumptions C74_numbers.
Example C74_numbers_ex : write_histograms 9 example_options true false 3 2 0 (Some [Rows [1; 2]; Rows [3; 4]; Number 0]) false = Some (Err TypeError). Proof. reflexivity. Qed.
