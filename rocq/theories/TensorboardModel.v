(** Model of callbacks/tensorboard.py and callbacks/monte_carlo/tensorboard_with_generator_validation_data.py: which
    summaries the callback adds to the graph, what it feeds to them, what it writes and what it raises. The write rate in
    on_batch_end is in CheckpointModel.v and is used here. *)
From Coq Require Import String List ZArith Arith Bool Ascii.
From Verif Require Import Base OrderingModel TensorModel CheckpointModel.
Import ListNotations.
Local Open Scope nat_scope.

(** * set_model *)

(** A weight of a Keras layer. *)
Record weight := { weight_name : string; weight_shape : list nat; weight_trainable : bool }.
(** [layer.output]: no such attribute (no unique output), one tensor, a list of tensors; for each whether its dtype is
    complex. *)
Inductive outputs := NoOutput | OneOutput (is_complex : bool) | ManyOutputs (is_complex : list bool).
Record layer := { layer_name : string; layer_weights : list weight; layer_output : outputs }.

(** A summary operation of the graph. *)
Inductive source := WeightValues (w : weight) | GradientValues (shapes : list (list nat)) | OutputValues (layer_name : string) (index : nat).
Inductive summary := Histogram (tag : string) (of : source) | Image (tag : string) (of : weight) (image_shape : list nat).

(** The constructor arguments that set_model reads (tensorboard.py:74-124). *)
Record options := { histogram_freq : nat; write_grads : bool; write_images : bool; write_output : bool }.

(** name.replace(':', '_'), tensorboard.py:140. *)
Fixpoint mapped_name (s : string) : string :=
  match s with
  | EmptyString => EmptyString
  | String c t => String (if Ascii.eqb c ":"%char then "_"%char else c) (mapped_name t)
  end.

(** tf.squeeze (tensorboard.py:154): axes of size one are dropped. *)
Definition squeezed (shape : list nat) : list nat := filter (fun n => negb (n =? 1)) shape.
Definition squeeze {V} (t : tensor V) : tensor V := reshape (squeezed (tshape t)) t.
(** tf.transpose of a matrix (tensorboard.py:159) and with perm=[2, 0, 1] (tensorboard.py:169). *)
Definition transpose_2 {V} (t : tensor V) : tensor V :=
  {| tshape := [nth 1 (tshape t) 0; nth 0 (tshape t) 0]; tval := fun l => tval t [nth 1 l 0; nth 0 l 0] |}.
Definition transpose_201 {V} (t : tensor V) : tensor V :=
  {| tshape := [nth 2 (tshape t) 0; nth 0 (tshape t) 0; nth 1 (tshape t) 0];
     tval := fun l => tval t [nth 1 l 0; nth 2 l 0; nth 0 l 0] |}.

(** tensorboard.py:154-184: the image made of a weight; [Ok None]: the [continue] of line 181, no image. The option
    channels_last is K.image_data_format() == 'channels_last'. *)
Definition weight_image {V} (channels_last : bool) (w : tensor V) : res (option (tensor V)) :=
  let w_img := squeeze w in
  do img <- match tshape w_img with
            | [a; b] =>
                let w_img := if b <? a then transpose_2 w_img else w_img in
                Ok (Some (reshape [1; nth 0 (tshape w_img) 0; nth 1 (tshape w_img) 0; 1] w_img))
            | [_; _; _] =>
                let w_img := if channels_last then transpose_201 w_img else w_img in
                Ok (Some (reshape [nth 0 (tshape w_img) 0; nth 1 (tshape w_img) 0; nth 2 (tshape w_img) 0; 1] w_img))
            | [a] => Ok (Some (reshape [1; a; 1; 1] w_img))
            | _ => Ok None
            end;
  match img with
  | None => Ok None
  | Some t =>                                          (* the assertion of line 184 *)
      if (length (tshape t) =? 4) && existsb (Nat.eqb (last (tshape t) 0)) [1; 3; 4] then Ok (Some t) else Err AssertionError
  end.

(** tf.summary.histogram of a list of tensors packs them into one tensor: ValueError unless they have the same shape. *)
Definition packed (shapes : list (list nat)) : bool :=
  match shapes with [] => true | s :: t => forallb (fun s' => if list_eq_dec Nat.eq_dec s s' then true else false) t end.

(** tensorboard.py:139-185, the body of the loop over the weights. [gradients w] stands for
    model.optimizer.get_gradients(model.total_loss, w): an exception or the shapes of the returned list (of the values
    of a sparse gradient). *)
Definition weight_summaries (o : options) (channels_last : bool) (gradients : weight -> res (list (list nat))) (w : weight)
  : res (list summary) :=
  let tag := mapped_name (weight_name w) in
  do grads <- (if write_grads o && weight_trainable w then
                 do shapes <- gradients w;
                 if packed shapes then Ok [Histogram (tag ++ "_grad") (GradientValues shapes)] else Err ValueError
               else Ok []);
  do image <- (if write_images o then
                 do img <- weight_image channels_last {| tshape := weight_shape w; tval := fun l => l |};
                 match img with None => Ok [] | Some t => Ok [Image tag w (tshape t)] end
               else Ok []);
  Ok ([Histogram tag (WeightValues w)] ++ grads ++ image).

(** str(i) of a list index. *)
Definition digit (n : nat) : string := String (Ascii.ascii_of_nat (48 + n mod 10)) EmptyString.
Fixpoint decimal (fuel n : nat) : string :=
  match fuel with
  | 0 => digit n
  | Datatypes.S f => if n <? 10 then digit n else (decimal f (n / 10) ++ digit n)%string
  end.

(** tensorboard.py:187-200: histograms of the outputs, complex ones are skipped. *)
Definition output_summaries (o : options) (l : layer) : list summary :=
  if negb (write_output o) then [] else
  match layer_output l with
  | NoOutput => []
  | OneOutput is_complex => if is_complex then [] else [Histogram (layer_name l ++ "_out") (OutputValues (layer_name l) 0)]
  | ManyOutputs cs =>
      flat_map (fun ic => if snd ic : bool then [] else
                          [Histogram (layer_name l ++ "_out_" ++ decimal (fst ic) (fst ic)) (OutputValues (layer_name l) (fst ic))])
               (combine (range (length cs)) cs)
  end.

Fixpoint concat_res {A} (l : list (res (list A))) : res (list A) :=
  match l with
  | [] => Ok []
  | r :: t => do x <- r; do xs <- concat_res t; Ok (x ++ xs)
  end.

(** tensorboard.py:133-201: [collection]: the summaries that are in the graph already, [merged]: self.merged before.
    The new collection and self.merged; tf.summary.merge_all() is None for an empty collection. *)
Definition set_model (o : options) (channels_last : bool) (gradients : weight -> res (list (list nat))) (layers : list layer)
  (collection : list summary) (merged : option (list summary)) : res (list summary * option (list summary)) :=
  do added <- (if negb (histogram_freq o =? 0) && (match merged with None => true | Some _ => false end) then
                 concat_res (flat_map (fun l => map (weight_summaries o channels_last gradients) (layer_weights l)
                                                ++ [Ok (output_summaries o l)]) layers)
               else Ok []);
  let all := collection ++ added in
  Ok (all, match all with [] => None | _ => Some all end).

(** * on_epoch_end *)

(** An element of self.validation_data: an array (its rows) or the learning phase, a number that is not sliced. *)
Inductive entry (V : Type) := Rows (rows : list V) | Number (v : V).
Arguments Rows {V} rows. Arguments Number {V} v.
(** x[i:j]; a number cannot be sliced. *)
Definition slice_entry {V} (i j : nat) (e : entry V) : res (entry V) :=
  match e with Rows l => Ok (Rows (slice l i j)) | Number _ => Err TypeError end.
Fixpoint map_res {A B} (f : A -> res B) (l : list A) : res (list B) :=
  match l with
  | [] => Ok []
  | a :: t => do b <- f a; do bs <- map_res f t; Ok (b :: bs)
  end.

(** tensorboard.py:282-287, one batch of the validation data. *)
Definition batch_val {V} (learning_phase : bool) (val_data : list (entry V)) (i step : nat) : res (list (entry V)) :=
  if learning_phase then
    do sliced <- map_res (slice_entry i (i + step)) (removelast val_data);
    match val_data with [] => Err IndexError | e :: _ => Ok (sliced ++ [last val_data e]) end
  else map_res (slice_entry i (i + step)) val_data.

(** tensorboard.py:279-293: the while loop over the validation data; the batches that are fed, or the exception. The
    fuel counts the iterations, [None]: the loop did not end. *)
Fixpoint feed_loop {V} (fuel batch_size val_size i : nat) (learning_phase : bool) (val_data : list (entry V))
  : option (res (list (list (entry V)))) :=
  match fuel with
  | 0 => None
  | Datatypes.S f =>
      if i <? val_size then
        let step := Nat.min batch_size (val_size - i) in
        match batch_val learning_phase val_data i step with
        | Err e => Some (Err e)
        | Ok b => match feed_loop f batch_size val_size (i + batch_size) learning_phase val_data with
                  | None => None
                  | Some r => Some (do bs <- r; Ok (b :: bs))
                  end
        end
      else Some (Ok [])
  end.

(** An event that goes to the event file. *)
Inductive event (V : Type) := Summaries (fed : list (entry V)) (step : nat) | Scalar (tag : string) (value : V) (step : nat).
Arguments Summaries {V} fed step. Arguments Scalar {V} tag value step.

(** val_data[0].shape[0]. *)
Definition val_size {V} (val_data : list (entry V)) : res nat :=
  match val_data with [] => Err IndexError | Rows l :: _ => Ok (length l) | Number _ :: _ => Err AttributeError end.

(** tensorboard.py:260-293. [validation_data]: None or a list; an empty list is false as well. [tensors]: the number of
    inputs, targets and sample weights of the model. [has_merged]: self.merged is not None (running None is a TypeError).
    [None]: the loop did not end. *)
Definition write_histograms {V} (fuel : nat) (o : options) (has_merged learning_phase : bool) (tensors batch_size epoch : nat)
  (validation_data : option (list (entry V))) (embeddings_missing : bool) : option (res (list (event V))) :=
  let given := match validation_data with Some (_ :: _) => true | _ => false end in
  let on := negb (histogram_freq o =? 0) in
  if negb given && on then Some (Err ValueError) else
  if embeddings_missing then Some (Err ValueError) else
  match validation_data with
  | Some val_data =>
      if given && on && (epoch mod histogram_freq o =? 0) then
        let tensors := if learning_phase then tensors + 1 else tensors in
        if negb (length val_data =? tensors) then Some (Err AssertionError) else
        match val_size val_data with
        | Err e => Some (Err e)
        | Ok n =>
            match feed_loop fuel batch_size n 0 learning_phase val_data with
            | None => None
            | Some (Err e) => Some (Err e)
            | Some (Ok bs) =>
                match bs with
                | [] => Some (Ok [])
                | _ => if has_merged then Some (Ok (map (fun b => Summaries b epoch) bs)) else Some (Err TypeError)
                end
            end
        end
      else Some (Ok [])
  | None => Some (Ok [])
  end.

(** ** Embeddings *)

(** tensorboard.py:307-332: the while loop; [output]: the reshaped output of an embedding layer for a list of inputs;
    [variable]: the embedding variable, one entry per row. tf.assign to the slice variable[i : i + step]. *)
Definition assign_rows {V} (variable : list V) (i : nat) (rows : list V) : list V :=
  firstn i variable ++ rows ++ skipn (i + length rows) variable.
Fixpoint embedding_loop {V} (fuel batch_size i : nat) (output : list V -> list V) (data variable : list V) : option (list V * nat) :=
  match fuel with
  | 0 => None
  | Datatypes.S f =>
      if i <? length data then
        let step := Nat.min batch_size (length data - i) in
        match embedding_loop f batch_size (i + batch_size) output data (assign_rows variable i (output (slice data i (i + step)))) with
        | None => None
        | Some (v, saves) => Some (v, Datatypes.S saves)       (* saver.save after every batch *)
        end
      else Some (variable, 0)
  end.

(** ** Logs *)

(** A value in the dictionary of logs: a number (real or complex) or a numpy array of numbers. *)
Inductive log_value (V : Type) := RealValue (v : V) | ComplexValue (v : V) | RealArray (l : list V) | ComplexArray (l : list V).
Arguments RealValue {V} v. Arguments ComplexValue {V} v. Arguments RealArray {V} l. Arguments ComplexArray {V} l.
(** tensorboard.py:346-349: value.item() needs exactly one entry; simple_value takes a real number. *)
Definition simple_value {V} (v : log_value V) : res V :=
  match v with
  | RealValue x => Ok x
  | ComplexValue _ => Err TypeError
  | RealArray [x] => Ok x
  | RealArray _ => Err ValueError
  | ComplexArray [_] => Err TypeError
  | ComplexArray _ => Err ValueError
  end.

(** tensorboard.py:340-352 [_write_logs]: the events added before an exception, and the exception if there is one. *)
Fixpoint write_logs {V} (logs : list (string * log_value V)) (index : nat) : list (event V) * option exn :=
  match logs with
  | [] => ([], None)
  | (name, value) :: t =>
      if existsb (String.eqb name) ["batch"; "size"]%string then write_logs t index else
      match simple_value value with
      | Err e => ([], Some e)
      | Ok v => let (es, r) := write_logs t index in (Scalar name v index :: es, r)
      end
  end.

(** logs['size']: the first entry with that name; [to_nat] reads a number. Arrays and complex numbers are not accepted
    here (Keras puts an integer there). *)
Definition logged_size {V} (to_nat : V -> nat) (logs : list (string * log_value V)) : res nat :=
  match find (fun e => String.eqb (fst e) "size") logs with
  | None => Err KeyError
  | Some (_, RealValue v) => Ok (to_nat v)
  | Some _ => Err TypeError
  end.

(** tensorboard.py:357-363 [on_batch_end]. [logs]: None or a dictionary. *)
Definition batch_end {V} (to_nat : V -> nat) (t : tensorboard) (logs : option (list (string * log_value V)))
  : tensorboard * list (event V) * option exn :=
  match update_freq t with
  | None => (t, [], None)
  | Some _ =>
      match logs with
      | None => (t, [], Some TypeError)
      | Some logs =>
          match logged_size to_nat logs with
          | Err e => (t, [], Some e)
          | Ok n =>
              let (t1, w) := on_batch_end t n in
              match w with
              | None => (t1, [], None)
              | Some index =>
                  let (es, r) := write_logs logs index in
                  match r with
                  | None => (t1, es, None)
                  | Some e =>                          (* line 363 is not reached *)
                      ({| update_freq := update_freq t; samples_seen := samples_seen t1;
                          samples_seen_at_last_write := samples_seen_at_last_write t |}, es, Some e)
                  end
              end
          end
      end
  end.

(** tensorboard.py:257-338 [on_epoch_end] without embeddings (embeddings_freq = 0): the events and the exception. *)
Definition epoch_end {V} (fuel : nat) (o : options) (has_merged learning_phase : bool) (tensors batch_size : nat) (t : tensorboard)
  (epoch : nat) (logs : list (string * log_value V)) (validation_data : option (list (entry V))) : option (list (event V) * option exn) :=
  match write_histograms fuel o has_merged learning_phase tensors batch_size epoch validation_data false with
  | None => None
  | Some (Err e) => Some ([], Some e)
  | Some (Ok es) => let (ls, r) := write_logs logs (on_epoch_end t epoch) in Some (es ++ ls, r)
  end.

(** tensorboard_with_generator_validation_data.py:12-17: [current_batch]: the rows of generator.current_batch, None
    before the first batch; [zero], [inverse n]: the values 0 and 1.0/n. *)
Definition generator_validation_data {V} (zero : V) (inverse : nat -> V) (current_batch : option (list V)) : res (list (entry V)) :=
  match current_batch with
  | None => Err AttributeError
  | Some rows =>
      let n := length rows in
      if n =? 0 then Err ZeroDivisionError else
      Ok [Rows rows; Rows (repeat zero n); Rows (repeat (inverse n) n)]
  end.
Definition generator_epoch_end {V} (zero : V) (inverse : nat -> V) (fuel : nat) (o : options) (has_merged learning_phase : bool)
  (tensors batch_size : nat) (t : tensorboard) (epoch : nat) (logs : list (string * log_value V)) (current_batch : option (list V))
  : option (list (event V) * option exn) :=
  match generator_validation_data zero inverse current_batch with
  | Err e => Some ([], Some e)
  | Ok data => epoch_end fuel o has_merged learning_phase tensors batch_size t epoch logs (Some data)
  end.
