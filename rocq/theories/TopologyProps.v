(** Properties C08, C09, C10, C55. *)
From Coq Require Import List ZArith Lia Arith Bool.
From Verif Require Import Base OrderingModel OrderingSpec TensorModel TopologyModel TopologySpec TopologyProofs.
Import ListNotations.

(** C08: valid convolutions of any rank, over any numbers (real or complex). *)
Theorem C08_convolution_agrees : forall (T : Type) (zero : T) (add mul : T -> T -> T) (c : conv T) (t : tensor (list T)),
  length (kernel_size c) = length (tshape t) -> length (strides c) = length (tshape t) ->
  length (dilation_rate c) = length (tshape t) -> Forall (fun s => 0 < s) (strides c) ->
  (forall l, in_shape (tshape t) l -> length (tval t l) = channels c) ->
  agrees [t] (fun l => Ok (conv_dependencies c l)) (fun _ vs => Ok (conv_apply zero add mul c vs))
    (conv_output zero add mul c t).
Proof. exact @conv_agrees. Qed.
Print Assumptions C08_convolution_agrees.
Example C08_convolution_ex :
  let c := {| kernel_size := [2; 2]; strides := [1; 2]; dilation_rate := [2; 1]; channels := 2; filters := 3;
              kernel := map Z.of_nat (seq 1 24); bias := Some [1; 2; 3]%Z; activation := map (Z.max 0) |} in
  let t := {| tshape := [4; 5]; tval := fun l => [Z.of_nat (nth 0 l 0); Z.of_nat (nth 1 l 0)] |} in
  tshape (conv_output 0%Z Z.add Z.mul c t) = [2; 2] /\
  tval (conv_output 0%Z Z.add Z.mul c t) [1; 1] = [241; 260; 279]%Z /\
  conv_apply 0%Z Z.add Z.mul c (map (fun d => tval t (spatial_location d)) (conv_dependencies c [1; 1])) = [241; 260; 279]%Z.
Proof. split; [|split]; vm_compute; reflexivity. Qed.

(** C09: zero padding. *)
Theorem C09_zero_padding_agrees : forall (V : Type) (zero : V) (p : zero_pad_arg) (t : tensor V),
  length (zero_pad_tuples p) = length (tshape t) ->
  tshape (zero_padding zero (zero_pad_tuples p) t) =
    map2 (fun q n => fst q + n + snd q) (zero_pad_tuples p) (tshape t) /\
  agrees [t] (fun l => Ok (padding_dependencies p (tshape t) l)) (fun _ vs => padding_apply zero vs)
    (zero_padding zero (zero_pad_tuples p) t).
Proof. exact @zero_padding_agrees. Qed.
Print Assumptions C09_zero_padding_agrees.
Example C09_zero_padding_ex :
  let t := {| tshape := [2; 3]; tval := fun l => 10 * nth 0 l 0 + nth 1 l 0 + 1 |} in
  map (tval (zero_padding 0 [(1, 0); (0, 1)] t)) (raster [3; 4]) = [0; 0; 0; 0; 1; 2; 3; 0; 11; 12; 13; 0].
Proof. vm_compute. reflexivity. Qed.

(** C09: periodic padding whose prefix is at most the size (or a multiple of it). *)
Theorem C09_periodic_padding_agrees : forall (V : Type) (p : list pad_entry) (t : tensor V),
  Forall2 pads_fit p (tshape t) ->
  exists out, periodic_padding p t = Ok out /\
    tshape out = map2 (fun q n => Nat.min (pad_before q) n + n + Nat.min (pad_after q) n) p (tshape t) /\
    agrees [t] (fun l => Ok (periodic_dependencies p (tshape t) l)) (fun _ vs => first_value vs) out.
Proof. exact @periodic_agrees. Qed.
Print Assumptions C09_periodic_padding_agrees.
Example C09_periodic_padding_ex : Forall2 pads_fit [PPair 2 1; PInt 3] [3; 3] /\
  exists out, periodic_padding [PPair 2 1] {| tshape := [3]; tval := fun l => nth 0 l 0 |} = Ok out /\
    map (tval out) (raster (tshape out)) = [1; 2; 0; 1; 2; 0].
Proof.
  split.
  - repeat constructor; cbn [pad_before]; lia.
  - eexists. split; [reflexivity|]. vm_compute. reflexivity.
Qed.

(** C09: in every other case topology and layer disagree. *)
Theorem C09_periodic_padding_large_refuted : forall n b a, 0 < n -> n < b -> b mod n <> 0 ->
  exists out : tensor loc, periodic_padding [PPair b a] {| tshape := [n]; tval := fun l => l |} = Ok out /\
    ~ agrees [{| tshape := [n]; tval := fun l => l |}] (fun l => Ok (periodic_dependencies [PPair b a] [n] l))
        (fun _ vs => first_value vs) out.
Proof. exact periodic_large. Qed.
Print Assumptions C09_periodic_padding_large_refuted.
Example C09_periodic_padding_large_ex : 0 < 3 /\ 3 < 4 /\ 4 mod 3 <> 0.
Proof. vm_compute. lia. Qed.

(** C10: DownShift (d = 0) and RightShift (d = 1). *)
Theorem C10_shift_agrees : forall (V : Type) (zero : V) (d : nat) (t : tensor V),
  d < length (tshape t) -> 0 < nth d (tshape t) 0 ->
  tshape (shift zero d t) = tshape t /\
  agrees [t] (shift_dependencies d) (shift_apply zero d) (shift zero d t).
Proof. exact @shift_agrees. Qed.
Print Assumptions C10_shift_agrees.
Example C10_shift_ex :
  map (tval (shift 0 1 {| tshape := [2; 3]; tval := fun l => 10 * nth 0 l 0 + nth 1 l 0 + 1 |})) (raster [2; 3]) =
  [0; 1; 2; 0; 11; 12].
Proof. vm_compute. reflexivity. Qed.

(** C10: a location beyond the concatenated inputs has no dependencies: the loop ends without a value, which the callers cannot iterate. *)
Theorem C10_concatenate_beyond : forall (sizes : list nat) (d i : nat) (l : loc), d < length l -> fold_right Nat.add 0 sizes <= nth d l 0 ->
  concat_spatial_from i (Z.of_nat d + 1) sizes l = Err TypeError.
Proof.
  induction sizes as [|n sizes IH]; intros d i l Hd H; [reflexivity|]. cbn [concat_spatial_from fold_right] in *.
  unfold py_index. replace (Z.of_nat d + 1 - 1)%Z with (Z.of_nat d) by lia.
  destruct (Z.leb_spec 0 (Z.of_nat d)); [|lia]. destruct (Z.ltb_spec (Z.of_nat d) (Z.of_nat (length l))); [|lia]. cbn [andb bind].
  rewrite Nat2Z.id. destruct (Nat.ltb_spec (nth d l 0) n); [lia|]. apply IH; [now rewrite upd_length|]. rewrite nth_upd_same by exact Hd. lia.
Qed.
Print Assumptions C10_concatenate_beyond.
Example C10_concatenate_beyond_ex : 1 < length [0; 5] /\ fold_right Nat.add 0 [2; 3] <= nth 1 [0; 5] 0.
Proof. cbn. lia. Qed.

(** C10: concatenation along a spatial axis (given by its non negative number d + 1). *)
Theorem C10_concatenate_spatial_agrees : forall (T : Type) (d : nat) (ts : list (tensor (list T))) (t : tensor (list T))
    (features : list nat),
  d < length (tshape t) -> length features = length (t :: ts) ->
  Forall (fun u => same_except d (tshape t) (tshape u)) ts ->
  exists out, tf_concat d (t :: ts) = Ok out /\
    let axis := (Z.of_nat d + 1)%Z in
    agrees (t :: ts) (concat_dependencies axis (map tshape (t :: ts)) features)
      (fun _ vs => concat_apply axis (2 + length (tshape t)) vs) out.
Proof. exact @concat_layer_agrees. Qed.
Print Assumptions C10_concatenate_spatial_agrees.
Example C10_concatenate_spatial_ex :
  concat_dependencies 2 [[2; 3]; [2; 1]; [2; 2]] [1; 1; 1] [1; 5] = Ok [{| input_index := 2; spatial_location := [1; 1] |}].
Proof. vm_compute. reflexivity. Qed.

(** C10: concatenation of features with axis = -1. *)
Theorem C10_concatenate_features_agrees : forall (T : Type) (ts : list (tensor (list T))) (t : tensor (list T)) (features : list nat),
  length features = length (t :: ts) -> Forall (fun u => tshape u = tshape t) ts ->
  agrees (t :: ts) (concat_dependencies (-1) (map tshape (t :: ts)) features)
      (fun _ vs => concat_apply (-1) (2 + length (tshape t)) vs)
      {| tshape := tshape t; tval := fun l => concat (map (fun u => tval u l) (t :: ts)) |}.
Proof. exact @concat_features_agrees. Qed.
Print Assumptions C10_concatenate_features_agrees.
Example C10_concatenate_features_ex :
  concat_dependencies (-1) [[2]; [2]] [3; 4] [1] = Ok [{| input_index := 0; spatial_location := [1] |}; {| input_index := 1; spatial_location := [1] |}].
Proof. vm_compute. reflexivity. Qed.

(** C10: naming the feature axis by its positive number fails on the rank two values of the fast sampler. *)
Theorem C10_concatenate_positive_features_refuted : forall (T : Type) (rank : nat) (values : list (list T)), 3 <= rank ->
  concat_apply (Z.of_nat rank - 1) rank values = Err ValueError.
Proof.
  intros T rank values H. unfold concat_apply, concat_on_spatial_axis. rewrite Z.eqb_refl, !orb_true_r. cbn [negb].
  destruct (Z.eqb_spec (Z.of_nat rank - 1) (-1)); [lia|]. destruct (Z.eqb_spec (Z.of_nat rank - 1) 1); [lia|]. reflexivity.
Qed.
Print Assumptions C10_concatenate_positive_features_refuted.
Example C10_concatenate_positive_features_ex : concat_apply 3 4 [[1]; [2]] = Err ValueError /\ 3 <= 4.
Proof. split; [reflexivity|lia]. Qed.

(** C10: a negative spatial axis never works when it is at least as far from the end as there are spatial
    dimensions (in particular for one and two dimensional networks) ... *)
Theorem C10_concatenate_negative_refuted : forall (T : Type) (k : nat) (shapes : list (list nat)) (features : list nat)
    (l : loc) (vs : list (list T)) r,
  2 <= k < 2 + length (hd [] shapes) -> length (hd [] shapes) <= k -> length l = length (hd [] shapes) ->
  concat_dependencies (- Z.of_nat k) shapes features l = Ok r -> False.
Proof. exact @concat_negative. Qed.
Print Assumptions C10_concatenate_negative_refuted.
Example C10_concatenate_negative_ex : concat_dependencies (-2) [[2; 3]; [2; 3]] [1; 1] [0; 0] = Err IndexError.
Proof. vm_compute. reflexivity. Qed.

(** ... and silently reads the wrong input in three dimensions. *)
Theorem C10_concatenate_negative_3d_refuted : exists shapes features l out_location,
  concat_dependencies (-2) shapes features l = Ok [{| input_index := 1; spatial_location := out_location |}] /\
  nth 2 l 0 < nth 2 (nth 0 shapes []) 0.
Proof. exists [[2; 2; 1]; [2; 2; 1]], [1; 1], [1; 0; 0], [0; 0; 0]. split; [vm_compute; reflexivity|cbn; lia]. Qed.
Print Assumptions C10_concatenate_negative_3d_refuted.

(** C10: element-wise layers with broadcasting, any number of inputs. *)
Theorem C10_broadcast_agrees : forall (V W : Type) (f : list V -> W) (ts : list (tensor V)) (out : list nat),
  Forall (fun t => broadcasts out (tshape t)) ts ->
  agrees ts (one_to_one_dependencies (map tshape ts)) (fun _ vs => Ok (f vs)) (merge f ts out).
Proof. exact @merge_agrees. Qed.
Print Assumptions C10_broadcast_agrees.
Example C10_broadcast_ex : broadcasts [6; 6] [6; 6] /\ broadcasts [6; 6] [1; 6] /\
  one_to_one_dependencies [[6; 6]; [1; 6]] [4; 5] =
    Ok [{| input_index := 0; spatial_location := [4; 5] |}; {| input_index := 1; spatial_location := [0; 5] |}].
Proof. split; [|split]; [repeat constructor; lia|repeat constructor; lia|reflexivity]. Qed.

(** C10: Keras also broadcasts an input with fewer axes; such a merge is rejected at the first lookup. *)
Theorem C10_merge_lower_rank_raises : forall (sizes : list (list nat)) (s : list nat) (l : loc), In s sizes -> length s < length l ->
  one_to_one_dependencies sizes l = Err IndexError.
Proof. exact lower_rank_raises. Qed.
Print Assumptions C10_merge_lower_rank_raises.
Example C10_merge_lower_rank_ex : In [6] [[6; 6]; [6]] /\ length [6] < length [4; 5].
Proof. split; [right; left; reflexivity|cbn; lia]. Qed.

(** C10: ExpandInputDim depends on the same location of the network input. *)
Theorem C10_expand_input_dim : forall (shape : list nat) (l : loc), in_shape shape l ->
  one_to_one_dependencies [stored_input_size true shape] l = Ok [dep0 l].
Proof. exact expand_input_dim_ok. Qed.
Print Assumptions C10_expand_input_dim.
Example C10_expand_input_dim_ex : in_shape [4; 4] [1; 3].
Proof. repeat constructor. Qed.

(** C10: the one-hot layers applied to the network input have no usable topology: every location raises. *)
Theorem C10_one_hot_refuted : forall (n : nat) (rest : list nat) (l : loc),
  length l = S (length rest) -> in_shape (n :: rest) l ->
  one_to_one_dependencies [stored_input_size false (n :: rest)] l = Err IndexError.
Proof. exact one_hot_index_error. Qed.
Print Assumptions C10_one_hot_refuted.
Example C10_one_hot_ex : in_shape [4; 4] [1; 3] /\ length [1; 3] = S (length [4]).
Proof. repeat constructor. Qed.

(** C10: gathering along a spatial axis given by its non negative number. *)
Theorem C10_gather_agrees : forall (V : Type) (d : nat) (indices : list nat) (t out : tensor V), d < length (tshape t) ->
  gather_axis d indices t = Ok out ->
  agrees [t] (gather_dependencies (Z.of_nat d + 1) indices (2 + length (tshape t))) (fun _ vs => first_value vs) out.
Proof. exact @gather_layer_agrees. Qed.
Print Assumptions C10_gather_agrees.
Example C10_gather_ex : is_ok (gather_axis 0 [2; 0; 1] {| tshape := [3]; tval := fun l => nth 0 l 0 |}) = true.
Proof. reflexivity. Qed.

(** C10: every negative gather axis raises, and so does gathering features in the fast sampler. *)
Theorem C10_gather_negative_refuted : forall (axis : Z) indices rank l, (axis < 0)%Z -> length l + 2 = rank ->
  gather_dependencies axis indices rank l = Err IndexError.
Proof. exact gather_negative. Qed.
Print Assumptions C10_gather_negative_refuted.
Theorem C10_gather_features_refuted : forall (T : Type) (zero : T) indices rank value values, 3 <= rank ->
  gather_apply zero (Z.of_nat rank - 1) indices rank (value :: values) = Err ValueError.
Proof. exact @gather_features_fails. Qed.
Print Assumptions C10_gather_features_refuted.
Example C10_gather_negative_ex : (-2 < 0)%Z /\ length [1] + 2 = 3 /\ gather_apply 0 2 [1] 3 [[4; 5]] = Err ValueError.
Proof. split; [|split]; reflexivity. Qed.

(** C10: Reshape called directly, with a target shape without -1 or with a leading -1. *)
Theorem C10_reshape_agrees : forall (V : Type) (t : tensor V) (new : list nat) (f : nat), volume new = volume (tshape t) ->
  agrees [t] (reshape_dependencies (tshape t ++ [f]) (map Z.of_nat (new ++ [f]))) (fun _ vs => first_value vs) (reshape new t).
Proof. exact @reshape_agrees. Qed.
Print Assumptions C10_reshape_agrees.
Example C10_reshape_agrees_ex : volume [3; 4] = volume [2; 6] /\ reshape_dependencies [2; 6; 5] [3; 4; 5]%Z [1; 3] = Ok [dep0 [1; 1]].
Proof. split; vm_compute; reflexivity. Qed.
Theorem C10_reshape_leading_unknown_agrees : forall (V : Type) (t : tensor V) (n : nat) (new : list nat) (f : nat),
  0 < f -> 0 < volume new -> volume (n :: new) = volume (tshape t) ->
  agrees [t] (reshape_dependencies (tshape t ++ [f]) ((-1)%Z :: map Z.of_nat (new ++ [f]))) (fun _ vs => first_value vs)
    (reshape (n :: new) t).
Proof. exact @reshape_leading_unknown. Qed.
Print Assumptions C10_reshape_leading_unknown_agrees.
Example C10_reshape_leading_unknown_ex : reshape_dependencies [6; 4; 5] [-1; 2; 5]%Z [7; 1] = Ok [dep0 [3; 3]] /\
  volume [12; 2] = volume [6; 4].
Proof. split; vm_compute; reflexivity. Qed.
Theorem C10_reshape_keeps_row_major : forall (V : Type) (t : tensor V) new l, volume new = volume (tshape t) -> in_shape new l ->
  exists l', in_shape (tshape t) l' /\ row_major (tshape t) l' = row_major new l /\ tval (reshape new t) l = tval t l'.
Proof. exact @reshape_row_major. Qed.
Print Assumptions C10_reshape_keeps_row_major.
Example C10_reshape_ex : volume [20; 6] = volume [6; 5; 4].
Proof. reflexivity. Qed.

(** C10: a -1 elsewhere is resolved wrongly, and inside a dependency graph Reshape raises. *)
Theorem C10_reshape_inner_unknown_refuted :
  reshape_dependencies [2; 3; 5] [2; -1; 5]%Z [1; 0] = Ok [dep0 [1; 2]] /\
  tval (reshape [2; 3] {| tshape := [2; 3]; tval := fun l => l |}) [1; 0] = [1; 0].
Proof. split; vm_compute; reflexivity. Qed.
Print Assumptions C10_reshape_inner_unknown_refuted.
Theorem C10_reshape_in_graph_refuted : forall input_shape target l r,
  reshape_dependencies_in_graph input_shape target l <> Ok r.
Proof. intros i t l r. unfold reshape_dependencies_in_graph. destruct (reshape_target i t); discriminate. Qed.
Print Assumptions C10_reshape_in_graph_refuted.

(** C55: the last topology registered for the exact class, through any number of wrappers. *)
Theorem C55_dispatch : forall (L T : Type) (eqb : L -> L -> bool) (Heq : forall a b, eqb a b = true <-> a = b)
    (history : list (L * T)) (cls : L) (k : nat),
  get_layer_topology eqb (register_all eqb history) (wrapped k (Instance cls)) =
  match last_registered eqb history cls with Some tc => Ok (NewTopology tc cls) | None => Err UnsupportedLayer end.
Proof. exact @dispatch_last. Qed.
Print Assumptions C55_dispatch.
Example C55_dispatch_last_ex : (forall a b, Nat.eqb a b = true <-> a = b) /\
  get_layer_topology Nat.eqb (register_all Nat.eqb [(1, 10); (2, 20); (1, 30)]) (wrapped 3 (Instance 1)) = Ok (NewTopology 30 1).
Proof. split; [apply Nat.eqb_eq|reflexivity]. Qed.
(** Importing flowket.samplers after flowket.deepar changes how network inputs are sampled everywhere. *)
Theorem C55_import_changes_sampling : forall (L T : Type) (eqb : L -> L -> bool) (Heq : forall a b, eqb a b = true <-> a = b)
    (history : list (L * T)) (input_layer : L) (plus_minus_one : T),
  get_layer_topology eqb (register_all eqb (history ++ [(input_layer, plus_minus_one)])) (Instance input_layer) =
    Ok (NewTopology plus_minus_one input_layer) /\
  forall cls, cls <> input_layer ->
    get_layer_topology eqb (register_all eqb (history ++ [(input_layer, plus_minus_one)])) (Instance cls) =
    get_layer_topology eqb (register_all eqb history) (Instance cls).
Proof.
  intros L T eqb Heq history il pm. split.
  - pose proof (dispatch_last eqb Heq (history ++ [(il, pm)]) il 0) as H. cbn [wrapped] in H. rewrite H.
    unfold last_registered. rewrite rev_app_distr. cbn [rev app find fst]. rewrite (proj2 (Heq il il) eq_refl). reflexivity.
  - intros cls N. pose proof (dispatch_last eqb Heq (history ++ [(il, pm)]) cls 0) as H.
    pose proof (dispatch_last eqb Heq history cls 0) as H'. cbn [wrapped] in H, H'. rewrite H, H'.
    unfold last_registered. rewrite rev_app_distr. cbn [rev app find fst].
    destruct (eqb cls il) eqn:E; [apply Heq in E; congruence|reflexivity].
Qed.
Print Assumptions C55_import_changes_sampling.
Example C55_dispatch_ex :
  get_layer_topology Nat.eqb (register_all Nat.eqb [(1, 10); (2, 20); (1, 11)]) (Wrapped (Instance 1)) = Ok (NewTopology 11 1).
Proof. reflexivity. Qed.
