(** Model of deepar/graph_analysis/*_topology.py and topology_manager.py. *)
From Coq Require Import List ZArith Arith Bool.
From Verif Require Import Base OrderingModel TensorModel.
Import ListNotations.

(** data_structures.py:4 [Dependency]. Locations here are within range, hence natural numbers. *)
Record dependency := { input_index : nat; spatial_location : loc }.
Definition dep0 (l : loc) : dependency := {| input_index := 0; spatial_location := l |}.

(** [dependencies_values[0]]. *)
Definition first_value {V} (values : list V) : res V :=
  match values with [] => Err IndexError | v :: _ => Ok v end.

(** Python list indexing with a possibly negative index. *)
Definition py_index (len : nat) (i : Z) : res nat :=
  if ((0 <=? i) && (i <? Z.of_nat len))%Z then Ok (Z.to_nat i)
  else if ((- Z.of_nat len <=? i) && (i <? 0))%Z then Ok (Z.to_nat (i + Z.of_nat len))
  else Err IndexError.

(** * convolutional_topology.py *)

(** 32-41 [get_spatial_dependency]. *)
Definition conv_dependencies {T} (c : conv T) (l : loc) : list dependency :=
  map (fun w => dep0 (map2 Nat.add (map2 Nat.mul w (dilation_rate c)) (map2 Nat.mul l (strides c))))
      (raster (kernel_size c)).

(** 20-30 [apply_layer_for_single_spatial_location]: the dependency values are stacked, flattened to one row and
    multiplied by the kernel reshaped to [-1, filters]; matmul of a row and a matrix. *)
Definition conv_apply {T} (zero : T) (add mul : T -> T -> T) (c : conv T) (values : list (list T)) : list T :=
  let flat_input := concat values in
  let results := map (fun f => fold_right add zero
    (map (fun k => mul (nth k flat_input zero) (nth (k * filters c + f) (kernel c) zero)) (range (length flat_input))))
    (range (filters c)) in
  let results := match bias c with None => results | Some b => map2 add results b end in
  activation c results.

(** * padding_topology.py *)

(** 14-17: the padding attribute of ZeroPadding1D is one tuple, of 2D/3D a tuple of tuples. *)
Inductive zero_pad_arg := Pad1D (p : nat * nat) | PadND (p : list (nat * nat)).
Definition zero_pad_tuples (p : zero_pad_arg) : list (nat * nat) :=
  match p with Pad1D q => [q] | PadND q => q end.

(** 25-28: does some location lie outside the copied region? (zip stops at the shortest.) *)
Fixpoint padding_outside (l : loc) (padding : list (nat * nat)) (input_shape : list nat) : bool :=
  match l, padding, input_shape with
  | i :: l', (prefix, _) :: p', n :: s' =>
      if (i <? prefix) || (n <=? i - prefix) then true else padding_outside l' p' s'
  | _, _, _ => false
  end.

(** 24-31 [PaddingTopology.get_spatial_dependency]. *)
Definition padding_dependencies (p : zero_pad_arg) (input_shape : list nat) (l : loc) : list dependency :=
  if padding_outside l (zero_pad_tuples p) input_shape then []
  else [dep0 (map2 Nat.sub l (map fst (zero_pad_tuples p)))].

(** 19-22 [PaddingTopology.apply_layer_for_single_spatial_location]; without dependencies the caller passes the
    batch size, which is not a list. *)
Definition padding_apply {V} (zero : V) (values : list V) : res V :=
  match values with [] => Ok zero | v :: _ => Ok v end.

(** 48-51 [PeriodicPaddingTopology.get_spatial_dependency]; python's % of a negative number. A dimension of size 0
    has no locations. *)
Fixpoint periodic_loc (l : loc) (padding : list pad_entry) (input_shape : list nat) : loc :=
  match l, padding, input_shape with
  | i :: l', p :: p', n :: s' =>
      Z.to_nat ((Z.of_nat i - Z.of_nat (pad_before p)) mod Z.of_nat n) :: periodic_loc l' p' s'
  | _, _, _ => []
  end.
Definition periodic_dependencies (padding : list pad_entry) (input_shape : list nat) (l : loc) : list dependency :=
  [dep0 (periodic_loc l padding input_shape)].

(** * masking_topology.py *)

(** 16-20 and 32-36: DownShift is [d = 0], RightShift is [d = 1]; a missing coordinate raises IndexError. *)
Definition shift_dependencies (d : nat) (l : loc) : res (list dependency) :=
  match nth_error l d with
  | None => Err IndexError
  | Some 0 => Ok []
  | Some (S i) => Ok [dep0 (firstn d l ++ [i] ++ skipn (S d) l)]
  end.
(** 10-14, 26-30. *)
Definition shift_apply {V} (zero : V) (d : nat) (l : loc) (values : list V) : res V :=
  match nth_error l d with
  | None => Err IndexError
  | Some 0 => Ok zero
  | Some _ => first_value values
  end.

(** * one_to_one_topology.py *)

(** 22-29 [_broadcast_spatial_location]; the input has [sizes]; a location with more dimensions raises IndexError. *)
Fixpoint broadcast_spatial_location (sizes : list nat) (l : loc) : res loc :=
  match l with
  | [] => Ok []
  | i :: l' =>
      match sizes with
      | [] => Err IndexError
      | n :: s' => do r <- broadcast_spatial_location s' l';
                   Ok (if i <? n then i :: r else if n =? 1 then 0 :: r else r)
      end
  end.
(** 37-42 [get_spatial_dependency]; [sizes] are the spatial sizes of the inputs. *)
Fixpoint one_to_one_from (i : nat) (sizes : list (list nat)) (l : loc) : res (list dependency) :=
  match sizes with
  | [] => Ok []
  | s :: r => do b <- broadcast_spatial_location s l;
              do ds <- one_to_one_from (S i) r l;
              Ok ({| input_index := i; spatial_location := b |} :: ds)
  end.
Definition one_to_one_dependencies (sizes : list (list nat)) (l : loc) : res (list dependency) :=
  one_to_one_from 0 sizes l.

(** 15-20: the spatial size stored for a single input tensor of full shape (without batch) [input_shape]; only
    ExpandInputDim counts a missing feature dimension. *)
Definition stored_input_size (expand_input_dim : bool) (input_shape : list nat) : list nat :=
  removelast (if expand_input_dim then input_shape ++ [1] else input_shape).

(** * concatenate_topology.py *)

(** 13 [concat_on_spatial_axis]: [rank] is the rank of the inputs, batch and features included. *)
Definition concat_on_spatial_axis (axis : Z) (rank : nat) : bool :=
  negb ((axis =? -1)%Z || (axis =? 0)%Z || (axis =? Z.of_nat rank - 1)%Z).

(** 22-28: [loc[axis - 1]] is compared with and reduced by the sizes in turn; running out of inputs returns None,
    which the callers cannot iterate. *)
Fixpoint concat_spatial_from (i : nat) (axis : Z) (size_to_concat : list nat) (l : loc) : res (list dependency) :=
  match size_to_concat with
  | [] => Err TypeError
  | size :: r =>
      do k <- py_index (length l) (axis - 1);
      if nth k l 0 <? size then Ok [{| input_index := i; spatial_location := l |}]
      else concat_spatial_from (S i) axis r (upd l k (nth k l 0 - size))
  end.

(** 36-40 [get_spatial_dependency] for inputs of spatial shapes [shapes] and feature sizes [features];
    14: size[axis] of the full shapes (batch at position 0 is None, never used as a size when axis is spatial). *)
Definition concat_sizes (axis : Z) (shapes : list (list nat)) (features : list nat) : res (list nat) :=
  let fix go shapes features := match shapes, features with
    | s :: ss, f :: fs => let full := 0 :: s ++ [f] in
                          do k <- py_index (length full) axis;
                          do r <- go ss fs; Ok (nth k full 0 :: r)
    | _, _ => Ok []
    end in go shapes features.
Definition concat_dependencies (axis : Z) (shapes : list (list nat)) (features : list nat) (l : loc)
  : res (list dependency) :=
  let rank := 2 + length (hd [] shapes) in
  do sizes <- concat_sizes axis shapes features;
  if concat_on_spatial_axis axis rank then concat_spatial_from 0 axis sizes l
  else Ok (map (fun i => {| input_index := i; spatial_location := l |}) (range (length shapes))).

(** 16-20 [apply_layer_for_single_spatial_location] on values of rank 2 (batch and features, as the fast sampler
    passes them): the layer is applied with its own axis, which must exist in these. (axis 0 would concatenate the
    batches; it is rejected here.) *)
Definition concat_apply {T} (axis : Z) (rank : nat) (values : list (list T)) : res (list T) :=
  if concat_on_spatial_axis axis rank then first_value values
  else if ((axis =? -1) || (axis =? 1))%Z then Ok (concat values) else Err ValueError.

(** * gathering_topology.py *)

(** 12-15: [axis] after the correction of negative values (which adds instead of subtracting). [rank] counts batch
    and features. *)
Definition gather_topology_axis (axis : Z) (rank : nat) : Z :=
  if (axis <? 0)%Z then (Z.of_nat rank - axis)%Z else axis.
Definition features_gathering (axis : Z) (rank : nat) : bool :=
  (gather_topology_axis axis rank =? Z.of_nat rank - 1)%Z.

(** 22-29 [get_spatial_dependency]. *)
Definition gather_dependencies (axis : Z) (indices : list nat) (rank : nat) (l : loc) : res (list dependency) :=
  if features_gathering axis rank then Ok [dep0 l]
  else
    do k <- py_index (length l) (gather_topology_axis axis rank - 1);
    match nth_error indices (nth k l 0) with
    | None => Err IndexError
    | Some i => Ok [dep0 (upd l k i)]
    end.

(** 17-20 on values of rank 2: gathering features again uses the original axis, which only exists if it is 1. *)
Definition gather_apply {T} (zero : T) (axis : Z) (indices : list nat) (rank : nat) (values : list (list T))
  : res (list T) :=
  if features_gathering axis rank then
    do v <- first_value values;
    if (axis =? 1)%Z then Ok (map (fun i => nth i v zero) indices) else Err ValueError
  else first_value values.

(** * reshape_topology.py *)

(** 10-15 and 18-23, on integers because a -1 can survive in the shape. *)
Fixpoint to_flat_spatial_location (l : loc) (shape : list Z) (acc : Z) : Z :=
  match l, shape with
  | i :: l', f :: s' => to_flat_spatial_location l' s' (acc * f + Z.of_nat i)%Z
  | _, _ => acc
  end.
Fixpoint from_flat_rev (k : Z) (rev_shape : list nat) : list Z :=
  match rev_shape with
  | [] => []
  | f :: t => (k mod Z.of_nat f)%Z :: from_flat_rev (k / Z.of_nat f)%Z t
  end.
Definition from_flat_index_to_spatial_location (k : Z) (shape : list nat) : loc :=
  map Z.to_nat (rev (from_flat_rev k (rev shape))).

(** 29-42 [__init__]: the target shape (features last) it stores. [input_shape] is without batch. *)
Definition count_before (x : Z) (l : list Z) : nat :=
  (fix go l := match l with [] => 0 | a :: t => if (a =? x)%Z then 0 else S (go t) end) l.
Definition reshape_target (input_shape : list nat) (target : list Z) : res (list Z) :=
  let total := Z.of_nat (fold_right Nat.mul 1 input_shape) in
  let prod := fold_right Z.mul 1%Z target in
  do t <- (if existsb (Z.eqb (-1)) target then
             let idx := count_before (-1) target in
             if existsb (Z.eqb (-1)) (skipn (S idx) target) then Err GenericException
             else if negb (total mod prod =? 0)%Z then Err GenericException
             else Ok (target ++ [(- total / prod)%Z] ++ skipn (S idx) target)
           else Ok target);
  if (last t 0 =? Z.of_nat (last input_shape 0%nat))%Z then Ok t else Err GenericException.

(** 47-50 [get_spatial_dependency]. *)
Definition reshape_dependencies (input_shape : list nat) (target : list Z) (l : loc) : res (list dependency) :=
  do t <- reshape_target input_shape target;
  Ok [dep0 (from_flat_index_to_spatial_location (to_flat_spatial_location l (removelast t) 0) (removelast input_shape))].

(** The dependency graph calls get_spatial_dependency with the keyword output_index (dependency_graph.py:73-74,
    fast_autoregressive.py:67), which ReshapeTopology does not accept. *)
Definition reshape_dependencies_in_graph (input_shape : list nat) (target : list Z) (l : loc) : res (list dependency) :=
  do _t <- reshape_target input_shape target; Err TypeError.

(** * topology_manager.py *)

(** Layer classes and topology classes by name. A layer is an instance of a class, or a Wrapper around a layer, or
    already a topology object. *)
Inductive layer_obj (L : Type) := Instance (cls : L) | Wrapped (inner : layer_obj L) | TopologyObject (id : nat).
Arguments Instance {L}. Arguments Wrapped {L}. Arguments TopologyObject {L}.
Inductive topology_obj (L T : Type) := NewTopology (topology_class : T) (layer : L) | SameObject (id : nat).
Arguments NewTopology {L T}. Arguments SameObject {L T}.

(** 14-15 [register_layer_topology]: a dict assignment. *)
Definition registry (L T : Type) := list (L * T).
Fixpoint dict_set {L T} (eqb : L -> L -> bool) (d : registry L T) (k : L) (v : T) : registry L T :=
  match d with
  | [] => [(k, v)]
  | (k', v') :: t => if eqb k k' then (k', v) :: t else (k', v') :: dict_set eqb t k v
  end.
Fixpoint dict_get {L T} (eqb : L -> L -> bool) (d : registry L T) (k : L) : option T :=
  match d with
  | [] => None
  | (k', v) :: t => if eqb k k' then Some v else dict_get eqb t k
  end.
Definition register_all {L T} (eqb : L -> L -> bool) (history : list (L * T)) : registry L T :=
  fold_left (fun d kv => dict_set eqb d (fst kv) (snd kv)) history [].

(** 17-27 [get_layer_topology]. *)
Fixpoint get_layer_topology {L T} (eqb : L -> L -> bool) (d : registry L T) (layer : layer_obj L)
  : res (topology_obj L T) :=
  match layer with
  | Wrapped inner => get_layer_topology eqb d inner
  | Instance cls => match dict_get eqb d cls with
                    | Some topology_class => Ok (NewTopology topology_class cls)
                    | None => Err UnsupportedLayer
                    end
  | TopologyObject id => Ok (SameObject id)
  end.
