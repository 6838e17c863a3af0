(** Tensors of one example: a spatial shape and a feature value at every location. The batch dimension is left
    out, every layer treats the examples of a batch alike. The tensorflow operations used by the FlowKet layers,
    on spatial axis [d] (tensor axis d + 1), follow the tensorflow documentation.
    Also: the layers of deepar/layers/padding.py, masking.py, gathering.py and the Keras layers that have a
    topology. *)
From Coq Require Import List ZArith Arith Bool.
From Verif Require Import Base OrderingModel.
Import ListNotations.

Record tensor (V : Type) := { tshape : list nat; tval : loc -> V }.
Arguments tshape {V}. Arguments tval {V}.

(** Insert or remove the coordinate number [d]. *)
Definition insert_nth {A} (d : nat) (x : A) (l : list A) : list A := firstn d l ++ x :: skipn d l.
Definition remove_nth {A} (d : nat) (l : list A) : list A := firstn d l ++ skipn (S d) l.

(** tensorflow.unstack: the list of slices along an axis. *)
Definition unstack {V} (t : tensor V) (d : nat) : list (tensor V) :=
  map (fun i => {| tshape := remove_nth d (tshape t); tval := fun l => tval t (insert_nth d i l) |})
      (range (nth d (tshape t) 0)).

(** tensorflow.stack along a new axis; an empty list is an error. *)
Definition stack {V} (ts : list (tensor V)) (d : nat) : res (tensor V) :=
  match ts with
  | [] => Err ValueError
  | t0 :: _ => Ok {| tshape := insert_nth d (length ts) (tshape t0);
                     tval := fun l => tval (nth (nth d l 0) ts t0) (remove_nth d l) |}
  end.

(** tensorflow.concat of two tensors along an existing axis. *)
Definition concat2 {V} (d : nat) (a b : tensor V) : tensor V :=
  let na := nth d (tshape a) 0 in
  {| tshape := upd (tshape a) d (na + nth d (tshape b) 0);
     tval := fun l => if nth d l 0 <? na then tval a l else tval b (upd l d (nth d l 0 - na)) |}.

(** tensorflow.concat of a list; an empty list is an error. *)
Fixpoint concat_from {V} (d : nat) (t : tensor V) (ts : list (tensor V)) : tensor V :=
  match ts with [] => t | t' :: r => concat2 d t (concat_from d t' r) end.
Definition tf_concat {V} (d : nat) (ts : list (tensor V)) : res (tensor V) :=
  match ts with [] => Err ValueError | t :: r => Ok (concat_from d t r) end.

(** A constant tensor whose axis [d] has size [n] and whose other axes are those of [t] (tensorflow.zeros_like of
    a slice). *)
Definition constant_like {V} (d n : nat) (zero : V) (t : tensor V) : tensor V :=
  {| tshape := upd (tshape t) d n; tval := fun _ => zero |}.

(** tensorflow.slice starting at 0 on every axis, of length [n] on axis [d] and everything on the others. *)
Definition take_first {V} (d n : nat) (t : tensor V) : tensor V :=
  {| tshape := upd (tshape t) d n; tval := tval t |}.

(** * Layers *)

(** deepar/layers/masking.py:8-15 [shift] on spatial axis [d] (down_shift: d = 0, right_shift: d = 1). *)
Definition shift {V} (zero : V) (d : nat) (t : tensor V) : tensor V :=
  let upper_slice := take_first d (nth d (tshape t) 0 - 1) t in
  let lower_slice := take_first d 1 t in
  concat2 d (constant_like d 1 zero lower_slice) upper_slice.

(** Keras ZeroPadding1D/2D/3D: tensorflow.pad, zeros concatenated before and after each spatial axis in turn. *)
Fixpoint zero_padding_from {V} (zero : V) (d : nat) (padding : list (nat * nat)) (t : tensor V) : tensor V :=
  match padding with
  | [] => t
  | (before, after) :: r =>
      zero_padding_from zero (S d) r
        (concat2 d (concat2 d (constant_like d before zero t) t) (constant_like d after zero t))
  end.
Definition zero_padding {V} (zero : V) (padding : list (nat * nat)) (t : tensor V) : tensor V :=
  zero_padding_from zero 0 padding t.

(** An entry of the padding argument of PeriodicPadding: an int or a tuple (before, after). *)
Inductive pad_entry := PInt (n : nat) | PPair (before after : nat).
Definition pad_before (p : pad_entry) : nat := match p with PInt n => n | PPair b _ => b end.
Definition pad_after (p : pad_entry) : nat := match p with PInt n => n | PPair _ a => a end.

(** deepar/layers/padding.py:21-35 [PeriodicPadding.call]. [x_unstacked[-before:]] is the whole list when before
    exceeds its length. *)
Fixpoint periodic_padding_from {V} (d : nat) (padding : list pad_entry) (t : tensor V) : res (tensor V) :=
  match padding with
  | [] => Ok t
  | p :: r =>
      match p with
      | PInt 0 => periodic_padding_from (S d) r t
      | _ =>
          let x_unstacked := unstack t d in
          let pre := if 0 <? pad_before p then skipn (length x_unstacked - pad_before p) x_unstacked else [] in
          let post := if 0 <? pad_after p then firstn (pad_after p) x_unstacked else [] in
          do t1 <- stack ((pre ++ x_unstacked) ++ post) d;
          periodic_padding_from (S d) r t1
      end
  end.
Definition periodic_padding {V} (padding : list pad_entry) (t : tensor V) : res (tensor V) :=
  periodic_padding_from 0 padding t.

(** deepar/layers/gathering.py:11-12 [GatherLayer.call] along spatial axis [d]: tensorflow.gather; an index outside
    the axis is an error. *)
Definition gather_axis {V} (d : nat) (indices : list nat) (t : tensor V) : res (tensor V) :=
  if forallb (fun i => i <? nth d (tshape t) 0) indices then
    Ok {| tshape := upd (tshape t) d (length indices);
          tval := fun l => tval t (upd l d (nth (nth d l 0) indices 0)) |}
  else Err IndexError.

(** Element-wise merge layers (Add, Subtract, Average, ...) and single input layers acting on the features of each
    location: numpy broadcasting of equal ranks, an axis of size 1 is repeated. *)
Definition broadcast_loc (shape : list nat) (l : loc) : loc := map2 (fun n i => if n =? 1 then 0 else i) shape l.
Definition merge {V W} (f : list V -> W) (ts : list (tensor V)) (out_shape : list nat) : tensor W :=
  {| tshape := out_shape; tval := fun l => f (map (fun t => tval t (broadcast_loc (tshape t) l)) ts) |}.

(** Keras Reshape that keeps the features: row-major order of the locations is kept. *)
Fixpoint unravel (shape : list nat) (k : nat) : loc :=
  match shape with
  | [] => []
  | _ :: t => let v := fold_right Nat.mul 1 t in (k / v) :: unravel t (k mod v)
  end.
Definition reshape {V} (new_shape : list nat) (t : tensor V) : tensor V :=
  {| tshape := new_shape; tval := fun l => tval t (unravel (tshape t) (flat_loop l new_shape 0)) |}.

(** Keras Conv1D/2D/3D and ComplexConv1D/2D/3D with padding='valid'. The kernel tensor of shape
    kernel_size ++ [channels; filters] is given by its row-major data. [T] is the type of the numbers. *)
Record conv (T : Type) := {
  kernel_size : list nat; strides : list nat; dilation_rate : list nat;
  channels : nat; filters : nat; kernel : list T; bias : option (list T); activation : list T -> list T
}.
Arguments kernel_size {T}. Arguments strides {T}. Arguments dilation_rate {T}. Arguments channels {T}.
Arguments filters {T}. Arguments kernel {T}. Arguments bias {T}. Arguments activation {T}.

(** Location l * strides + w * dilation. *)
Definition conv_loc {T} (c : conv T) (l w : loc) : loc :=
  map2 Nat.add (map2 Nat.mul l (strides c)) (map2 Nat.mul w (dilation_rate c)).

(** Size of a valid convolution along one axis: the number of positions where the dilated kernel fits. *)
Definition conv_size (n k s d : nat) : nat :=
  if n <? (k - 1) * d + 1 then 0 else (n - ((k - 1) * d + 1)) / s + 1.
Fixpoint conv_shape (ns ks ss ds : list nat) : list nat :=
  match ns, ks, ss, ds with
  | n :: ns, k :: ks, s :: ss, d :: ds => conv_size n k s d :: conv_shape ns ks ss ds
  | _, _, _, _ => []
  end.

(** The convolution: output feature f at l is the sum over kernel locations w and channels c of
    input(l*s + w*d)_c * kernel[w, c, f], plus the bias, through the activation (which acts on the features of one
    location). *)
Definition conv_output {T} (zero : T) (add mul : T -> T -> T) (c : conv T) (t : tensor (list T)) : tensor (list T) :=
  let total := fold_right add zero in
  {| tshape := conv_shape (tshape t) (kernel_size c) (strides c) (dilation_rate c);
     tval := fun l =>
       let linear := map (fun f =>
         total (flat_map (fun w =>
           map (fun ch => mul (nth ch (tval t (conv_loc c l w)) zero)
                              (nth (flat_loop (w ++ [ch; f]) (kernel_size c ++ [channels c; filters c]) 0) (kernel c) zero))
               (range (channels c))) (raster (kernel_size c)))) (range (filters c)) in
       let biased := match bias c with None => linear | Some b => map2 add linear b end in
       activation c biased |}.
