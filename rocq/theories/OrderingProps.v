(** Properties C05, C06, C07 (deepar/ordering). *)
From Coq Require Import List ZArith Lia Arith Bool Permutation.
From Verif Require Import Base OrderingModel OrderingSpec OrderingProofs.
Import ListNotations.

(** C05: flattening the raster ordering counts the sites from 0 in row-major order. *)
Theorem C05_raster_flat : forall shape : list nat,
  to_flat_ordering (raster shape) shape = seq 0 (volume shape).
Proof. exact raster_flat. Qed.
Print Assumptions C05_raster_flat.
Example C05_raster_flat_ex : raster [2; 3] = [[0;0];[0;1];[0;2];[1;0];[1;1];[1;2]].
Proof. reflexivity. Qed.

(** C05: raster visits every location exactly once. *)
Theorem C05_raster_is_ordering : forall shape : list nat, ordering_of shape (raster shape).
Proof. exact raster_ordering. Qed.
Print Assumptions C05_raster_is_ordering.

(** C05: the flat index of any location of the grid is its row-major index. *)
Theorem C05_flat_index : forall (shape l : list nat), in_shape shape l ->
  to_flat_ordering [l] shape = [row_major shape l].
Proof. exact flat_index. Qed.
Print Assumptions C05_flat_index.
Example C05_flat_index_ex : in_shape [2; 3; 4] [1; 2; 3] /\ row_major [2; 3; 4] [1; 2; 3] = 23.
Proof. split; [repeat constructor | reflexivity]. Qed.

(** C06: zigzag visits every cell of the square exactly once, by neighbouring cells, from corner to corner. *)
Theorem C06_zigzag_visits_every_cell : forall n : nat, 2 <= n ->
  exists l, zigzag [n; n] = Ok l /\ NoDup l /\ (forall c, In c l <-> in_square (Z.of_nat n) c) /\
    consecutive neighbours l /\ hd_error l = Some (0, 0)%Z /\
    last l (0, 0)%Z = (Z.of_nat n - 1, Z.of_nat n - 1)%Z.
Proof. exact zigzag_visits. Qed.
Print Assumptions C06_zigzag_visits_every_cell.
Example C06_zigzag_ex :
  zigzag [3; 3] = Ok [(0,0);(0,1);(1,0);(2,0);(1,1);(0,2);(1,2);(2,1);(2,2)]%Z.
Proof. reflexivity. Qed.

(** C06: everything that is not a two dimensional square is rejected. *)
Theorem C06_zigzag_rejects_non_squares : forall shape : list nat,
  (forall n, shape <> [n; n]) -> zigzag shape = Err ValueError.
Proof. exact zigzag_rejects. Qed.
Print Assumptions C06_zigzag_rejects_non_squares.
Example C06_zigzag_rejects_ex : forall n, [2; 3] <> [n; n].
Proof. intros n E. injection E. lia. Qed.

(** C06: on the 1 x 1 square the returned walk leaves the grid, so "zigzag visits the cells of every square"
    is false for N = 1. *)
Theorem C06_zigzag_single_cell_refuted :
  exists l, zigzag [1; 1] = Ok l /\ exists c, In c l /\ ~ in_square 1 c.
Proof. exact zigzag_one. Qed.
Print Assumptions C06_zigzag_single_cell_refuted.

(** C07: for a list ordering the inverse is always computed, gathering by the ordering and then by the
    inverse gives the tensor back ... *)
Theorem C07_gather_then_inverse : forall (A : Type) (shape : list nat) (o : list (list nat)) (x : list A),
  ordering_of shape o -> length x = volume shape ->
  exists inv y, to_flat_inverse_ordering (OList o) shape = Ok inv /\
    gather x (to_flat_ordering o shape) = Ok y /\ length y = volume shape /\ gather y inv = Ok x.
Proof. exact @gather_then_inverse. Qed.
Print Assumptions C07_gather_then_inverse.
Example C07_ordering_ex : ordering_of [2; 2] [[0;0];[0;1];[1;0];[1;1]].
Proof. exact (raster_ordering [2; 2]). Qed.

(** ... and so does gathering by the inverse first. *)
Theorem C07_inverse_then_gather : forall (A : Type) (shape : list nat) (o : list (list nat)) (x : list A),
  ordering_of shape o -> length x = volume shape ->
  exists inv y, to_flat_inverse_ordering (OList o) shape = Ok inv /\
    gather x inv = Ok y /\ length y = volume shape /\ gather y (to_flat_ordering o shape) = Ok x.
Proof. exact @inverse_then_gather. Qed.
Print Assumptions C07_inverse_then_gather.
Example C07_inverse_then_gather_ex : ordering_of [2; 2] [[0;0];[0;1];[1;0];[1;1]] /\ length [10; 20; 30; 40] = volume [2; 2] /\
  to_flat_inverse_ordering (OList [[1;1];[0;0];[0;1];[1;0]]) [2; 2] = Ok [1; 2; 3; 0] /\ gather [10; 20; 30; 40] [1; 2; 3; 0] = Ok [20; 30; 40; 10] /\
  gather [20; 30; 40; 10] (to_flat_ordering [[1;1];[0;0];[0;1];[1;0]] [2; 2]) = Ok [10; 20; 30; 40].
Proof. split; [exact (raster_ordering [2; 2])|]. split; [|split; [|split]]; vm_compute; reflexivity. Qed.

(** C07: what the intermediate tensor holds: position k holds the value of the k-th visited site. *)
Theorem C07_gather_meaning :
  forall (A : Type) (shape : list nat) (o : list (list nat)) (x y : list A) (k : nat) (l : list nat),
  ordering_of shape o -> length x = volume shape -> gather x (to_flat_ordering o shape) = Ok y ->
  nth_error o k = Some l -> nth_error y k = nth_error x (row_major shape l).
Proof. exact @gather_meaning. Qed.
Print Assumptions C07_gather_meaning.
Example C07_gather_meaning_ex : gather [10; 20; 30; 40] (to_flat_ordering [[1;1];[0;0];[0;1];[1;0]] [2; 2]) = Ok [40; 10; 20; 30] /\
  nth_error [[1;1];[0;0];[0;1];[1;0]] 0 = Some [1; 1] /\ row_major [2; 2] [1; 1] = 3.
Proof. split; [|split]; vm_compute; reflexivity. Qed.

(** C07: the result of [raster] itself (an iterator) cannot be inverted: the call raises TypeError. *)
Theorem C07_inverse_of_raster_iterator_refuted : forall shape : list nat,
  to_flat_inverse_ordering (OIterator (raster shape)) shape = Err TypeError.
Proof. exact (fun shape => eq_refl). Qed.
Print Assumptions C07_inverse_of_raster_iterator_refuted.
