(** Model of src/flowket/deepar/ordering/*.py and of the flat gather used with these orderings. *)
From Coq Require Import List ZArith Lia Arith Bool.
From Verif Require Import Base.
Import ListNotations.

(** A location is the tuple of its coordinates. *)
Notation loc := (list nat).

(** deepar/ordering/raster.py:4-5 [raster]: itertools.product over the ranges of the dimensions. *)
Fixpoint raster (input_size : list nat) : list loc :=
  match input_size with
  | [] => [[]]
  | d :: t => flat_map (fun i => map (cons i) (raster t)) (range d)
  end.

(** deepar/ordering/flat.py:3-6, inner loop for one location: [current_idx *= dim_size; += dim_idx] over
    [zip(i, shape)] (the shorter of the two decides). *)
Fixpoint flat_loop (l : loc) (shape : list nat) (current_idx : nat) : nat :=
  match l, shape with
  | dim_idx :: l', dim_size :: shape' => flat_loop l' shape' (current_idx * dim_size + dim_idx)
  | _, _ => current_idx
  end.

(** deepar/ordering/flat.py:1-7 [to_flat_ordering]: the generated sequence. *)
Definition to_flat_ordering (ordering : list loc) (shape : list nat) : list nat :=
  map (fun i => flat_loop i shape 0) ordering.

(** An ordering argument is either a list ([zigzag]) or a one-shot iterator without length ([raster]). *)
Inductive ordering_arg :=
| OList (l : list loc)
| OIterator (l : list loc).

(** deepar/ordering/flat.py:12-13: [for i, p in enumerate(...): inversed_order[p] = i]; an index beyond the
    list raises IndexError. *)
Fixpoint inverse_loop (flat : list nat) (i : nat) (inversed : list nat) : res (list nat) :=
  match flat with
  | [] => Ok inversed
  | p :: t => if p <? length inversed then inverse_loop t (S i) (upd inversed p i) else Err IndexError
  end.

(** deepar/ordering/flat.py:10-14 [to_flat_inverse_ordering]; [len] of an iterator raises TypeError. *)
Definition to_flat_inverse_ordering (ordering : ordering_arg) (shape : list nat) : res (list nat) :=
  match ordering with
  | OIterator _ => Err TypeError
  | OList l => inverse_loop (to_flat_ordering l shape) 0 (repeat 0 (length l))
  end.

(** deepar/layers/gathering.py:11-12 [GatherLayer.call] on one axis: [tensorflow.gather(x, indices)];
    an index beyond the axis is an error. *)
Fixpoint gather {A} (x : list A) (indices : list nat) : res (list A) :=
  match indices with
  | [] => Ok []
  | i :: t => match nth_error x i with
              | None => Err IndexError
              | Some v => do r <- gather x t; Ok (v :: r)
              end
  end.

(** * zigzag *)
Local Open Scope Z_scope.

(** deepar/ordering/moves.py: the moves used by zigzag; arguments are (x, y), results are (y, x). *)
Inductive move := Right | Down | DownLeft | UpRight.
Definition move_eqb (a b : move) : bool :=
  match a, b with
  | Right, Right | Down, Down | DownLeft, DownLeft | UpRight, UpRight => true
  | _, _ => false
  end.
Definition apply_move (m : move) (x y : Z) : Z * Z :=
  match m with
  | Right => (y, x + 1)        (* moves.py:13-14 *)
  | Down => (y + 1, x)         (* moves.py:5-6 *)
  | UpRight => (y - 1, x + 1)  (* moves.py:17-18 *)
  | DownLeft => (y + 1, x - 1) (* moves.py:29-30 *)
  end.

(** deepar/ordering/zigzag.py:14-27, one iteration of the loop: the next value of [move]. [s0], [s1] are
    [input_size[0]], [input_size[1]]. *)
Definition next_move (s0 s1 : Z) (mv : move) (y x : Z) : move :=
  let mv := if move_eqb mv Right then (if y + 1 <? s0 then DownLeft else UpRight)
            else if move_eqb mv Down then (if x + 1 <? s1 then UpRight else DownLeft)
            else mv in
  let mv := if move_eqb mv DownLeft then
              let can_down := y + 1 <? s0 in
              let m := if (0 <? x) && can_down then DownLeft else Down in
              if negb can_down then Right else m
            else mv in
  if move_eqb mv UpRight then
    let can_right := x + 1 <? s1 in
    let m := if can_right && (0 <? y) then UpRight else Right in
    if negb can_right then Down else m
  else mv.

(** deepar/ordering/zigzag.py:12-28, the while loop; each iteration appends exactly one cell, so the number
    of iterations is [total_size - len(order)]. Returns the appended cells. *)
Fixpoint zigzag_loop (k : nat) (s0 s1 : Z) (mv : move) (y x : Z) : list (Z * Z) :=
  match k with
  | O => []
  | S k' =>
      let mv' := next_move s0 s1 mv y x in
      let '(y', x') := apply_move mv' x y in
      (y', x') :: zigzag_loop k' s0 s1 mv' y' x'
  end.

(** deepar/ordering/zigzag.py:6-29 [zigzag]. *)
Definition zigzag (input_size : list nat) : res (list (Z * Z)) :=
  match input_size with
  | [s0; s1] =>
      if (s0 =? s1)%nat then
        Ok ([(0, 0); (0, 1)] ++ zigzag_loop (s0 * s1 - 2) (Z.of_nat s0) (Z.of_nat s1) Right 0 1)
      else Err ValueError
  | _ => Err ValueError
  end.
