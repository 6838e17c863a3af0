(** What derivatives mean for a graph: specification for AutodiffProps.v. *)
From Coq Require Import List Arith Bool Reals.
From Verif Require Import Base Cplx AutodiffModel.
Import ListNotations.

(** The nodes an operation reads. *)
Definition arguments (o : op) : list nat :=
  match o with
  | Input _ | Const _ => []
  | Add a b | Mul a b | MakeComplex a b => [a; b]
  | Conj a | RealPart a | ImagPart a | Holomorphic _ _ a | RealFunction _ _ a => [a]
  end.
(** Every operation reads earlier nodes only. *)
Definition well_formed (h : graph) : Prop := forall i, i < length h -> Forall (fun a => a < i) (arguments (nth i h (Const C0))).
Definition in_graph (h : graph) (l : list nat) : Prop := Forall (fun i => i < length h) l.
(** [h'] is [h] with nodes added at the end. *)
Definition extends (h h' : graph) : Prop := exists k, h' = h ++ k.
(** Node [y] depends on node [x]. *)
Inductive depends (h : graph) (x : nat) : nat -> Prop :=
| depends_self : depends h x x
| depends_through y a : y < length h -> In a (arguments (nth y h (Const C0))) -> depends h x a -> depends h x y.

(** The values of the nodes when [e i] is added to node [i]. *)
Definition perturbed (H : nat -> nat -> C -> C) (F : nat -> nat -> R -> R) (env e : nat -> C) (h : graph) : list C :=
  fold_left (fun v o => v ++ [(op_value H F env (fun i => nth i v C0) o + e (length v))%C]) h [].

(** The velocity of a curve at time 0. *)
Definition velocity (c : R -> C) (w : C) : Prop :=
  derivable_pt_lim (fun t => Re (c t)) 0 (Re w) /\ derivable_pt_lim (fun t => Im (c t)) 0 (Im w).
(** The complex derivative of [f] at [z] is [d]: a curve through [z] is mapped to a curve whose velocity is [d] times as large. *)
Definition derivative_at (f : C -> C) (z d : C) : Prop :=
  forall c w, c 0%R = z -> velocity c w -> velocity (fun t => f (c t)) (d * w)%C.
(** The elementwise functions have derivatives where they are used. *)
Definition smooth (H : nat -> nat -> C -> C) (F : nat -> nat -> R -> R) (h : graph) (v : list C) : Prop :=
  forall i, i < length h ->
    match nth i h (Const C0) with
    | Holomorphic f k a => derivative_at (H f k) (nth a v C0) (H f (S k) (nth a v C0))
    | RealFunction f k a => derivable_pt_lim (F f k) (Re (nth a v C0)) (F f (S k) (Re (nth a v C0)))
    | _ => True
    end.
(** Node [y] moves with velocity [w] when node [i] is moved with velocity [delta i]. *)
Definition moves (H : nat -> nat -> C -> C) (F : nat -> nat -> R -> R) (env : nat -> C) (h : graph) (delta : nat -> C) (y : nat) (w : C) : Prop :=
  velocity (fun t => nth y (perturbed H F env (fun i => (RtoC t * delta i)%C) h) C0) w.

(** Complex numbers as vectors in the plane. *)
Definition inner (a b : C) : R := (Re a * Re b + Im a * Im b)%R.
(** The value of a node, zero for None. *)
Definition value_or_zero (v : list C) (g : option nat) : C := match g with Some i => nth i v C0 | None => C0 end.
(** Moves node x with velocity [d] for every pair (x, d). *)
Definition along (pairs : list (nat * C)) (i : nat) : C := Csum snd (filter (fun p => fst p =? i) pairs).

(** Real and imaginary parts, in turn. *)
Definition parts (ds : list C) : list C := flat_map (fun d => [RtoC (Re d); RtoC (Im d)]) ds.
(** A row of a jacobian times a column. *)
Definition linear (n : nat) (row ds : list C) : C := Csum (fun k => (nth k row C0 * nth k ds C0)%C) (range n).
(** [weights] holds the real and the imaginary part of [n] complex numbers in turn. When these move with velocities [ds], every y moves with velocity row times [ds]: *)
Definition jacobian (H : nat -> nat -> C -> C) (F : nat -> nat -> R -> R) (env : nat -> C) (h : graph) (ys weights : list nat) (n : nat) (O : list (list C)) : Prop :=
  forall ds, length ds = n -> forall b, b < length ys -> moves H F env h (along (combine weights (parts ds))) (nth b ys 0) (linear n (nth b O []) ds).
(** and here with row times the conjugates, as the layers keep the conjugates of their weights (layers/complex/base_layer.py:29-35). *)
Definition conjugate_jacobian (H : nat -> nat -> C -> C) (F : nat -> nat -> R -> R) (env : nat -> C) (h : graph) (ys weights : list nat) (n : nat) (O : list (list C)) : Prop :=
  forall ds, length ds = n -> forall b, b < length ys -> moves H F env h (along (combine weights (parts ds))) (nth b ys 0) (linear n (nth b O []) (map Cconj ds)).
