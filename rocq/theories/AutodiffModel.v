(** Model of automatic differentiation as the optimizers use it: optimizers/utils.py:5-36 [forward_mode_gradients], optimizers/complex_values_optimizer.py:8-9 and 60-70
    and optimizers/stochastic_reconfiguration/optimizer.py:93-103 and 116-124. tf.gradients of TensorFlow 1.x is modelled as what it is, a function that adds nodes to a graph.
    A tensor is the set of its entries: a node is one real or complex number, so a matrix product is a number of products and sums. *)
From Coq Require Import List Arith Bool Reals.
From Verif Require Import Base Cplx.
Import ListNotations.

(** * Graphs *)

(** An operation and the nodes it takes as input. [Holomorphic f k] is the [k]-th derivative of an elementwise function of complex numbers (exp, log, tanh, ...),
    [RealFunction f k] of an elementwise function of real numbers (relu, ...). A real number is a complex number with imaginary part zero. Piecewise functions of complex
    numbers, angle and abs are left out. *)
Inductive op :=
| Input (i : nat)
| Const (c : C)
| Add (a b : nat)
| Mul (a b : nat)
| Conj (a : nat)
| RealPart (a : nat)
| ImagPart (a : nat)
| MakeComplex (a b : nat)
| Holomorphic (f k a : nat)
| RealFunction (f k a : nat).
(** Nodes in the order in which they were added; a node is known by its position. *)
Definition graph := list op.

Section Functions.
Context (H : nat -> nat -> C -> C) (F : nat -> nat -> R -> R).

(** What an operation returns, from the values of the nodes. *)
Definition op_value (env : nat -> C) (V : nat -> C) (o : op) : C :=
  match o with
  | Input i => env i
  | Const c => c
  | Add a b => (V a + V b)%C
  | Mul a b => (V a * V b)%C
  | Conj a => Cconj (V a)
  | RealPart a => (Re (V a), 0%R)
  | ImagPart a => (Im (V a), 0%R)
  | MakeComplex a b => (Re (V a), Re (V b))
  | Holomorphic f k a => H f k (V a)
  | RealFunction f k a => (F f k (Re (V a)), 0%R)
  end.
(** The values of all nodes when a session runs. *)
Definition evaluate (env : nat -> C) (h : graph) : list C :=
  fold_left (fun v o => v ++ [op_value env (fun i => nth i v C0) o]) h [].
End Functions.

(** * tf.gradients *)

(** The gradient functions that TensorFlow registers (math_grad.py): [g] is the gradient with respect to the result and [n] the number of the next node. The new nodes, and
    the gradient for every input. The RealPart of [RealFunction] is the identity on the real tensors that TensorFlow allows there. *)
Definition op_gradient (o : op) (g n : nat) : list op * list (nat * nat) :=
  match o with
  | Input _ | Const _ => ([], [])
  | Add a b => ([], [(a, g); (b, g)])
  | Mul a b => ([Conj b; Mul g n; Conj a; Mul g (n + 2)], [(a, n + 1); (b, n + 3)])
  | Conj a => ([Conj g], [(a, n)])
  | RealPart a => ([Const C0; MakeComplex g n], [(a, n + 1)])
  | ImagPart a => ([Const C0; MakeComplex n g], [(a, n + 1)])
  | MakeComplex a b => ([RealPart g; ImagPart g], [(a, n); (b, n + 1)])
  | Holomorphic f k a => ([Holomorphic f (S k) a; Conj n; Mul g (n + 1)], [(a, n + 2)])
  | RealFunction f k a => ([RealFunction f (S k) a; Mul g n; RealPart (n + 1)], [(a, n + 2)])
  end.

(** AddN: the sum of the gradients from all uses of a node; the new nodes and the node of the sum. *)
Fixpoint add_n (n first : nat) (rest : list nat) : list op * nat :=
  match rest with
  | [] => ([], first)
  | r :: t => let '(ops, total) := add_n (S n) n t in (Add first r :: ops, total)
  end.

(** Nodes [m]-1 down to 0: [pending] holds pairs of a node and a gradient with respect to it, [found] the nodes that were passed and their gradients. TensorFlow does not
    visit nodes that do not depend on the variables asked for; here they are visited, which adds nodes that nobody uses. *)
Fixpoint backward (m : nat) (pending found : list (nat * nat)) (h : graph) : graph * list (nat * nat) :=
  match m with
  | 0 => (h, found)
  | S i =>
      match map snd (filter (fun p => fst p =? i) pending) with
      | [] => backward i pending found h
      | g :: more =>
          let '(sums, total) := add_n (length h) g more in
          let '(ops, contributions) := op_gradient (nth i h (Const C0)) total (length h + length sums) in
          backward i (contributions ++ pending) ((i, total) :: found) (h ++ sums ++ ops)
      end
  end.

Fixpoint lookup (x : nat) (l : list (nat * nat)) : option nat :=
  match l with
  | [] => None
  | (i, g) :: t => if i =? x then Some g else lookup x t
  end.

(** tf.gradients(ys, xs, grad_ys): the larger graph and for every x a node, or None where no y depends on it. *)
Definition gradients (h : graph) (ys xs grad_ys : list nat) : graph * list (option nat) :=
  let '(h', found) := backward (length h) (combine ys grad_ys) [] h in (h', map (fun x => lookup x found) xs).

(** * optimizers/utils.py *)

(** utils.py:25-31: None is replaced by zeros. *)
Fixpoint fill_zeros (h : graph) (grads : list (option nat)) : graph * list nat :=
  match grads with
  | [] => (h, [])
  | Some g :: t => let '(h', l) := fill_zeros h t in (h', g :: l)
  | None :: t => let '(h', l) := fill_zeros (h ++ [Const C0]) t in (h', length h :: l)
  end.

(** utils.py:5-36 [forward_mode_gradients]. The placeholders hold nan, which no number of this model is: [nan] is any number, and C79_placeholders shows that it does not
    matter. [stop_gradients] is never given. *)
Definition forward_mode_gradients (nan : C) (h : graph) (ys xs grad_xs : list nat) : graph * list (option nat) :=
  let us := seq (length h) (length ys) in
  let '(h, dydxs) := gradients (h ++ repeat (Const nan) (length ys)) ys xs us in
  let '(h, dydxs) := fill_zeros h dydxs in
  gradients h dydxs us grad_xs.

(** * optimizers/complex_values_optimizer.py *)

(** complex_values_optimizer.py:8-9 [to_complex_tensors]: consecutive pairs. tf.complex(None, ...) raises ValueError; an odd gradient at the end is dropped. *)
Fixpoint to_complex_nodes (h : graph) (l : list (option nat)) : res (graph * list nat) :=
  match l with
  | Some r :: Some i :: t => do rest <- to_complex_nodes (h ++ [MakeComplex r i]) t; Ok (fst rest, length h :: snd rest)
  | _ :: _ :: _ => Err ValueError
  | _ => Ok (h, [])
  end.

(** complex_values_optimizer.py:60-63 [get_model_parameters_complex_value_gradients]. Without [grad_ys] the gradient of a real loss starts from one. *)
Definition complex_value_gradients (h : graph) (ys params : list nat) (grad_ys : option (list nat)) : res (graph * list nat) :=
  let '(h, grad_ys) := match grad_ys with
                       | Some l => (h, l)
                       | None => (h ++ repeat (Const C1) (length ys), seq (length h) (length ys))
                       end in
  let '(h, grads) := gradients h ys params grad_ys in
  to_complex_nodes h grads.

(** tf.math.reduce_sum of nodes: the new nodes and the node of the sum. *)
Definition reduce_sum (h : graph) (l : list nat) : graph * nat :=
  match l with
  | [] => (h ++ [Const C0], length h)
  | first :: rest => let '(ops, total) := add_n (length h) first rest in (h ++ ops, total)
  end.
(** tf.math.reduce_mean. *)
Definition reduce_mean (h : graph) (l : list nat) : graph * nat :=
  let '(h, total) := reduce_sum h l in
  (h ++ [Const (RtoC (/ INR (length l))); Mul total (length h)], S (length h)).
(** An operation applied to every entry of a tensor. *)
Definition elementwise {A} (f : A -> op) (h : graph) (l : list A) : graph * list nat := (h ++ map f l, seq (length h) (length l)).

(** stochastic_reconfiguration/optimizer.py:117-118: the mean of the real parts of the predictions [ys] and its gradient with respect to the variables. *)
Definition mean_gradient (h : graph) (ys weights : list nat) : res (graph * list nat) :=
  let '(h, parts) := elementwise RealPart h ys in
  let '(h, mean_pred) := reduce_mean h parts in
  complex_value_gradients h [mean_pred] weights None.

(** optimization/loss.py:4-5 [loss_for_energy_minimization], of which Keras takes the mean, and optimizer.py:94-99: the branch [use_energy_loss] of [get_energy_grad].
    The nodes of the conjugated gradient divided by two. *)
Definition energy_loss_gradient (h : graph) (ys targets weights : list nat) : res (graph * list nat) :=
  let '(h, products) := elementwise (fun p => Mul (fst p) (snd p)) h (combine ys targets) in
  let '(h, parts) := elementwise RealPart h products in
  let '(h, two) := (h ++ [Const (RtoC 2)], length h) in
  let '(h, losses) := elementwise (Mul two) h parts in
  let '(h, loss) := reduce_mean h losses in
  do grads <- complex_value_gradients h [loss] weights None;
  let '(h, grads) := grads in
  let '(h, conjugates) := elementwise Conj h grads in
  let '(h, half) := (h ++ [Const (RtoC (/ 2))], length h) in
  Ok (elementwise (fun c => Mul c half) h conjugates).

(** * stochastic_reconfiguration/optimizer.py *)

(** complex_values_optimizer.py:65-70 [get_predictions_jacobian_vector_product]: the real and imaginary parts of the vector are the directions for the weights. The order of
    the entries inside of the tensors (C48_direction) does not matter here: [weights] lists real and imaginary part of every complex weight in turn. *)
Definition jacobian_vector_product (nan : C) (h : graph) (ys weights vector : list nat) : graph * list (option nat) :=
  let '(h, grad_xs) := elementwise (fun o => o) h (flat_map (fun k => [RealPart k; ImagPart k]) vector) in
  forward_mode_gradients nan h ys weights grad_xs.

(** optimizer.py:116-124 [get_stochastic_reconfiguration_matrix_vector_product_via_jvp]; [weights] are the weights as they are stored and [conj_weights] the ones
    with the negated imaginary parts. None minus a tensor raises ValueError. *)
Definition product_via_jvp_nodes (nan : C) (h : graph) (ys weights conj_weights vector : list nat) (diag_shift : nat) : res (graph * list nat) :=
  do mean <- mean_gradient h ys weights;
  let '(h, mean_grad) := mean in
  let '(h, jvp) := jacobian_vector_product nan h ys conj_weights vector in
  if forallb (fun g => match g with Some _ => false | None => true end) jvp then Err ValueError else
  let '(h, jvp) := fill_zeros h jvp in
  let '(h, products) := elementwise (fun p => Mul (fst p) (snd p)) h (combine vector mean_grad) in
  let '(h, ok_remainder) := reduce_sum h products in
  let '(h, negative) := (h ++ [Const (RtoC (-1)); Mul ok_remainder (length h)], S (length h)) in
  let '(h, ok_v) := elementwise (fun y => Add y negative) h jvp in
  do vjp <- complex_value_gradients h ys conj_weights (Some ok_v);
  let '(h, vjp) := vjp in
  let '(h, scale) := (h ++ [Const (RtoC (/ INR (length ys)))], length h) in
  let '(h, quotients) := elementwise (fun g => Mul g scale) h vjp in
  let '(h, shifted) := elementwise (fun k => Mul k diag_shift) h vector in
  Ok (elementwise (fun p => Add (fst p) (snd p)) h (combine quotients shifted)).
