(** Model of optimization/mini_batch_generator.py, optimizers/accumulate_gradient_optimizer.py,
    deepar/samplers/base_sampler.py, deepar/samplers/ensemble.py and the batching loop of
    deepar/samplers/fast_autoregressive.py. *)
From Coq Require Import List Reals Arith Bool.
From Verif Require Import Base Cplx Vec.
Import ListNotations.

(** * Mini batches *)

(** A sample with its loss coefficient is one element of type [X]; x and y are sliced identically. *)
Record generator (X : Type) := {
  gen_batch_size : nat; gen_mini : nat; gen_freq : nat; gen_idx : nat;
  gen_data : list X;       (* self._x, self._y *)
  gen_fetched : nat        (* number of calls of next_batch so far *)
}.
Arguments gen_batch_size {X}. Arguments gen_mini {X}. Arguments gen_freq {X}. Arguments gen_idx {X}.
Arguments gen_data {X}. Arguments gen_fetched {X}.

(** [math.ceil(a / float(b))]; float division is exact enough for sizes below 2^53. *)
Definition ceil_div (a b : nat) : nat := (a + b - 1) / b.

(** mini_batch_generator.py:16-25 [set_batch_size]; a mini batch size of 0 makes the division fail. *)
Definition set_batch_size {X} (G : generator X) (batch_size : nat) (mini : option nat) : res (generator X) :=
  let mini := match mini with None => batch_size | Some m => m end in
  let mini := if batch_size <? mini then batch_size else mini in
  if mini =? 0 then Err ZeroDivisionError
  else Ok {| gen_batch_size := batch_size; gen_mini := mini; gen_freq := ceil_div batch_size mini;
             gen_idx := batch_size; gen_data := gen_data G; gen_fetched := gen_fetched G |}.

(** mini_batch_generator.py:7-9: a new generator. *)
Definition empty_generator {X} : generator X :=
  {| gen_batch_size := 0; gen_mini := 0; gen_freq := 0; gen_idx := 0; gen_data := []; gen_fetched := 0 |}.
Definition new_generator {X} (batch_size : nat) (mini : option nat) : res (generator X) :=
  set_batch_size empty_generator batch_size mini.

(** mini_batch_generator.py:27-32 [next_mini_batch_size]. [next_batch k] is what the [k]-th call of
    self.next_batch() returns now. *)
Definition next_mini_batch {X} (next_batch : nat -> list X) (G : generator X) : generator X * list X :=
  let fetch := gen_batch_size G <? gen_idx G + gen_mini G in
  let data := if fetch then next_batch (gen_fetched G) else gen_data G in
  let idx := if fetch then 0 else gen_idx G in
  let fetched := if fetch then S (gen_fetched G) else gen_fetched G in
  let idx := idx + gen_mini G in
  ({| gen_batch_size := gen_batch_size G; gen_mini := gen_mini G; gen_freq := gen_freq G; gen_idx := idx;
      gen_data := data; gen_fetched := fetched |},
   slice data (idx - gen_mini G) idx).

(** [n] consecutive mini batches (mini_batch_generator.py:34-45). *)
Fixpoint serve {X} (next_batch : nat -> list X) (G : generator X) (n : nat) : generator X * list (list X) :=
  match n with
  | O => (G, [])
  | S k => let '(G1, out) := serve next_batch G k in
           let '(G2, b) := next_mini_batch next_batch G1 in
           (G2, out ++ [b])
  end.

(** * Gradient accumulation *)
Local Open Scope R_scope.

(** The wrapped optimizer: its own state [S] (weights included), the weights, and one update with given
    gradients (orig_get_updates fed by updated_get_gradients). *)
Record optimizer (S : Type) := { weights : S -> list R; apply_gradients : S -> list R -> S }.
Arguments weights {S}. Arguments apply_gradients {S}.

Record accumulating (S : Type) := {
  acc_iterations : nat; acc_freq : nat; accumulators : list R; inner : S;
  total_iterations : nat; params_ema : list R
}.
Arguments acc_iterations {S}. Arguments acc_freq {S}. Arguments accumulators {S}. Arguments inner {S}.
Arguments total_iterations {S}. Arguments params_ema {S}.

(** accumulate_gradient_optimizer.py:13-26 and 55-58: frequencies below 1 are rejected; all variables start at
    zero. The parameters of the model are flattened into one vector. *)
Definition convert_to_accumulate {S} (O : optimizer S) (s : S) (freq : nat) : res (accumulating S) :=
  if (freq <? 1)%nat then Err ValueError
  else Ok {| acc_iterations := 0; acc_freq := freq; accumulators := vzero (length (weights O s)); inner := s;
             total_iterations := 0; params_ema := vzero (length (weights O s)) |}.

(** accumulate_gradient_optimizer.py:28-29. *)
Definition set_update_params_frequency {S} (A : accumulating S) (freq : nat) : accumulating S :=
  {| acc_iterations := acc_iterations A; acc_freq := freq; accumulators := accumulators A; inner := inner A;
     total_iterations := total_iterations A; params_ema := params_ema A |}.

(** accumulate_gradient_optimizer.py:54-82 [updated_get_updates], one training step with gradients [g] (those of
    the current weights). The modulus of a frequency set to 0 fails. [allreduce] is lines 34-52: the identity
    without horovod. The moving average reads the weights after the update (control dependency, line 67). *)
Definition train_step {S} (O : optimizer S) (sum : bool) (ema_decay : R) (allreduce : list R -> list R)
    (A : accumulating S) (g : list R) : res (accumulating S) :=
  let it := (acc_iterations A + 1)%nat in
  let g := if sum then g else map (fun x => x / INR (acc_freq A)) g in
  let acc := vadd (accumulators A) g in
  if (acc_freq A =? 0)%nat then Err ZeroDivisionError
  else if (it mod acc_freq A =? 0)%nat then
    let s := apply_gradients O (inner A) (allreduce acc) in
    let track := Rlt_dec 0 ema_decay in
    Ok {| acc_iterations := it; acc_freq := acc_freq A; accumulators := vzero (length acc); inner := s;
          total_iterations := if track then (total_iterations A + 1)%nat else total_iterations A;
          params_ema := if track then
                          map2 (fun e p => e * ema_decay + (1 - ema_decay) * p) (params_ema A) (weights O s)
                        else params_ema A |}
  else
    Ok {| acc_iterations := it; acc_freq := acc_freq A; accumulators := acc; inner := inner A;
          total_iterations := total_iterations A; params_ema := params_ema A |}.

(** accumulate_gradient_optimizer.py:31-32 [set_weights_ema]: the weights it stores. *)
Definition weights_from_ema {S} (ema_decay : R) (A : accumulating S) : list R :=
  map (fun e => e / (1 - ema_decay ^ total_iterations A)) (params_ema A).

(** Consecutive training steps; the gradient of step [n] is a function of the weights at that step. *)
Fixpoint train {S} (O : optimizer S) (sum : bool) (ema_decay : R) (allreduce : list R -> list R)
    (gradient : nat -> list R -> list R) (A : accumulating S) (n : nat) : res (accumulating S) :=
  match n with
  | O => Ok A
  | Datatypes.S k => do B <- train O sum ema_decay allreduce gradient A k;
           train_step O sum ema_decay allreduce B (gradient k (weights O (inner B)))
  end.

(** A training loop (fit_generator with workers=0, train.py:120-127): each step takes the next mini batch, whose
    new batch is drawn from the current weights, and hands the optimizer the mean over the mini batch of the
    per sample gradients (Keras averages the loss of loss.py over the mini batch). *)
Definition mean_gradient {X} (d : nat) (sample_gradient : list R -> X -> list R) (w : list R) (b : list X) : list R :=
  vscale (/ INR (length b)) (vsum d (map (sample_gradient w) b)).
Fixpoint fit {X S} (O : optimizer S) (sum : bool) (d : nat) (next_batch : nat -> list R -> list X)
    (sample_gradient : list R -> X -> list R) (G : generator X) (A : accumulating S) (n : nat)
  : res (generator X * accumulating S) :=
  match n with
  | O => Ok (G, A)
  | Datatypes.S k =>
      do r <- fit O sum d next_batch sample_gradient G A k;
      let '(G1, A1) := r in
      let w := weights O (inner A1) in
      let '(G2, b) := next_mini_batch (fun c => next_batch c w) G1 in
      do A2 <- train_step O sum 0 (fun v => v) A1 (mean_gradient d sample_gradient w b);
      Ok (G2, A2)
  end.

(** * Samplers *)
Local Close Scope R_scope.

(** base_sampler.py:12-18 [_set_batch_size]: (batch_size, mini_batch_size). *)
Definition sampler_sizes (batch_size : nat) (mini : option nat) : nat * nat :=
  let mini := match mini with None => batch_size | Some m => m end in
  (batch_size, if batch_size <? mini then batch_size else mini).

(** fast_autoregressive.py:30-35 [__next__]: [sampling k m] is what the [k]-th run of the sampling function
    returns for batch size [m]; [k] counts the runs so far. *)
Definition fast_next {X} (sampling : nat -> nat -> list X) (batch_size mini : nat) (k : nat) : res (nat * list X) :=
  if mini <? batch_size then
    if mini =? 0 then Err ZeroDivisionError
    else let m := batch_size / mini in
         Ok (k + m, concat (map (fun i => sampling (k + i) mini) (range m)))
  else Ok (k + 1, sampling k mini).

(** A member sampler: its batch_size and its __next__, acting on a common state (members may share objects). *)
Record member (S X : Type) := { member_batch : nat; member_next : S -> res (S * list X) }.
Arguments member_batch {S X}. Arguments member_next {S X}.

(** ensemble.py:9-12 [Ensemble.__init__]: the batch size; an empty list raises IndexError. *)
Definition ensemble_batch {S X} (members : list (member S X)) : res nat :=
  match members with
  | [] => Err IndexError
  | m :: _ => if forallb (fun x => member_batch x =? member_batch m) members
              then Ok (length members * member_batch m) else Err AssertionError
  end.

(** ensemble.py:14-15 [Ensemble.__next__]: members in turn, concatenated. *)
Fixpoint ensemble_next {S X} (members : list (member S X)) (s : S) : res (S * list X) :=
  match members with
  | [] => Ok (s, [])
  | m :: t => do r <- member_next m s;
              do rs <- ensemble_next t (fst r);
              Ok (fst rs, snd r ++ snd rs)
  end.
