(** Independent description of the updates when windows of gradients and batches are out of step. *)
From Coq Require Import List Reals Arith.
From Verif Require Import Base Cplx Vec TrainingModel TrainingSpec StageTrainingModel.
Import ListNotations.

(** The mini batch number [q] of a batch. *)
Definition mini_batch {X} (m q : nat) (b : list X) : list X := firstn m (skipn (q * m) b).

(** [k] updates with [f] mini batches of [m] rows per batch when the first [f - r] mini batches complete a window that was begun before:
    the state of the optimizer, and the sum of the gradients that wait for the next update. Every update takes the waiting gradients and those of the first
    f - r mini batches of a new batch; the other [r] mini batches of that batch are evaluated after the update and wait. *)
Fixpoint shifted_updates {X S} (O : optimizer S) (d : nat) (c : R) (f r m : nat) (next_batch : nat -> list R -> list X)
    (sample_gradient : list R -> X -> list R) (waiting : list R) (s : S) (k : nat) : S * list R :=
  match k with
  | O => (s, waiting)
  | Datatypes.S j =>
      let '(t, rest) := shifted_updates O d c f r m next_batch sample_gradient waiting s j in
      let b := next_batch j (weights O t) in
      let g w q := vscale c (vscale (/ INR m) (vsum d (map (sample_gradient w) (mini_batch m q b)))) in
      let t' := apply_gradients O t (vadd rest (vsum d (map (g (weights O t)) (seq 0 (f - r))))) in
      (t', vsum d (map (g (weights O t')) (seq (f - r) r)))
  end.

(** Mini batches per batch, and mini batches in the stages before. *)
Definition frequency (mini B : nat) : nat := B / Nat.min mini B.
Fixpoint steps_before (mini : nat) (stages : list stage) : nat :=
  match stages with [] => 0 | st :: t => stage_updates st * frequency mini (stage_batch_size st) + steps_before mini t end.

(** The condition of train.py:100 for a stage. *)
Definition good_stage (mini : nat) (st : stage) : Prop :=
  0 < stage_batch_size st /\ (stage_batch_size st < mini \/ stage_batch_size st mod mini = 0).

(** Every stage starts when the number of mini batches seen is a multiple of its number of mini batches per batch. *)
Fixpoint aligned (mini seen : nat) (stages : list stage) : Prop :=
  match stages with
  | [] => True
  | st :: t => let f := frequency mini (stage_batch_size st) in
      seen mod f = 0 /\ aligned mini (seen + stage_updates st * f) t
  end.

(** Whole batch training through all stages; [scale f] is the factor of a stage with f mini batches per batch. *)
Fixpoint staged_training {X S} (O : nat -> optimizer S) (d mini : nat) (scale : nat -> R) (next_batch : nat -> nat -> list R -> list X)
    (sample_gradient : list R -> X -> list R) (idx : nat) (stages : list stage) (s : S) : S :=
  match stages with
  | [] => s
  | st :: t => staged_training O d mini scale next_batch sample_gradient (Datatypes.S idx) t
      (full_batch_training (O idx) d (scale (frequency mini (stage_batch_size st))) (next_batch idx) sample_gradient s (stage_updates st))
  end.

(** ... and with windows out of step: the gradients that wait are handed on. *)
Fixpoint shifted_stages {X S} (O : nat -> optimizer S) (d mini : nat) (sum : bool) (next_batch : nat -> nat -> list R -> list X)
    (sample_gradient : list R -> X -> list R) (idx seen : nat) (stages : list stage) (waiting : list R) (s : S) : S * list R :=
  match stages with
  | [] => (s, waiting)
  | st :: t => let f := frequency mini (stage_batch_size st) in
      let '(s', waiting') := shifted_updates (O idx) d (step_scale sum f) f (seen mod f) (Nat.min mini (stage_batch_size st)) (next_batch idx)
                               sample_gradient waiting s (stage_updates st) in
      shifted_stages O d mini sum next_batch sample_gradient (Datatypes.S idx) (seen + stage_updates st * f) t waiting' s'
  end.
