(** Independent specification of training with full windows of gradients. *)
From Coq Require Import List Reals Arith.
From Verif Require Import Base Cplx Vec TrainingModel.
Import ListNotations.
Local Open Scope R_scope.

(** The wrapped optimizer after [k] updates, update [j] using [c] times the sum of the [f] gradients numbered
    j*f ... j*f+f-1, all evaluated at the weights before the update. *)
Fixpoint window_updates {S} (O : optimizer S) (d f : nat) (c : R) (allreduce : list R -> list R)
    (gradient : nat -> list R -> list R) (s : S) (k : nat) : S :=
  match k with
  | O => s
  | Datatypes.S j =>
      let t := window_updates O d f c allreduce gradient s j in
      apply_gradients O t
        (allreduce (vsum d (map (fun i => vscale c (gradient (j * f + i)%nat (weights O t))) (seq 0 f))))
  end.

(** Plain training: update [k] uses [c] times the mean gradient of the whole [k]-th batch. *)
Fixpoint full_batch_training {X S} (O : optimizer S) (d : nat) (c : R) (next_batch : nat -> list R -> list X)
    (sample_gradient : list R -> X -> list R) (s : S) (k : nat) : S :=
  match k with
  | O => s
  | Datatypes.S j =>
      let t := full_batch_training O d c next_batch sample_gradient s j in
      let b := next_batch j (weights O t) in
      apply_gradients O t (vscale c (vscale (/ INR (length b)) (vsum d (map (sample_gradient (weights O t)) b))))
  end.

(** All gradient and weight vectors have [d] entries. *)
Definition sized {S} (O : optimizer S) (d : nat) (gradient : nat -> list R -> list R) : Prop :=
  (forall s, length (weights O s) = d) /\ (forall n w, length (gradient n w) = d).

(** Factor applied to each gradient: 1 in sum mode, 1/f in mean mode. *)
Definition step_scale (sum : bool) (f : nat) : R := if sum then 1 else / INR f.

(** The members run one after the other, each on the state left by the previous one, and produce [outs]. *)
Inductive runs {S X : Type} : list (member S X) -> S -> list (list X) -> S -> Prop :=
| runs_nil s : runs [] s [] s
| runs_cons m t s s1 s2 out outs : member_next m s = Ok (s1, out) -> runs t s1 outs s2 ->
    runs (m :: t) s (out :: outs) s2.
