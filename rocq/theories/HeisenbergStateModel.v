(** The filter of states of the Heisenberg operator (operators/heisenberg.py). *)
From Coq Require Import List ZArith QArith Bool.
From Verif Require Import Base HeisenbergModel.
Import ListNotations.

(** heisenberg.py:34-37 [use_state]: [total_sz] is None or a number; the sum of the state is compared with it as it is, although
    random_states (heisenberg.py:22-27) reads total_sz as half of the sum. A state is its row-major list of spins. *)
Definition use_state (total_sz : option Q) (state : list Z) : bool :=
  match total_sz with
  | None => true
  | Some q => Qeq_bool (inject_Z (sumZ state)) q
  end.
