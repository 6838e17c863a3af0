(** Independent vocabulary for the codec properties. *)
From Coq Require Import List ZArith.
Import ListNotations.
Local Open Scope Z_scope.

(** The digit that is not 1: 0 in the 0/1 alphabet, -1 in the spin alphabet. *)
Definition low (zero_one_base : bool) : Z := if zero_one_base then 0 else -1.

(** Strings over the alphabet [{low, 1}]. *)
Definition spin_string (zero_one_base : bool) (l : list Z) : Prop :=
  Forall (fun d => d = low zero_one_base \/ d = 1) l.

(** Little endian positional value: sum over the positions holding a 1 of two to the position. *)
Definition positional_value (l : list Z) : Z :=
  fold_right Z.add 0 (map (fun i => if nth i l 0 =? 1 then 2 ^ Z.of_nat i else 0) (seq 0 (length l))).
