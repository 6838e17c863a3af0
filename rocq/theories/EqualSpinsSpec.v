(** Magnetisation sectors. *)
From Coq Require Import List ZArith.
Import ListNotations.

(** How many sites carry a value. *)
Definition ups (s : list Z) : nat := count_occ Z.eq_dec s 1%Z.
Definition downs (s : list Z) : nat := count_occ Z.eq_dec s (-1)%Z.

(** Category of a spin in the last axis of the conditionals: up first. *)
Definition category (v : Z) : nat := if (v =? 1)%Z then 0 else 1.
