(** Independent vocabulary for operators given by their connections. *)
From Coq Require Import List ZArith Reals Bool Arith.
From Verif Require Import Base Cplx LatticeSpec AutoregressiveSpec MetropolisSpec.
Import ListNotations.

Definition nonzero (c : C) : bool := if Req_EM_T (Re c) 0 then if Req_EM_T (Im c) 0 then false else true else true.

(** Every configuration is connected to itself first and then only to configurations. *)
Definition connects_configurations (n : nat) (g : list Z -> list (list Z * C)) : Prop :=
  forall s, In s (spin_configs n) -> reports_itself g s /\ forall c m, In (c, m) (g s) -> In c (spin_configs n).

(** The configuration itself and the others with an element that is not zero. *)
Definition moves (g : list Z -> list (list Z * C)) (s : list Z) : list (list Z) :=
  s :: map fst (filter (fun cm => nonzero (snd cm)) (tl (g s))).

(** The element between two configurations, when every configuration is listed at most once. *)
Definition listed_element (g : list Z -> list (list Z * C)) (s t : list Z) (m : C) : Prop :=
  In (t, m) (g s) \/ (m = C0 /\ ~ In t (map fst (g s))).
Definition hermitian_connections (n : nat) (g : list Z -> list (list Z * C)) : Prop :=
  forall s t m, In s (spin_configs n) -> In t (spin_configs n) -> listed_element g s t m -> listed_element g t s (Cconj m).
