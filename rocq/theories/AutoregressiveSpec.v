(** Independent vocabulary for autoregressive models. *)
From Coq Require Import List ZArith Reals.
From Verif Require Import Cplx.
Import ListNotations.
Local Open Scope R_scope.

(** All strings of length [n] over an alphabet. *)
Fixpoint strings (alphabet : list Z) (n : nat) : list (list Z) :=
  match n with
  | O => [[]]
  | S n' => flat_map (fun a => map (cons a) (strings alphabet n')) alphabet
  end.
Definition spin_configs : nat -> list (list Z) := strings [1%Z; (-1)%Z].

(** [order] visits each of the [n] sites once. *)
Definition visits_once (n : nat) (order : list nat) : Prop :=
  NoDup order /\ forall i, In i order <-> (i < n)%nat.

(** Two configurations agree on a set of sites. *)
Definition agree_on (sites : list nat) (s t : list Z) : Prop :=
  forall i, In i sites -> nth i s 0%Z = nth i t 0%Z.

(** A network is autoregressive along [order]: what it says about the k-th visited site depends on the sites
    visited before only. *)
Definition autoregressive {A} (n : nat) (order : list nat) (net : list Z -> nat -> A) : Prop :=
  forall before i after, order = before ++ i :: after ->
  forall s t, length s = n -> length t = n -> agree_on before s t -> net s i = net t i.

(** Probability of a configuration under a wave function given by its logarithm. *)
Definition born (log_psi : C) : R := Cnorm2 (Cexp log_psi).

(** Half-open interval of the unit interval, and its length. *)
Definition inside (u : R) (iv : R * R) : Prop := fst iv <= u < snd iv.
Definition len (iv : R * R) : R := snd iv - fst iv.
