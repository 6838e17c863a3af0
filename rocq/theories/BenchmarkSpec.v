(** What the statements about the network of examples/benchmark.py (C81) refer to. *)
From Coq Require Import List ZArith Arith Reals.
From Verif Require Import Base Cplx ComplexModel.
Import ListNotations.
Local Open Scope nat_scope.

(** One layer on a ring of [n] sites: at site j the kernel [w] reads the sites j, j + 1, ..., j + k - 1 around the ring in [channels] channels. *)
Definition ring (n k channels : nat) (w : list nat -> nat -> nat -> C) (x : nat -> nat -> C) (j f : nat) : C :=
  lncosh (Csum (fun t => Csum (fun c => (x ((j + t) mod n) c * w [t] c f)%C) (seq 0 channels)) (seq 0 k)).
Fixpoint ring_network (n k width channels : nat) (ws : list (list nat -> nat -> nat -> C)) (x : nat -> nat -> C) : C :=
  match ws with
  | [] => Csum (fun j => Csum (fun c => x j c) (seq 0 channels)) (seq 0 n)
  | w :: t => ring_network n k width width t (ring n k channels w x)
  end.
(** log psi of a row of spins. *)
Definition log_psi (n k width : nat) (ws : list (list nat -> nat -> nat -> C)) (row : list Z) : C :=
  ring_network n k width 1 ws (fun j _ => RtoC (IZR (nth j row 0%Z))).
(** A row turned by [m] sites. *)
Definition turned (m : nat) (row : list Z) : list Z := skipn m row ++ firstn m row.
(** Kernels longer than the ring. A ring of [n] sites is continued once around at most, so a kernel of [k] sites finds room at n places if k <= n + 1, at 2 n - k + 1
    places if k <= 2 n, and at none beyond. *)
Definition places (n k : nat) : nat := if k <=? n + 1 then n else 2 * n + 1 - k.
Fixpoint places_after (n k depth : nat) : nat :=
  match depth with
  | 0 => n
  | Datatypes.S d => places_after (places n k) k d
  end.
Fixpoint shrinking_network (n k width channels : nat) (ws : list (list nat -> nat -> nat -> C)) (x : nat -> nat -> C) : C :=
  match ws with
  | [] => Csum (fun j => Csum (fun c => x j c) (seq 0 channels)) (seq 0 n)
  | w :: t => shrinking_network (places n k) k width width t (ring n k channels w x)
  end.
