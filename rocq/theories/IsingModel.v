(** Model of operators/ising.py (and of the grid operators' base class, operators/operator.py). *)
From Coq Require Import List ZArith Reals Bool Arith.
From Verif Require Import Base Cplx.
Import ListNotations.
Local Open Scope R_scope.

(** A python number that is either a float or an int: [numpy.full] takes its dtype from it. *)
Inductive pynum := PyFloat (r : R) | PyInt (z : Z).

(** Conversion float -> int64 on assignment into an integer array: towards zero. *)
Definition trunc (x : R) : Z := if Rle_dec 0 x then Int_part x else (- Int_part (- x))%Z.

(** A sample is the row-major list of an array of shape [n] or [n; m]. *)
Definition get1 (s : list Z) (i : nat) : Z := nth i s 0%Z.
Definition get2 (m : nat) (s : list Z) (i j : nat) : Z := nth (i * m + j) s 0%Z.

(** ising.py:19-23: numpy.pad by one at the end of every dimension, 'wrap' or zeros. *)
Definition padded1 (pbc : bool) (n : nat) (s : list Z) (i : nat) : Z :=
  if (i <? n)%nat then get1 s i else if pbc then get1 s (i mod n) else 0%Z.
Definition padded2 (pbc : bool) (n m : nat) (s : list Z) (i j : nat) : Z :=
  if ((i <? n) && (j <? m))%nat then get2 m s i j
  else if pbc then get2 m s (i mod n) (j mod m) else 0%Z.

(** ising.py:32: contribution written to mel[:, i] (1D; starts from zero). *)
Definition mel1 (J : R) (pbc : bool) (n : nat) (s : list Z) (i : nat) : R :=
  0 - J * IZR (get1 s i) * IZR (padded1 pbc n s (i + 1)).

(** ising.py:37-40: contributions to mel[:, i, j] (2D), each guarded by the size of its dimension. *)
Definition mel2 (J : R) (pbc : bool) (n m : nat) (s : list Z) (i j : nat) : R :=
  let x := 0 in
  let x := if (1 <? n)%nat then x - J * IZR (get2 m s i j) * IZR (padded2 pbc n m s (i + 1) j) else x in
  if (1 <? m)%nat then x - J * IZR (get2 m s i j) * IZR (padded2 pbc n m s i (j + 1)) else x.

(** ising.py:26,28,34: more than two dimensions violate the assertion, none raises IndexError. *)
Definition check_dims (shape : list nat) : res unit :=
  match shape with
  | [] => Err IndexError
  | [_] | [_; _] => Ok tt
  | _ => Err AssertionError
  end.

(** ising.py:28-41: the sum of mel over the sites, by number of dimensions. mel is float32; rounding is not modelled. *)
Definition self_mel (J : R) (pbc : bool) (shape : list nat) (s : list Z) : res R :=
  match shape with
  | [] => Err IndexError
  | [n] => Ok (Rsum (mel1 J pbc n s) (range n))
  | [n; m] => Ok (Rsum (fun i => Rsum (mel2 J pbc n m s i) (range m)) (range n))
  | _ => Err AssertionError
  end.

(** ising.py:31,36: [sample_conn[i, ..., i] *= -1]. *)
Definition flip_site (s : list Z) (k : nat) : list Z := upd s k (nth k s 0 * -1)%Z.

Fixpoint mapM {A B} (f : A -> res B) (l : list A) : res (list B) :=
  match l with
  | [] => Ok []
  | a :: t => do b <- f a; do r <- mapM f t; Ok (b :: r)
  end.

(** ising.py:44-45: an array filled with -h whose row 0 is then assigned. *)
Definition store (h : pynum) (x : R) : R := match h with PyFloat _ => x | PyInt _ => IZR (trunc x) end.
Definition neg_h (h : pynum) : R := match h with PyFloat r => - r | PyInt z => IZR (- z) end.

(** ising.py:17-46 [find_conn]: (all_conn, mel, use), each indexed by connection, then by sample.
    Connection 0 is the sample, connection k+1 flips site k (row-major, from the reshape in line 42). *)
Definition ising_find_conn (J : R) (h : pynum) (pbc : bool) (shape : list nat) (sample : list (list Z))
  : res (list (list (list Z)) * list (list R) * list (list bool)) :=
  let size := fold_right Nat.mul 1%nat shape in
  do _ok <- check_dims shape;
  do selfs <- mapM (self_mel J pbc shape) sample;
  let conn := map (fun k => map (fun s => flip_site s k) sample) (range size) in
  let mel := map (store h) selfs :: repeat (repeat (neg_h h) (length sample)) size in
  Ok (sample :: conn, mel, repeat (repeat true (length sample)) (S size)).

(** ising.py:15: max_number_of_local_connections. *)
Definition ising_max_conn (shape : list nat) : nat := (fold_right Nat.mul 1 shape + 1)%nat.
