(** Independent vocabulary for local energies. *)
From Coq Require Import List ZArith Reals Bool.
From Verif Require Import Cplx AutoregressiveSpec ObservableModel.
Import ListNotations.

(** The arrays have [K] connections of [B] samples. *)
Definition arrays {A} (K B : nat) (rows : list (list A)) : Prop := length rows = K /\ Forall (fun r => length r = B) rows.
Definition rectangular (K B : nat) (c : connections) : Prop :=
  arrays K B (conns c) /\ arrays K B (mels c) /\ arrays K B (uses c).

Definition entry {A} (d : A) (rows : list (list A)) (k b : nat) : A := nth b (nth k rows []) d.

(** The sample itself is connection 0 and is in use. *)
Definition first_is_sample (samples : list (list Z)) (c : connections) : Prop :=
  forall b s, nth_error samples b = Some s -> entry [] (conns c) 0 b = s /\ entry false (uses c) 0 b = true.

(** Connections that are not in use have matrix element 0. *)
Definition unused_vanish (K B : nat) (c : connections) : Prop :=
  forall k b, k < K -> b < B -> entry false (uses c) k b = false -> entry C0 (mels c) k b = C0.

(** sum_k mel_k psi(s_k) / psi(s) for sample [b]. *)
Definition local_energy_of (log_psi : list Z -> C) (K : nat) (c : connections) (b : nat) (s : list Z) : C :=
  Csum (fun k => (entry C0 (mels c) k b * (Cexp (log_psi (entry [] (conns c) k b)) / Cexp (log_psi s)))%C) (seq 0 K).

(** The connections of each sample are the non zero part of row s of a matrix H over the configurations of [n] spins:
    those in use are configurations, and the elements of those equal to t add up to H s t. *)
Definition represents (n K : nat) (H : list Z -> list Z -> C) (samples : list (list Z)) (c : connections) : Prop :=
  rectangular K (length samples) c /\ first_is_sample samples c /\ unused_vanish K (length samples) c /\
  forall b s, nth_error samples b = Some s ->
    (forall k, k < K -> entry false (uses c) k b = true -> In (entry [] (conns c) k b) (spin_configs n)) /\
    forall t, In t (spin_configs n) ->
      Csum (fun k => if entry false (uses c) k b then
                       if list_eq_dec Z.eq_dec (entry [] (conns c) k b) t then entry C0 (mels c) k b else C0
                     else C0) (seq 0 K) = H s t.

(** (H psi)(s) and the local energy (H psi)(s) / psi(s). *)
Definition apply_matrix (n : nat) (H : list Z -> list Z -> C) (psi : list Z -> C) (s : list Z) : C :=
  Csum (fun t => (H s t * psi t)%C) (spin_configs n).
Definition local_energy (n : nat) (H : list Z -> list Z -> C) (log_psi : list Z -> C) (s : list Z) : C :=
  (apply_matrix n H (fun t => Cexp (log_psi t)) s / Cexp (log_psi s))%C.

(** H psi = E psi. *)
Definition eigenstate (n : nat) (H : list Z -> list Z -> C) (E : C) (log_psi : list Z -> C) : Prop :=
  forall s, In s (spin_configs n) ->
    apply_matrix n H (fun t => Cexp (log_psi t)) s = (E * Cexp (log_psi s))%C.

(** One spin with psi(-1) = i psi(1). *)
Definition tilted (s : list Z) : C := if (nth 0 s 0 =? 1)%Z then C0 else (0, (PI / 2))%R.

(** Mean of a family of numbers. *)
Definition average (l : list R) : R := (Rsum (fun x => x) l / INR (length l))%R.
