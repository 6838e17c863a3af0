(** What an operator of the old NetKet interface reports. *)
From Coq Require Import List ZArith Reals Arith.
From Verif Require Import Base Cplx NetketOldModel.
Import ListNotations.

(** The connected state: the state with the given values at the given sites. *)
Definition changed (s : list Z) (changes : list nat * list Z) : list Z :=
  fold_left (fun c p => upd c (fst p) (snd p)) (combine (fst changes) (snd changes)) s.
(** The report as the newer interface would give it: connected states with their matrix elements. *)
Definition translated (g : old_get_conn) (s : list Z) : list (list Z * C) :=
  let '(mels, idx, vals) := g s in combine (map (changed s) (combine idx vals)) mels.
(** A report for [s]: three lists of the same length, all sites in range, and the only connection without changes is number [k]. *)
Definition reports (g : old_get_conn) (s : list Z) (k : nat) : Prop :=
  exists mels idx vals, g s = (mels, idx, vals) /\ length idx = length mels /\ length vals = length mels /\
    (forall sites, In sites idx -> Forall (fun p => p < length s) sites) /\ k < length idx /\
    forall j, j < length idx -> (nth j idx [] = [] <-> j = k).
