(** Independent vocabulary for averages along Markov chains. *)
From Coq Require Import List ZArith Reals Bool Arith.
From Verif Require Import Base Cplx AutoregressiveSpec ExactSpec MetropolisModel MetropolisSpec MixingSpec.
Import ListNotations.
Local Open Scope R_scope.

(** The entries that a mask selects. *)
Fixpoint picked {A} (mask : list bool) (l : list A) : list A :=
  match mask, l with
  | m :: mask', a :: l' => if m then a :: picked mask' l' else picked mask' l'
  | _, _ => []
  end.
(** How many sweeps are recorded. *)
Definition recorded (mask : list bool) : nat := length (filter (fun m => m) mask).
(** [warm_up] unused sweeps, then [samples] times [unused] unused sweeps and one whose result is kept. *)
Definition recording (warm_up unused samples : nat) : list bool := repeat false warm_up ++ concat (repeat (repeat false unused ++ [true]) samples).

(** The probability of given paths of independent chains that start in given configurations. *)
Fixpoint joint_weight (K : list Z -> list Z -> R) (starts : list (list Z)) (ps : list (list (list Z))) : R :=
  match starts, ps with
  | s :: starts', p :: ps' => path_weight K s p * joint_weight K starts' ps'
  | _, _ => 1
  end.
(** The average over all paths of [steps] steps. *)
Definition over_chains (n : nat) (K : list Z -> list Z -> R) (starts : list (list Z)) (steps : nat) (f : list (list (list Z)) -> R) : R :=
  Rsum (fun ps => joint_weight K starts ps * f ps) (choices (repeat (paths n steps) (length starts))).

Definition stays (n : nat) (K : list Z -> list Z -> R) (P : list Z -> bool) : Prop :=
  forall s t, In s (spin_configs n) -> In t (spin_configs n) -> P s = true -> P t = false -> K s t = 0.
Definition Cmean_of (f : list Z -> C) (l : list (list Z)) : C := Cscale (/ INR (length l)) (Csum f l).

(** Averages of [f] along chains that start with property [P] converge to the mean of [f] under [pi]: the mean square error over all paths is at most a / (number of
    samples) + d / (samples per chain)^2, whatever the number of chains, the starts and the sweeps that are not recorded. *)
Definition averages_converge (n : nat) (K : list Z -> list Z -> R) (P : list Z -> bool) (pi : list Z -> R) (f : list Z -> C) : Prop :=
  exists a d, 0 <= a /\ 0 <= d /\ forall starts mask,
    starts <> [] -> Forall (fun s => In s (spin_configs n) /\ P s = true) starts -> (0 < recorded mask)%nat ->
    over_chains n K starts (length mask)
      (fun ps => Cnorm2 (Cmean_of f (concat (map (picked mask) ps)) - Csum (fun s => Cscale (pi s) (f s)) (spin_configs n))%C) <=
    a / INR (length starts * recorded mask) + d / INR (recorded mask) ^ 2.
(** The probability that an average is at least [eps] away from the mean under [pi]. *)
Definition chance_of_error (n : nat) (K : list Z -> list Z -> R) (pi : list Z -> R) (f : list Z -> C) (starts : list (list Z)) (mask : list bool) (eps : R) : R :=
  over_chains n K starts (length mask) (fun ps =>
    if Rle_dec (eps ^ 2) (Cnorm2 (Cmean_of f (concat (map (picked mask) ps)) - Csum (fun s => Cscale (pi s) (f s)) (spin_configs n))%C) then 1 else 0).
(** What chain [c] draws in [k] sweeps from sweep [t] on. *)
Definition own_proposals {D} (d0 : D) (draws : nat -> list D * list R) (c t k : nat) : list D := map (fun j => nth c (fst (draws (t + j)%nat)) d0) (seq 0 k).
Definition own_numbers {D} (draws : nat -> list D * list R) (c t k : nat) : list R := map (fun j => nth c (snd (draws (t + j)%nat)) 0) (seq 0 k).
(** The configurations of one chain after the sweeps 1, .., [k]. *)
Definition trajectory {D} (sweep : list D * list R -> chains -> res (chains * nat)) (log_psi : list Z -> C) (ds : list D) (us : list R) (k : nat) (s : list Z) : list (list Z) :=
  map (fun j => chain_after sweep log_psi ds us (S j) s) (seq 0 k).
