(** Notions for the statements about the example scripts. *)
From Coq Require Import String List ZArith Reals Bool Arith.
From Verif Require Import Base Cplx CallbackModel.
Import ListNotations.

(** The mini batch that fits into the memory, by the table in the code: 4096 from depth 1, 2048 from depth 20, 1024 from depth 40. *)
Definition capacity (depth v : nat) : Prop :=
  (1 <= depth < 20 /\ v = 2 ^ 12) \/ (20 <= depth < 40 /\ v = 2 ^ 11) \/ (40 <= depth /\ v = 2 ^ 10).
(** The size of the batch in an epoch of the example for the Ising model. *)
Definition batch_in_epoch (e : nat) : nat := if e <? 100 then 2 ^ 7 else if e <? 200 then 2 ^ 10 else 2 ^ 13.
(** The stages that end after epoch [k]. *)
Definition stages_after (k : nat) : list nat := filter (fun i => k <? nth i [100; 200; 250] 0) [0; 1; 2].

(** The number of combinations of the lists from [j] on. *)
Definition combinations {A} (vs : list (list A)) : nat := fold_right (fun v n => length v * n) 1 vs.

(** A batch whose energy is more than 10% above the energy of the ground state [x] though its variance is below 0.01. *)
Definition bad_batch (x : R) (g : vmc) (k : nat) : Prop :=
  ((Re (current_energy g k) - x) / Rabs x > 0.1 /\ Re (current_local_energy_variance g k) < 0.01)%R.
