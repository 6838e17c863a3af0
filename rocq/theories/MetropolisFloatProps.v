(** Property C85: the Metropolis samplers with amplitudes whose logarithm is infinite or not a number. *)
From Coq Require Import List ZArith Reals Bool Arith Lia Lra.
From Verif Require Import Base Cplx LatticeSpec AutoregressiveSpec ObservableModel ObservableSpec ExactModel ExactSpec
  McmcStatsModel MetropolisModel MetropolisSpec MetropolisProofs MetropolisFloatModel MetropolisFloatSpec MetropolisFloatProofs.
Import ListNotations.
Local Open Scope R_scope.

(** On finite amplitudes the complex temporary arrays change nothing: the samplers are those of C37-C40. *)
Theorem C85_finite_symmetric {D} (candidate : list Z -> D -> list Z) (log_psi : list Z -> C) draws t k st accepted :
  float_run_sweeps (float_symmetric_sweep candidate (fun s => of_C (log_psi s))) draws t k (of_chains st) accepted =
  match run_sweeps (symmetric_sweep candidate log_psi) draws t k st accepted with
  | Ok r => Ok (of_chains (fst r), snd r)
  | Err e => Err e
  end.
Proof. apply run_same. intros i st'. apply symmetric_sweep_same. Qed.
Print Assumptions C85_finite_symmetric.
Theorem C85_finite_hamiltonian (op : operator) (log_psi : list Z -> C) draws t k st accepted :
  float_run_sweeps (float_hamiltonian_sweep op (fun s => of_C (log_psi s))) draws t k (of_chains st) accepted =
  match run_sweeps (hamiltonian_sweep op log_psi) draws t k st accepted with
  | Ok r => Ok (of_chains (fst r), snd r)
  | Err e => Err e
  end.
Proof. apply run_same. intros i st'. apply hamiltonian_sweep_same. Qed.
Print Assumptions C85_finite_hamiltonian.
Example C85_finite_ex : of_chains {| sample := [[1; -1]]%Z; sample_machine_values := [(1, 2)] |} = {| float_sample := [[1; -1]]%Z; float_values := [(Finite 1, Finite 2)] |} /\
  float_symmetric_accepts (of_C (3, 1)) (of_C (3, 2)) (/ 2) = true /\ float_hamiltonian_accepts 4 2 (of_C (3, 1)) (of_C (3, 2)) (/ 2) = true.
Proof.
  split; [reflexivity|]. rewrite symmetric_accepts_same, hamiltonian_accepts_same by lia. unfold symmetric_accepts, hamiltonian_accepts. cbn [Nat.eqb Re Im fst snd].
  replace ((3 - 3) * 2) with 0 by ring. rewrite Rmin_left by lra. rewrite exp_0. split; destruct (Rlt_dec _ _) as [|N]; try reflexivity; [lra|].
  exfalso. apply N. cbn [INR]. replace ((1 + 1 + 1 + 1) / (1 + 1)) with 2 by field. rewrite Rplus_0_l, exp_ln by lra. lra.
Qed.

(** The symmetric samplers raise exactly when the logarithm of a candidate's amplitude is not a number, and never otherwise. *)
Theorem C85_raises {D} (candidate : list Z -> D -> list Z) (log_psi : list Z -> npcomplex) input st :
  (float_symmetric_sweep candidate log_psi input st = Err GenericException /\
   exists i s d, nth_error (float_sample st) i = Some s /\ nth_error (fst input) i = Some d /\ ~ is_number (log_psi (candidate s d))) \/
  ((exists r, float_symmetric_sweep candidate log_psi input st = Ok r) /\
   forall i s d, nth_error (float_sample st) i = Some s -> nth_error (fst input) i = Some d -> is_number (log_psi (candidate s d))).
Proof. apply symmetric_outcome. Qed.
Print Assumptions C85_raises.
Example C85_raises_ex : exists log_psi, ~ is_number (log_psi (global_candidate [1; 1]%Z [1; -1]%Z)) /\ is_number (log_psi [1; 1]%Z).
Proof.
  exists (fun s => if (sumZ s =? 0)%Z then (MinusInf, Finite 0) else (Finite 1, Finite 2)). split; [intros ([a b] & E); discriminate|exists (1, 2); reflexivity].
Qed.

(** A chain whose current amplitude vanishes, overflows or is nan never moves again, in any of the samplers and whatever the candidates are. *)
Theorem C85_frozen_symmetric {D} (candidate : list Z -> D -> list Z) (log_psi : list Z -> npcomplex) draws t k st accepted st' accepted' i s v :
  (forall t, uniform_numbers (snd (draws t))) ->
  float_run_sweeps (float_symmetric_sweep candidate log_psi) draws t k st accepted = Ok (st', accepted') ->
  nth_error (float_sample st) i = Some s -> nth_error (float_values st) i = Some v -> ~ has_modulus v ->
  nth_error (float_sample st') i = Some s /\ nth_error (float_values st') i = Some v.
Proof.
  intros U E Hs Hv N. apply (frozen_run (float_symmetric_sweep candidate log_psi) draws i s v) with (k := k) (t := t) (st := st) (a := accepted) (a' := accepted'); auto.
  intros input x x' n Ex Ux Hx. exact (symmetric_frozen candidate log_psi input x x' n i v Ex Ux Hx N).
Qed.
Print Assumptions C85_frozen_symmetric.
Theorem C85_frozen_hamiltonian (op : operator) (log_psi : list Z -> npcomplex) draws t k st accepted st' accepted' i s v :
  (forall t, uniform_numbers (snd (draws t))) ->
  float_run_sweeps (float_hamiltonian_sweep op log_psi) draws t k st accepted = Ok (st', accepted') ->
  nth_error (float_sample st) i = Some s -> nth_error (float_values st) i = Some v -> ~ has_modulus v ->
  nth_error (float_sample st') i = Some s /\ nth_error (float_values st') i = Some v.
Proof.
  intros U E Hs Hv N. apply (frozen_run (float_hamiltonian_sweep op log_psi) draws i s v) with (k := k) (t := t) (st := st) (a := accepted) (a' := accepted'); auto.
  intros input x x' n Ex Ux Hx. exact (hamiltonian_frozen op log_psi input x x' n i v Ex Ux Hx N).
Qed.
Print Assumptions C85_frozen_hamiltonian.

(** The machine and the operator of the examples: two spins, the amplitude vanishes if they are parallel, and the operator flips the first spin. *)
Definition antiparallel (s : list Z) : npcomplex := if (sumZ s =? 0)%Z then (Finite 1, Finite 2) else (MinusInf, Finite 0).
Definition flip_first : operator :=
  {| find_conn := fun samples => Ok {| conns := [map (fun s => upd s 0 (- nth 0 s 0)%Z) samples]; mels := [map (fun _ => RtoC 1) samples]; uses := [map (fun _ => true) samples] |};
     declared_max := Some 1%nat |}.
Lemma antiparallel_zero_spin : zero_spin_only 2 antiparallel.
Proof.
  intros s _. unfold antiparallel. split; intros H.
  - rewrite H. exists (1, 2)%R. reflexivity.
  - apply Z.eqb_neq in H. rewrite H. intros (r & Q). discriminate.
Qed.
Example C85_frozen_ex : let st := float_machine_updated antiparallel {| float_sample := [[1; 1]; [1; -1]]%Z; float_values := [] |} in
  uniform_numbers [/ 2; / 3] /\ ~ has_modulus (antiparallel [1; 1]%Z) /\ has_modulus (antiparallel [1; -1]%Z) /\
  (exists r, float_run_sweeps (float_symmetric_sweep global_candidate antiparallel) (fun _ => ([[1; -1]; [-1; 1]]%Z, [/ 2; / 3])) 0 1 st 0 = Ok r) /\
  (exists r, float_run_sweeps (float_hamiltonian_sweep flip_first antiparallel) (fun _ => ([0; 0]%nat, [/ 2; / 3])) 0 1 st 0 = Ok r).
Proof.
  cbv zeta. split; [intros u [<-|[<-|[]]]; lra|]. split; [intros (r & Q); discriminate|]. split; [exists 1; reflexivity|]. split; eexists; reflexivity.
Qed.

(** The Hamiltonian sampler has no such test: it never accepts a candidate whose amplitude vanishes, overflows or is nan ... *)
Theorem C85_never_enters (op : operator) (log_psi : list Z -> npcomplex) draws t k st accepted st' accepted' i s :
  (forall t, uniform_numbers (snd (draws t))) ->
  float_run_sweeps (float_hamiltonian_sweep op log_psi) draws t k st accepted = Ok (st', accepted') ->
  nth_error (float_sample st') i = Some s -> nth_error (float_sample st) i = Some s \/ has_modulus (log_psi s).
Proof. intros U E Hs. exact (hamiltonian_run_finite op log_psi draws U k t st accepted st' accepted' E i s Hs). Qed.
Print Assumptions C85_never_enters.
(** ... but it does not look at the phase: a phase that is nan or infinite is sampled as if it were any other. *)
Theorem C85_phase_not_tested (op : operator) (log_psi log_psi' : list Z -> npcomplex) draws t k samples accepted :
  (forall s, fst (log_psi s) = fst (log_psi' s)) ->
  match float_run_sweeps (float_hamiltonian_sweep op log_psi) draws t k (float_machine_updated log_psi samples) accepted,
        float_run_sweeps (float_hamiltonian_sweep op log_psi') draws t k (float_machine_updated log_psi' samples) accepted with
  | Ok r, Ok r' => float_sample (fst r) = float_sample (fst r') /\ snd r = snd r'
  | Err e, Err e' => e = e'
  | _, _ => False
  end.
Proof. intros H. apply hamiltonian_run_moduli; [exact H|reflexivity|]. cbn [float_machine_updated float_values]. rewrite !map_map. apply map_ext. exact H. Qed.
Print Assumptions C85_phase_not_tested.
Example C85_phase_not_tested_ex : forall s : list Z, fst (Finite (IZR (sumZ s)), NaN) = fst (of_C (RtoC (IZR (sumZ s)))).
Proof. reflexivity. Qed.

(** A machine that vanishes outside the configurations of total spin zero. The local sampler raises at once if a chain starts inside; it raises or returns
    its initial configurations in all cases. *)
Theorem C85_local_zero_spin (shape : list nat) (log_psi : list Z -> npcomplex) draws t k st accepted :
  zero_spin_only (sites_of shape) log_psi -> fresh (sites_of shape) log_psi st ->
  (forall t, random_input (length (float_sample st)) (sites shape) (draws t)) ->
  let run := float_run_sweeps (float_symmetric_sweep (local_candidate shape) log_psi) draws t k st accepted in
  ((exists s, In s (float_sample st) /\ sumZ s = 0%Z) -> (0 < k)%nat -> run = Err GenericException) /\
  (run = Err GenericException \/ exists accepted', run = Ok (st, accepted')).
Proof. exact (local_zero_spin shape log_psi draws t k st accepted). Qed.
Print Assumptions C85_local_zero_spin.
(** The exchange sampler raises at once if a chain starts outside, and never raises and stays inside if all start inside. *)
Theorem C85_exchange_zero_spin (shape : list nat) (log_psi : list Z -> npcomplex) draws t k st accepted :
  zero_spin_only (sites_of shape) log_psi -> incl (float_sample st) (spin_configs (sites_of shape)) ->
  (forall t, random_input (length (float_sample st)) (sites_and_moves shape) (draws t)) ->
  let run := float_run_sweeps (float_symmetric_sweep (exchange_candidate shape) log_psi) draws t k st accepted in
  ((exists s, In s (float_sample st) /\ sumZ s <> 0%Z) -> (0 < k)%nat -> run = Err GenericException) /\
  ((forall s, In s (float_sample st) -> sumZ s = 0%Z) ->
   exists st' accepted', run = Ok (st', accepted') /\ length (float_sample st') = length (float_sample st) /\
     forall s, In s (float_sample st') -> In s (spin_configs (sites_of shape)) /\ sumZ s = 0%Z).
Proof.
  intros Z Sp R run. split; [intros X K; now apply exchange_outside|]. intros I.
  destruct (exchange_inside shape log_psi draws Z k t st accepted) as (st' & a' & E & L & F); [|exact R|].
  - apply Forall_forall. intros s Hs. split; [now apply Sp|now apply I].
  - exists st', a'. split; [exact E|]. split; [exact L|]. now apply Forall_forall.
Qed.
Print Assumptions C85_exchange_zero_spin.
Example C85_zero_spin_ex : let st := float_machine_updated antiparallel {| float_sample := [[1; 1]; [1; -1]]%Z; float_values := [] |} in
  zero_spin_only (sites_of [2]%nat) antiparallel /\ fresh (sites_of [2]%nat) antiparallel st /\
  random_input 2 (sites [2]%nat) ([[0]; [1]]%nat, [/ 2; / 3]) /\
  random_input 2 (sites_and_moves [2]%nat) ([[(0%nat, 1%Z)]; [(1%nat, (-1)%Z)]], [/ 2; / 3]) /\
  (exists s, In s (float_sample st) /\ sumZ s = 0%Z) /\ (exists s, In s (float_sample st) /\ sumZ s <> 0%Z).
Proof.
  cbv zeta. split; [exact antiparallel_zero_spin|]. split; [split; [intros s [<-|[<-|[]]]; cbn; tauto|reflexivity]|].
  split; [|split; [|split]].
  - split; [reflexivity|]. split; [intros d [<-|[<-|[]]]; cbn; tauto|]. split; [reflexivity|]. intros u [<-|[<-|[]]]; lra.
  - split; [reflexivity|]. split; [intros d [<-|[<-|[]]]; cbn; tauto|]. split; [reflexivity|]. intros u [<-|[<-|[]]]; lra.
  - exists [1; -1]%Z. split; [cbn; tauto|reflexivity].
  - exists [1; 1]%Z. split; [cbn; tauto|discriminate].
Qed.

(** C85: the comparisons of the model are the lexicographic order of complex numbers with infinities; nothing compares with a nan. *)
Theorem C85_order : forall x y : npcomplex,
  (np_cgreater x y = true <-> ~ has_nan x /\ ~ has_nan y /\ cbelow y x) /\
  (np_cless_equal x y = true <-> ~ has_nan x /\ ~ has_nan y /\ (x = y \/ cbelow x y)) /\
  (has_nan x -> np_cminimum x y = x) /\
  (~ has_nan x -> has_nan y -> np_cminimum x y = y) /\
  (~ has_nan x -> ~ has_nan y -> cbelow x y -> np_cminimum x y = x) /\
  (~ has_nan x -> ~ has_nan y -> cbelow y x -> np_cminimum x y = y).
Proof. exact float_order. Qed.
Print Assumptions C85_order.
Example C85_order_ex : ~ has_nan (PlusInf, Finite 0) /\ ~ has_nan (Finite 3, MinusInf) /\ cbelow (Finite 3, MinusInf) (PlusInf, Finite 0) /\ has_nan (Finite 1, NaN).
Proof.
  unfold has_nan, cbelow, below. cbn [fst snd]. split; [intros [|]; discriminate|]. split; [intros [|]; discriminate|]. split; [|now right].
  left. right. left. repeat split; discriminate.
Qed.
(** C85: on finite numbers the operations are those of the complex numbers ... *)
Theorem C85_finite_arithmetic : forall (z w : C) (a b : R),
  np_cmul (of_C z) (of_C w) = of_C (z * w)%C /\ np_cexp (of_C z) = of_C (Cexp z) /\
  np_cisfinite (of_C z) = true /\ np_mul (Finite a) (Finite b) = Finite (a * b) /\ np_sub (Finite a) (Finite b) = Finite (a - b) /\
  (0 < a -> np_log (Finite a) = Finite (ln a)).
Proof. exact float_finite_arithmetic. Qed.
Print Assumptions C85_finite_arithmetic.
(** ... and on the special values those of IEEE 754 and of the C standard. *)
Theorem C85_special_values : forall (a i : R) (x : npfloat),
  np_log (Finite 0) = MinusInf /\ (a < 0 -> np_log (Finite a) = NaN) /\ np_log PlusInf = PlusInf /\ np_log MinusInf = NaN /\ np_log NaN = NaN /\
  np_mul PlusInf (Finite a) = infinity_of_sign a /\ np_mul (Finite a) PlusInf = infinity_of_sign a /\
  np_mul MinusInf (Finite a) = infinity_of_sign (- a) /\ np_mul (Finite a) MinusInf = infinity_of_sign (- a) /\ np_mul x NaN = NaN /\ np_mul NaN x = NaN /\
  np_mul PlusInf PlusInf = PlusInf /\ np_mul MinusInf MinusInf = PlusInf /\ np_mul PlusInf MinusInf = MinusInf /\ np_mul MinusInf PlusInf = MinusInf /\
  np_cexp (MinusInf, x) = of_C C0 /\ np_cexp (PlusInf, Finite 0) = (PlusInf, Finite 0) /\
  (i <> 0 -> np_cexp (PlusInf, Finite i) = (infinity_of_sign (cos i), infinity_of_sign (sin i))) /\
  (i <> 0 -> np_cexp (NaN, Finite i) = (NaN, NaN)) /\ np_cexp (NaN, Finite 0) = (NaN, Finite 0) /\
  ((forall r, x <> Finite r) -> np_cexp (Finite a, x) = (NaN, NaN) /\ np_cexp (NaN, x) = (NaN, NaN) /\ np_cexp (PlusInf, x) = (PlusInf, NaN)) /\
  ((forall r, x <> Finite r) -> np_cisfinite (x, Finite a) = false /\ np_cisfinite (Finite a, x) = false).
Proof. exact float_special_values. Qed.
Print Assumptions C85_special_values.
Example C85_special_values_ex : np_mul MinusInf (Finite (-2)) = PlusInf /\ np_log (Finite (-1)) = NaN /\ forall r, NaN <> Finite r.
Proof.
  destruct (C85_special_values (-2) 0 NaN) as (_ & _ & _ & _ & _ & _ & _ & E & _). split; [rewrite E; unfold infinity_of_sign; destruct (Rlt_dec 0 (- -2)); [reflexivity|lra]|].
  split; [|discriminate]. apply (C85_special_values (-1) 0 NaN). lra.
Qed.
