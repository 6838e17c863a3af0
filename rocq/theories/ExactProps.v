(** Properties C33, C34, C35, C36. *)
From Coq Require Import List ZArith Reals Bool Arith Lia Lra Permutation.
From Verif Require Import Base Cplx LatticeSpec ExactUtilsSpec IsingModel HeisenbergModel AutoregressiveSpec AutoregressiveProofs
  ObservableModel ObservableSpec ObservableProofs
  ExactModel ExactSpec ExactProofs ExactGradientProofs ExactGeneratorProofs ExactSamplerProofs ExactOperatorProofs ExactFinalProofs.
Import ListNotations.
Local Open Scope R_scope.

(** C33: whatever machines were evaluated before, evaluating a machine succeeds; position i of the probabilities belongs
    to configuration i; the energy is the conjugate of <psi|H|psi>/<psi|psi>; the variance is that of the real parts of
    the local energies. At most 31 spins (32 bit indices). *)
Theorem C33_rayleigh_quotient : forall n H op batch past e lp, (n <= 31)%nat -> operator_represents n H op ->
  good_batch_size n batch -> built n op batch past e ->
  exists e', machine_updated lp e = Ok e' /\
    current_energy e' = Cconj (expectation n H lp) /\
    norm_squared e' = norm2 n lp /\
    Permutation (states e') (spin_configs n) /\
    probs e' = map (probability n lp) (states e') /\ Rsum (fun p => p) (probs e') = 1 /\
    current_variance e' = Rsum (fun s => probability n lp s *
      ((Re (local_energy n H lp s) - Re (expectation n H lp)) * (Re (local_energy n H lp s) - Re (expectation n H lp)))) (spin_configs n).
Proof.
  intros n H op batch past e lp Hn HO HB HE. destruct (built_good n H op batch past e Hn HO HB HE) as (G & _).
  destruct (machine_updated_ok n H lp e G) as (e' & E & G' & _ & _ & P & N & _ & Cu & V & _).
  rewrite result_energy_conj, Re_conj in V. rewrite result_energy_conj in Cu.
  exists e'. split; [exact E|]. split; [exact Cu|]. split; [exact N|]. rewrite (ge_states _ _ _ G').
  split; [apply basis_perm|]. split; [exact P|]. split; [rewrite P; apply Rsum_probability|exact V].
Qed.
Print Assumptions C33_rayleigh_quotient.
Lemma small_exact : (sites_of [2%nat] <= 31)%nat /\ operator_represents (sites_of [2%nat]) (ising_matrix 1 2 true [2%nat]) (ising_operator 1 2 true [2%nat]) /\
  good_batch_size (sites_of [2%nat]) 2 /\ exists e, built (sites_of [2%nat]) (ising_operator 1 2 true [2%nat]) 2 [fun _ => C0; fun s => RtoC (IZR (sumZ s))] e.
Proof.
  assert (Hn : (sites_of [2%nat] <= 31)%nat) by (cbn; lia).
  assert (HO : operator_represents (sites_of [2%nat]) (ising_matrix 1 2 true [2%nat]) (ising_operator 1 2 true [2%nat])).
  { apply ising_operator_represents. left. exists 2%nat. split; [reflexivity|left; lia]. }
  assert (HB : good_batch_size (sites_of [2%nat]) 2) by (split; [lia|reflexivity]).
  split; [exact Hn|]. split; [exact HO|]. split; [exact HB|].
  destruct (built_ok _ _ _ 2 [fun _ => C0; fun s => RtoC (IZR (sumZ s))] Hn HO HB) as (e & He & _). now exists e.
Qed.
Example C33_rayleigh_ex : exists n H op batch past e, (n <= 31)%nat /\ operator_represents n H op /\ good_batch_size n batch /\ built n op batch past e.
Proof. destruct small_exact as (A & B & D & e & E). now exists (sites_of [2%nat]), (ising_matrix 1 2 true [2%nat]), (ising_operator 1 2 true [2%nat]), 2%nat, [fun _ => C0; fun s => RtoC (IZR (sumZ s))], e. Qed.

(** C33: an operator that returns more connections than it declares is refused. *)
Theorem C33_declared_too_small : forall n op batch k, good_batch_size n batch -> declared_max op = Some k ->
  (forall states, exists c, find_conn op states = Ok c /\ (k < length (conns c))%nat) -> new_exact n op batch = Err ShapeError.
Proof.
  intros n op batch k HB D F. unfold new_exact. cbv zeta. unfold num_of_states at 2. rewrite set_batch_size_ok by exact HB. cbn [bind]. rewrite D. cbn [bind].
  destruct HB as [Hb0 Hm]. assert (P2 : (2 ^ n <> 0)%nat) by (apply Nat.pow_nonzero; lia). set (B := Nat.min batch (2 ^ n)) in *. assert (HB : (0 < B)%nat) by (unfold B; lia).
  assert (Ediv : (2 ^ n = 2 ^ n / B * B)%nat). { pose proof (Nat.div_mod (2 ^ n) B ltac:(lia)). lia. }
  assert (Hsteps : ExactUtilsModel.range_steps (num_of_states n) B = (2 ^ n / B)%nat). { unfold num_of_states. rewrite Ediv at 1. now apply ExactUtilsProofs.range_steps_mult. }
  rewrite Hsteps. destruct (2 ^ n / B)%nat as [|steps]; [lia|]. cbn [batch_loop].
  destruct (F (slice (ExactUtilsModel.decimal_array_to_binary_array (ExactUtilsModel.arange 0 (num_of_states n)) n false None) 0 (0 + B))) as [c [-> L]]. cbn [bind]. unfold batch_columns. destruct (Nat.ltb_spec k (length (conns c))); [reflexivity|lia].
Qed.
Print Assumptions C33_declared_too_small.
Example C33_declared_too_small_ex : let op := {| find_conn := fun states => Ok {| conns := [states; states]; mels := [[]; []]; uses := [[]; []] |}; declared_max := Some 1%nat |} in
  good_batch_size 3 4 /\ forall states, exists c, find_conn op states = Ok c /\ (1 < length (conns c))%nat.
Proof. split; [split; [lia|reflexivity]|]. intros states. eexists. split; [reflexivity|]. cbn. lia. Qed.

(** C33: for a Hermitian operator the energy is real and is the quotient itself. *)
Theorem C33_hermitian_real : forall n H op batch past e lp, (n <= 31)%nat -> operator_represents n H op -> hermitian n H ->
  good_batch_size n batch -> built n op batch past e ->
  exists e', machine_updated lp e = Ok e' /\ current_energy e' = expectation n H lp /\ Im (current_energy e') = 0.
Proof.
  intros n H op batch past e lp Hn HO HH HB HE. destruct (built_good n H op batch past e Hn HO HB HE) as (G & _).
  destruct (machine_updated_ok n H lp e G) as (e' & E & _ & _ & _ & _ & _ & _ & Cu & _). destruct (expectation_real n H lp HH) as [I X].
  exists e'. split; [exact E|]. rewrite X in Cu. split; [exact Cu|now rewrite Cu].
Qed.
Print Assumptions C33_hermitian_real.
Example C33_hermitian_ex : hermitian (sites_of [2%nat]) (ising_matrix 1 2 true [2%nat]) /\ hermitian (sites_of [3; 2]%nat) (heisenberg_matrix true true [3; 2]%nat).
Proof. split; [apply ising_matrix_hermitian|]. apply heisenberg_matrix_hermitian. right. exists 3%nat, 2%nat. repeat split; lia. Qed.

(** C33: bounds. Every lower bound of the quadratic form (such as the smallest eigenvalue) bounds the energy from below,
    every upper bound from above, and so does the largest absolute row sum. *)
Theorem C33_bounds : forall n H op batch past e lp, (n <= 31)%nat -> operator_represents n H op -> hermitian n H ->
  good_batch_size n batch -> built n op batch past e ->
  exists e', machine_updated lp e = Ok e' /\
    (forall lambda, (forall psi, lambda * Rsum (fun s => Cnorm2 (psi s)) (spin_configs n) <= Re (braket n H psi)) -> lambda <= Re (current_energy e')) /\
    (forall lambda, (forall psi, Re (braket n H psi) <= lambda * Rsum (fun s => Cnorm2 (psi s)) (spin_configs n)) -> Re (current_energy e') <= lambda) /\
    (forall M, (forall s, In s (spin_configs n) -> Rsum (fun t => Cmod (H s t)) (spin_configs n) <= M) -> - M <= Re (current_energy e') <= M).
Proof.
  intros n H op batch past e lp Hn HO HH HB HE.
  destruct (C33_hermitian_real n H op batch past e lp Hn HO HH HB HE) as (e' & E & X & _).
  exists e'. split; [exact E|]. rewrite X. split; [|split].
  - intros lambda. apply variational_principle.
  - intros lambda. apply variational_upper.
  - intros M. now apply expectation_bound.
Qed.
Print Assumptions C33_bounds.
Example C33_bounds_ex : forall s, In s (spin_configs 1) -> Rsum (fun t => Cmod (ising_matrix 0 1 false [1%nat] s t)) (spin_configs 1) <= 1.
Proof.
  assert (Z1 : sqrt 0 = 0) by apply sqrt_0. assert (Z2 : sqrt 1 = 1) by apply sqrt_1.
  intros s Hs. cbn in Hs. destruct Hs as [<-|[<-|[]]]; unfold Rsum, spin_configs, ising_matrix, ising_element, Cmod, Cnorm2, RtoC; cbn;
    match goal with |- sqrt ?a + (sqrt ?b + 0) <= 1 => (replace a with 0 by ring; replace b with 1 by ring) || (replace a with 1 by ring; replace b with 0 by ring) end;
    rewrite Z1, Z2; lra.
Qed.

(** C33: adding a constant to log psi changes nothing but the norm. *)
Theorem C33_constant_shift : forall n H op batch past e lp k, (n <= 31)%nat -> operator_represents n H op ->
  good_batch_size n batch -> built n op batch past e ->
  exists e1 e2, machine_updated lp e = Ok e1 /\ machine_updated (fun s => (lp s + k)%C) e = Ok e2 /\
    current_energy e2 = current_energy e1 /\ probs e2 = probs e1 /\ energies e2 = energies e1 /\
    grad_coefficients e2 = grad_coefficients e1 /\ norm_squared e2 = exp (2 * Re k) * norm_squared e1.
Proof.
  intros n H op batch past e lp k Hn HO HB HE. destruct (built_good n H op batch past e Hn HO HB HE) as (G & _).
  destruct (machine_updated_ok n H lp e G) as (e1 & E1 & _ & _ & _ & P1 & N1 & En1 & C1 & _ & G1).
  destruct (machine_updated_ok n H (fun s => (lp s + k)%C) e G) as (e2 & E2 & _ & _ & _ & P2 & N2 & En2 & C2 & _ & G2).
  exists e1, e2. split; [exact E1|]. split; [exact E2|].
  rewrite C1, C2, P1, P2, En1, En2, G1, G2, N1, N2, result_energy_shift, norm2_shift.
  split; [reflexivity|]. split; [apply map_ext; intros; apply probability_shift|]. split; [apply map_ext; intros; apply contribution_shift|].
  split; [|reflexivity]. apply map_ext. intros s. now rewrite contribution_shift, probability_shift.
Qed.
Print Assumptions C33_constant_shift.
Example C33_shift_ex : exists n H op batch past e, (n <= 31)%nat /\ operator_represents n H op /\ good_batch_size n batch /\ built n op batch past e.
Proof. exact C33_rayleigh_ex. Qed.

(** C33 for the lattice operators: construction succeeds and the energy is the Rayleigh quotient of the lattice Hamiltonian. *)
Theorem C33_ising : forall J h pbc shape batch past lp, good_shape shape pbc -> (sites_of shape <= 31)%nat -> good_batch_size (sites_of shape) batch ->
  exists e e', built (sites_of shape) (ising_operator J h pbc shape) batch past e /\ machine_updated lp e = Ok e' /\
    current_energy e' = expectation (sites_of shape) (ising_matrix J h pbc shape) lp.
Proof.
  intros J h pbc shape batch past lp Gs Hn HB. pose proof (ising_operator_represents J h pbc shape Gs) as HO.
  destruct (built_ok _ _ _ batch past Hn HO HB) as (e & He & _).
  destruct (C33_hermitian_real _ _ _ batch past e lp Hn HO (ising_matrix_hermitian J h pbc shape) HB He) as (e' & E & X & _).
  exists e, e'. now split.
Qed.
Print Assumptions C33_ising.
Example C33_ising_ex : good_shape [3; 3]%nat true /\ (sites_of [3; 3]%nat <= 31)%nat /\ good_batch_size (sites_of [3; 3]%nat) 64.
Proof. split; [right; exists 3%nat, 3%nat; repeat split; lia|]. split; [cbn; lia|]. split; [lia|reflexivity]. Qed.

Theorem C33_heisenberg : forall shape rot pbc calls Ham batch past lp, chain_or_grid shape -> (sites_of shape <= 31)%nat -> good_batch_size (sites_of shape) batch ->
  run_calls (heisenberg_init shape rot pbc) calls = Ok Ham ->
  exists e e', built (sites_of shape) (heisenberg_operator Ham) batch past e /\ machine_updated lp e = Ok e' /\
    current_energy e' = expectation (sites_of shape) (heisenberg_matrix rot pbc shape) lp.
Proof.
  intros shape rot pbc calls Ham batch past lp Gs Hn HB HH. pose proof (heisenberg_operator_represents shape rot pbc calls Ham Gs HH) as HO.
  destruct (built_ok _ _ _ batch past Hn HO HB) as (e & He & _).
  destruct (C33_hermitian_real _ _ _ batch past e lp Hn HO (heisenberg_matrix_hermitian rot pbc shape Gs) HB He) as (e' & E & X & _).
  exists e, e'. now split.
Qed.
Print Assumptions C33_heisenberg.
Example C33_heisenberg_ex : chain_or_grid [4%nat] /\ (sites_of [4%nat] <= 31)%nat /\ good_batch_size (sites_of [4%nat]) 100 /\
  run_calls (heisenberg_init [4%nat] false true) [] = Ok (heisenberg_init [4%nat] false true).
Proof. split; [left; exists 4%nat; split; [reflexivity|lia]|]. split; [cbn; lia|]. split; [split; [lia|reflexivity]|reflexivity]. Qed.

(** C33 for operators that are not Hermitian: the reported energy is not the quotient but its conjugate. *)
Theorem C33_non_hermitian_refuted :
  exists n H op batch e lp e', operator_represents n H op /\ built n op batch [] e /\ machine_updated lp e = Ok e' /\
    current_energy e' <> expectation n H lp.
Proof. exact non_hermitian_refuted. Qed.
Print Assumptions C33_non_hermitian_refuted.

(** C34: for every differentiable family of log amplitudes, at every parameter value, the derivative of the reported
    energy is the sum over the configurations of 2 Re(coefficient * d log psi). *)
Theorem C34_gradient : forall n H op batch past e (lp : R -> list Z -> C) d x, (n <= 31)%nat -> operator_represents n H op -> hermitian n H ->
  good_batch_size n batch -> built n op batch past e ->
  (forall s, In s (spin_configs n) -> Cderive (fun t => lp t s) x (d s)) ->
  exists e', machine_updated (lp x) e = Ok e' /\ length (grad_coefficients e') = length (states e') /\
    derivable_pt_lim (fun t => Re (reported_energy e (lp t))) x
      (Rsum (fun sc => 2 * Re (snd sc * d (fst sc))%C) (combine (states e') (grad_coefficients e'))) /\
    derivable_pt_lim (fun t => Re (expectation n H (lp t))) x
      (Rsum (fun sc => 2 * Re (snd sc * d (fst sc))%C) (combine (states e') (grad_coefficients e'))).
Proof. exact gradient_ok. Qed.
Print Assumptions C34_gradient.
Example C34_ex : forall s, In s (spin_configs 2) -> Cderive (fun t => RtoC (t * IZR (sumZ s))) 3 (RtoC (IZR (sumZ s))).
Proof.
  intros s _. split; cbn [RtoC Re Im fst snd].
  - apply (limit_ext (mult_real_fct (IZR (sumZ s)) id)); [intros t; unfold mult_real_fct, id; ring|].
    apply (limit_value _ _ (IZR (sumZ s) * 1)); [ring|]. apply derivable_pt_lim_scal, derivable_pt_lim_id.
  - apply (limit_ext (fct_cte 0)); [reflexivity|]. apply derivable_pt_lim_const.
Qed.

(** C34, as the trainer sees it: the losses of the batches of one cycle, added up and differentiated with the targets held
    fixed, give the energy gradient divided by the batch size (Keras takes the mean over a batch). *)
Theorem C34_cycle_loss : forall n H op batch past e (lp : R -> list Z -> C) d x, (n <= 31)%nat -> operator_represents n H op -> hermitian n H ->
  good_batch_size n batch -> built n op batch past e ->
  (forall s, In s (spin_configs n) -> Cderive (fun t => lp t s) x (d s)) ->
  exists g batches D, generator_run (fun _ => lp x) (start_generator e) 0 (2 ^ n / batch_size e) = Ok (g, batches) /\
    derivable_pt_lim (fun t => cycle_loss batches (lp t)) x D /\
    derivable_pt_lim (fun t => Re (reported_energy e (lp t))) x (INR (batch_size e) * D).
Proof. exact cycle_gradient_ok. Qed.
Print Assumptions C34_cycle_loss.
Example C34_cycle_ex : exists n H op batch past e, (n <= 31)%nat /\ operator_represents n H op /\ hermitian n H /\ good_batch_size n batch /\ built n op batch past e.
Proof.
  destruct small_exact as (A & B & D & e & E).
  exists (sites_of [2%nat]), (ising_matrix 1 2 true [2%nat]), (ising_operator 1 2 true [2%nat]), 2%nat, [fun _ => C0; fun s => RtoC (IZR (sumZ s))], e.
  repeat (split; [assumption || apply ising_matrix_hermitian|]). exact E.
Qed.

(** C35: k cycles of the generator, with a machine that may change at every step. Each cycle consists of
    2^n / batch_size batches of batch_size configurations; together they are all configurations, each once, each with the
    coefficient p conj(E_loc - <H>) of the machine at the first step of the cycle; one evaluation per cycle. *)
Theorem C35_cycles : forall n H op batch past e (machine : nat -> list Z -> C) k, (n <= 31)%nat -> operator_represents n H op ->
  good_batch_size n batch -> built n op batch past e ->
  let b := Nat.min batch (2 ^ n) in let m := (2 ^ n / b)%nat in
  exists e' i cycles, generator_run machine (start_generator e) 0 (k * m) = Ok ((e', i), concat cycles) /\
    length cycles = k /\ updates e' = (k + updates e)%nat /\
    forall c ys, nth_error cycles c = Some ys -> length ys = m /\
      Forall (fun y => length (fst y) = b /\ length (snd y) = b) ys /\
      Permutation (concat (map fst ys)) (spin_configs n) /\
      concat (map snd ys) = map (gradient_coefficient n H (machine (c * m)%nat)) (concat (map fst ys)).
Proof. exact cycles_ok. Qed.
Print Assumptions C35_cycles.
Example C35_ex : exists n H op batch past e, (n <= 31)%nat /\ operator_represents n H op /\ good_batch_size n batch /\ built n op batch past e.
Proof. exact C33_rayleigh_ex. Qed.

(** C35: which batch sizes are accepted. A larger one than the number of configurations is cut down. *)
Theorem C35_batch_sizes : forall n H op, (n <= 31)%nat -> operator_represents n H op ->
  new_exact n op 0 = Err ZeroDivisionError /\
  (forall batch, (0 < batch)%nat -> ~ Nat.divide (Nat.min batch (2 ^ n)) (2 ^ n) -> new_exact n op batch = Err GenericException) /\
  (forall batch, (0 < batch)%nat -> Nat.divide (Nat.min batch (2 ^ n)) (2 ^ n) ->
     exists e, new_exact n op batch = Ok e /\ batch_size e = Nat.min batch (2 ^ n)).
Proof. exact batch_sizes_ok. Qed.
Print Assumptions C35_batch_sizes.
Example C35_batch_ex : ~ Nat.divide (Nat.min 3 (2 ^ 2)) (2 ^ 2) /\ Nat.divide (Nat.min 9 (2 ^ 2)) (2 ^ 2).
Proof. split; [|now exists 1%nat]. intros [z Hz]. change (Nat.min 3 (2 ^ 2)) with 3%nat in Hz. change (2 ^ 2)%nat with 4%nat in Hz. lia. Qed.

(** C36: after evaluating a machine, for every configuration there is an interval of length |psi|^2 / <psi|psi> such that
    a draw returns this configuration iff its uniform number lies in the interval. *)
Theorem C36_exact_sampler : forall n H op batch past e lp e', (n <= 31)%nat -> operator_represents n H op ->
  good_batch_size n batch -> built n op batch past e -> machine_updated lp e = Ok e' ->
  forall s, In s (spin_configs n) -> exists a, 0 <= a /\ a + probability n lp s <= 1 /\
  forall us, Forall (fun u => 0 <= u < 1) us ->
  exists samples, exact_sampler_next e' us = Ok samples /\ length samples = length us /\
    (forall t, In t samples -> In t (spin_configs n)) /\
    forall k u, nth_error us k = Some u -> (nth_error samples k = Some s <-> a <= u < a + probability n lp s).
Proof. exact exact_sampler_interval. Qed.
Print Assumptions C36_exact_sampler.
Example C36_ex : exists n H op batch past e lp e', (n <= 31)%nat /\ operator_represents n H op /\ good_batch_size n batch /\ built n op batch past e /\
  machine_updated lp e = Ok e'.
Proof.
  destruct C33_rayleigh_ex as (n & H & op & batch & past & e & A & B & D & E).
  destruct (C33_rayleigh_quotient n H op batch past e (fun _ => C0) A B D E) as (e' & X & _).
  exists n, H, op, batch, past, e, (fun _ => C0), e'. now split.
Qed.

(** C36 for the sampler that is given a vector: it needs a vector that is normalised up to 2^-26; then the interval of a
    configuration, found in the vector at its positional value, has length |psi|^2 / <psi|psi>. *)
Theorem C36_vector_sampler : forall n (v : list C), length v = (2 ^ n)%nat -> Rabs (Rsum born v - 1) <= / 2 ^ 26 ->
  forall s, In s (spin_configs n) -> exists a, let p := born (nth (Z.to_nat (positional_value s)) v C0) / Rsum born v in
  0 <= a /\ a + p <= 1 /\
  forall us, Forall (fun u => 0 <= u < 1) us ->
  exists samples, wave_function_sampler_next v n us = Ok samples /\ length samples = length us /\
    (forall t, In t samples -> In t (spin_configs n)) /\
    forall k u, nth_error us k = Some u -> (nth_error samples k = Some s <-> a <= u < a + p).
Proof. exact vector_sampler_interval. Qed.
Print Assumptions C36_vector_sampler.
Example C36_vector_ex : let v := [RtoC (ln (/ 2) / 2); RtoC (ln (/ 2) / 2)] in length v = (2 ^ 1)%nat /\ Rabs (Rsum born v - 1) <= / 2 ^ 26.
Proof.
  cbv zeta. split; [reflexivity|]. unfold Rsum. cbn [fold_right]. unfold born. rewrite !Cnorm2_exp. cbn [RtoC Re fst].
  replace (2 * (ln (/ 2) / 2)) with (ln (/ 2)) by field. rewrite exp_ln by lra.
  replace (/ 2 + (/ 2 + 0) - 1) with 0 by field. rewrite Rabs_R0. apply Rlt_le, Rinv_0_lt_compat, pow_lt. lra.
Qed.

(** C36 for other vectors fails: one that is not normalised, or of the wrong size, raises. *)
Theorem C36_vector_sampler_refuted : exists v us, length v = (2 ^ 1)%nat /\ Forall (fun u => 0 <= u < 1) us /\
  wave_function_sampler_next v 1 us = Err ValueError.
Proof. exact vector_sampler_refuted. Qed.
Print Assumptions C36_vector_sampler_refuted.
Theorem C36_vector_sampler_raises : forall n m (v : list C) us, length v = (2 ^ m)%nat -> us <> [] -> Forall (fun u => 0 <= u < 1) us ->
  (/ 2 ^ 26 < Rabs (Rsum born v - 1) -> wave_function_sampler_next v n us = Err ValueError) /\
  (Rabs (Rsum born v - 1) <= / 2 ^ 26 -> m <> n -> wave_function_sampler_next v n us = Err ShapeError).
Proof.
  intros n m v us L Hne Hus. split; intros T; [now apply wave_sampler_rejects|]. intros N. now apply (wave_sampler_wrong_size n m).
Qed.
Print Assumptions C36_vector_sampler_raises.
Example C36_raises_ex : let v := [C0; C0] in length v = (2 ^ 1)%nat /\ / 2 ^ 26 < Rabs (Rsum born v - 1).
Proof.
  cbv zeta. split; [reflexivity|]. unfold Rsum. cbn [fold_right]. unfold born. rewrite Cexp_0. unfold Cnorm2, C1. cbn [fst snd].
  replace (1 * 1 + 0 * 0 + (1 * 1 + 0 * 0 + 0) - 1) with 1 by ring. rewrite Rabs_R1. rewrite <- Rinv_1. apply Rinv_lt_contravar; [|simpl; lra].
  rewrite Rmult_1_l. apply pow_lt. lra.
Qed.
