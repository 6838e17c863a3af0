(** C56: from networks and Keras models to wave functions. *)
From Coq Require Import String List ZArith Bool Reals Lia Lra Arith.
From Verif Require Import Base Cplx AutoregressiveModel EqualSpinsModel EqualSpinsProofs LatticeSpec GraphModel GraphProps WrapperModel WrapperProofs.
Import ListNotations.

Lemma ln_le_ x y : (0 < x -> x <= y -> ln x <= ln y)%R.
Proof. intros X [H|H]; [left; now apply ln_increasing|subst; right; reflexivity]. Qed.

(** AutoregressiveWrapper: no keyword arguments make the constructor return. *)
Theorem C56_wrapper_refuted k :
  autoregressive_wrapper k = Err AttributeError \/ autoregressive_wrapper k = Err TypeError.
Proof. rewrite wrapper_fails. destruct (without _ _); auto. Qed.
(** Without keyword arguments that Machine does not take the failure is the read of an attribute that is never set. *)
Theorem C56_wrapper_attribute k : (forall a, In a k -> fst a = "use_pfor"%string) -> autoregressive_wrapper k = Err AttributeError.
Proof. intros H. rewrite wrapper_fails. now rewrite (proj2 (without_names "use_pfor" k) H). Qed.
Example C56_wrapper_attribute_ex : autoregressive_wrapper [] = Err AttributeError /\ autoregressive_wrapper [("use_pfor"%string, true)] = Err AttributeError /\
  autoregressive_wrapper [("use_for"%string, true)] = Err TypeError.
Proof. split; [|split]; reflexivity. Qed.

(** The conversion of a Keras model: every model that passes the check makes it fail with AttributeError, the others with
    the exception of the check. *)
Theorem C56_conversion_refuted {V} (model : kmodel V) :
  keras_conditional_wave_functions_to_wave_function model =
    match assert_valid_probabilistic_model model with Ok _ => Err AttributeError | Err e => Err e end.
Proof. unfold keras_conditional_wave_functions_to_wave_function. destruct (assert_valid_probabilistic_model model); reflexivity. Qed.
Theorem C56_no_conversion {V} (model : kmodel V) m : keras_conditional_wave_functions_to_wave_function model <> Ok m.
Proof. rewrite C56_conversion_refuted. destruct (assert_valid_probabilistic_model model); discriminate. Qed.

(** The machines that build their network themselves: with any of the two options the constructor returns an object whose
    predictions are the wave function of the normalised conditionals, of the masked network if equal_up_down_spins is
    given, and whose conditional log probabilities are twice the real parts. *)
Theorem C56_network_machine k net s : (forall a, In a k -> fst a = "use_pfor"%string \/ fst a = "equal_up_down_spins"%string) ->
  exists m p c, network_machine KInput k = Ok m /\ predictions_ m = Some p /\ conditional_log_probs_ m = Some c /\
    use_pfor m = Some (match argument "use_pfor" k with Some b => b | None => false end) /\
    let used := match argument "equal_up_down_spins" k with Some true => masked_net net | _ => net end in
    evaluate net s p = Some (VNumber (predictions used s)) /\
    evaluate net s c = Some (VReal (map (conditional_log_probs used s) (range (List.length s)))).
Proof.
  intros H. rewrite network_machine_ok by exact H. eexists. eexists. eexists. split; [reflexivity|]. split; [reflexivity|]. split; [reflexivity|]. split; [reflexivity|].
  cbv zeta. unfold predictions, conditional_log_probs, conditional_log_wave_function.
  destruct (argument "equal_up_down_spins" k) as [[|]|]; cbn [default].
  - destruct (evaluate_net net s (KEqualUpDownSpins (KNetwork KInput) KInput) _ eq_refl) as (E1 & E2). rewrite E1, E2, <- rows_of_masked, !map_map. split; reflexivity.
  - destruct (evaluate_net net s (KNetwork KInput) _ eq_refl) as (E1 & E2). rewrite E1, E2, !map_map. split; reflexivity.
  - destruct (evaluate_net net s (KNetwork KInput) _ eq_refl) as (E1 & E2). rewrite E1, E2, !map_map. split; reflexivity.
Qed.
Example C56_options : argument "equal_up_down_spins" [("use_pfor", true); ("equal_up_down_spins", true)]%string = Some true /\
  forall a, In a [("use_pfor", true); ("equal_up_down_spins", true)]%string -> fst a = "use_pfor"%string \/ fst a = "equal_up_down_spins"%string.
Proof. split; [reflexivity|]. intros a [<-|[<-|[]]]; auto. Qed.
Theorem C56_unknown_argument k a : In a k -> fst a <> "use_pfor"%string -> fst a <> "equal_up_down_spins"%string ->
  network_machine KInput k = Err TypeError /\ custom_ordering_machine KInput k = Err TypeError.
Proof.
  intros Ha N1 N2. split; [exact (network_machine_bad _ _ _ Ha N1 N2)|]. unfold custom_ordering_machine. now rewrite (network_machine_bad _ _ _ Ha N1 N2).
Qed.
Example C56_typo : network_machine KInput [("use_for", true)]%string = Err TypeError.
Proof. reflexivity. Qed.

(** The machine with a custom ordering accepts the same options and forgets both: its wave function is never masked and
    use_pfor is False. *)
Theorem C56_custom_ordering k net s : (forall a, In a k -> fst a = "use_pfor"%string \/ fst a = "equal_up_down_spins"%string) ->
  exists m p, custom_ordering_machine KInput k = Ok m /\ predictions_ m = Some p /\ use_pfor m = Some false /\
    evaluate net s p = Some (VNumber (predictions net s)).
Proof.
  intros H. rewrite custom_machine_ok by exact H. eexists. eexists. split; [reflexivity|]. split; [reflexivity|]. split; [reflexivity|].
  destruct (evaluate_net net s (KReordered (KNetwork (KOrdered KInput))) _ eq_refl) as (E1 & _). rewrite E1, map_map. reflexivity.
Qed.
(** So equal_up_down_spins does not reach its wave function. *)
Theorem C56_custom_ordering_refuted : exists k net s m p, argument "equal_up_down_spins" k = Some true /\
  custom_ordering_machine KInput k = Ok m /\ predictions_ m = Some p /\
  evaluate net s p <> Some (VNumber (predictions (masked_net net) s)).
Proof.
  set (net := fun (_ : list Z) (_ : nat) => [C0; C0]). set (s := [1; 1]%Z). set (k := [("equal_up_down_spins"%string, true)]).
  destruct (C56_custom_ordering k net s) as (m & p & Em & Ep & _ & V).
  { intros a [<-|[]]. right. reflexivity. }
  exists k, net, s, m, p. split; [reflexivity|]. split; [exact Em|]. split; [exact Ep|]. rewrite V. intros F. injection F as F _. unfold reduce_logsumexp, Rsum in F. cbn [fold_right] in F.
  assert (L : (LOG_ZERO < 1 / 2 * ln (exp (LOG_ZERO * 2) + exp 0) - 1 / 2 * ln (exp 0 + exp 0))%R).
  { rewrite exp_0. assert (0 < exp (LOG_ZERO * 2))%R by apply exp_pos.
    assert (A : (0 <= ln (exp (LOG_ZERO * 2) + 1))%R) by (rewrite <- ln_1 at 1; apply ln_le_; lra).
    assert (B : (ln (1 + 1) <= 1)%R).
    { apply Rle_trans with (ln (exp 1)); [|rewrite ln_exp; lra]. apply ln_le_; [lra|]. pose proof (exp_ineq1 1 ltac:(lra)). lra. }
    assert (C : (LOG_ZERO < -1)%R) by (unfold LOG_ZERO; apply IZR_lt; reflexivity). lra. }
  replace ((0 + LOG_ZERO * 0) * 2)%R with 0%R in F by ring. replace ((0 + LOG_ZERO * 1) * 2)%R with (LOG_ZERO * 2)%R in F by ring.
  replace (0 * 2)%R with 0%R in F by ring. rewrite !Rplus_0_r in F. rewrite exp_0 in *. lra.
Qed.

Print Assumptions C56_wrapper_refuted.
Print Assumptions C56_wrapper_attribute.
Print Assumptions C56_conversion_refuted.
Print Assumptions C56_no_conversion.
Print Assumptions C56_network_machine.
Print Assumptions C56_unknown_argument.
Print Assumptions C56_custom_ordering.
Print Assumptions C56_custom_ordering_refuted.

(** A valid model (a shift and a pointwise layer on four sites) passes the check, the conversion fails. *)
Example C56_valid_model : assert_valid_probabilistic_model (causal_example 4) = Ok tt /\
  keras_conditional_wave_functions_to_wave_function (causal_example 4) = Err AttributeError.
Proof. split; vm_compute; reflexivity. Qed.
