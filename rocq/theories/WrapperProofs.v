(** Proofs about the constructors of the machines. *)
From Coq Require Import String List ZArith Bool Reals Lia Lra Arith.
From Verif Require Import Base Cplx AutoregressiveModel EqualSpinsModel EqualSpinsProofs LatticeSpec GraphModel WrapperModel.
Import ListNotations.

Lemma wrapper_fails k : autoregressive_wrapper k = Err (match without "use_pfor" k with [] => AttributeError | _ => TypeError end).
Proof. unfold autoregressive_wrapper, autoregressive_machine_init, machine_init. destruct (without "use_pfor" k); reflexivity. Qed.

Lemma without_names name k : without name k = [] <-> forall a, In a k -> fst a = name.
Proof.
  unfold without. induction k as [|(n, v) k IH]; cbn [filter]; [split; [intros _ a []|reflexivity]|]. cbn [fst].
  destruct (String.eqb_spec n name) as [->|N]; cbn [negb].
  - rewrite IH. split; [intros H a [<-|Ha]; auto|intros H a Ha; apply H; now right].
  - split; [discriminate|]. intros H. exfalso. apply N. exact (H (n, v) (or_introl eq_refl)).
Qed.

(** The options of a machine: the two flags, at most once each, in any order. *)
Lemma argument_without name other k : name <> other -> argument name (without other k) = argument name k.
Proof.
  intros N. unfold without. induction k as [|(n, v) k IH]; [reflexivity|]. cbn [filter fst]. destruct (String.eqb_spec n other) as [->|M]; cbn [negb argument].
  - rewrite IH. destruct (String.eqb_spec other name); [congruence|reflexivity].
  - rewrite IH. reflexivity.
Qed.

Definition machine_of (input x : ktensor) (k : kwargs) (u : ktensor) : machine :=
  let cond := KNormalizeInLogSpace 2 x in
  {| keras_input_layer := Some input; use_pfor := Some (default false (argument "use_pfor" k));
     predictions_ := Some (KCombine cond (KToComplex64 (KPlusMinusOneToOneHot input)));
     conditional_log_wave_function_ := Some cond; conditional_log_probs_ := Some (KTwiceReal cond);
     unnormalized_ := Some u; conditional_wave_functions_model := None |}.

Lemma network_machine_ok input k : (forall a, In a k -> fst a = "use_pfor"%string \/ fst a = "equal_up_down_spins"%string) ->
  network_machine input k = Ok (machine_of input
    (if default false (argument "equal_up_down_spins" k) then KEqualUpDownSpins (KNetwork input) input else KNetwork input) k (KNetwork input)).
Proof.
  intros H. unfold network_machine, auto_normalized_init. cbn [read_unnormalized set_unnormalized unnormalized_ read bind].
  unfold autoregressive_machine_init, machine_init.
  assert (E : without "use_pfor" (without "equal_up_down_spins" k) = []).
  { apply without_names. intros a Ha. unfold without in Ha. apply filter_In in Ha. destruct Ha as (Ha & Hn). destruct (H a Ha) as [->|B]; [reflexivity|]. rewrite B in Hn. discriminate. }
  rewrite E. cbn [bind]. rewrite (argument_without "use_pfor" "equal_up_down_spins" k) by discriminate. reflexivity.
Qed.
Lemma network_machine_bad input k a : In a k -> fst a <> "use_pfor"%string -> fst a <> "equal_up_down_spins"%string -> network_machine input k = Err TypeError.
Proof.
  intros Ha N1 N2. unfold network_machine, auto_normalized_init. cbn [read_unnormalized set_unnormalized unnormalized_ read bind].
  unfold autoregressive_machine_init, machine_init. destruct (without "use_pfor" (without "equal_up_down_spins" k)) as [|b t] eqn:E; [|reflexivity].
  exfalso. apply N1. rewrite without_names in E. apply E. unfold without. apply filter_In. split; [exact Ha|]. destruct (String.eqb_spec (fst a) "equal_up_down_spins"); [contradiction|reflexivity].
Qed.
Lemma custom_machine_ok k : (forall a, In a k -> fst a = "use_pfor"%string \/ fst a = "equal_up_down_spins"%string) ->
  custom_ordering_machine KInput k = Ok (machine_of KInput (KReordered (KNetwork (KOrdered KInput))) [] (KReordered (KNetwork (KOrdered KInput)))).
Proof. intros H. unfold custom_ordering_machine. rewrite network_machine_ok by exact H. reflexivity. Qed.

Lemma rows_of_masked net s : map (masked_net net s) (range (length s)) = equal_up_down_spins (map (net s) (range (length s))) s.
Proof.
  assert (L : length (equal_up_down_spins (map (net s) (range (length s))) s) = length s).
  { unfold equal_up_down_spins. rewrite map2_length, map_length, range_length, half_length. lia. }
  unfold masked_net. set (m := equal_up_down_spins _ _) in *. clearbody m. rewrite <- L. apply map_nth_range.
Qed.

Lemma evaluate_net net s x rows : evaluate net s x = Some (VComplex rows) ->
  evaluate net s (KCombine (KNormalizeInLogSpace 2 x) (KToComplex64 (KPlusMinusOneToOneHot KInput))) =
    Some (VNumber (combine_complex (map (normalize_complex 2) rows) (map plus_minus_one_to_one_hot s))) /\
  evaluate net s (KTwiceReal (KNormalizeInLogSpace 2 x)) = Some (VReal (map (map (fun z => Re z * 2)%R) (map (normalize_complex 2) rows))).
Proof. intros E. cbn [evaluate]. rewrite E. split; reflexivity. Qed.
