(** The statements of properties C33 to C36, assembled. *)
From Coq Require Import List ZArith Reals Bool Arith Lia Lra Permutation.
From Verif Require Import Base Cplx LatticeSpec ExactUtilsSpec IsingModel HeisenbergModel AutoregressiveSpec AutoregressiveProofs
  ObservableModel ObservableSpec ObservableProofs
  ExactModel ExactSpec ExactProofs ExactGradientProofs ExactGeneratorProofs ExactSamplerProofs ExactOperatorProofs.
Import ListNotations.
Local Open Scope R_scope.

Lemma gradient_sum n H (lp : R -> list Z -> C) d x :
  Rsum (fun s => 2 * Re (coefficient n H lp x s * d s)%C) (spin_configs n) =
  Rsum (fun sc => 2 * Re (snd sc * d (fst sc))%C) (combine (basis n) (map (gradient_coefficient n H (lp x)) (basis n))).
Proof.
  rewrite <- (Rsum_perm _ _ _ (basis_perm n)). induction (basis n) as [|s l IH]; [reflexivity|]. cbn [map combine].
  rewrite !Rsum_cons, IH. cbn [fst snd]. unfold coefficient. now rewrite coefficient_spec.
Qed.

Lemma reported_ok n H lp e : good_exact n H e -> reported_energy e lp = result_energy n H lp.
Proof.
  intros G. unfold reported_energy. destruct (machine_updated_ok n H lp e G) as (e' & E & _ & _ & _ & _ & _ & _ & Cu & _).
  now rewrite E.
Qed.

Lemma gradient_ok : forall n H op batch past e (lp : R -> list Z -> C) d x, (n <= 31)%nat -> operator_represents n H op -> hermitian n H ->
  good_batch_size n batch -> built n op batch past e ->
  (forall s, In s (spin_configs n) -> Cderive (fun t => lp t s) x (d s)) ->
  exists e', machine_updated (lp x) e = Ok e' /\ length (grad_coefficients e') = length (states e') /\
    derivable_pt_lim (fun t => Re (reported_energy e (lp t))) x
      (Rsum (fun sc => 2 * Re (snd sc * d (fst sc))%C) (combine (states e') (grad_coefficients e'))) /\
    derivable_pt_lim (fun t => Re (expectation n H (lp t))) x
      (Rsum (fun sc => 2 * Re (snd sc * d (fst sc))%C) (combine (states e') (grad_coefficients e'))).
Proof.
  intros n H op batch past e lp d x Hn HO HH HB HE HD. destruct (built_good n H op batch past e Hn HO HB HE) as (G & _).
  destruct (machine_updated_ok n H (lp x) e G) as (e' & E & _).
  destruct (updated_coefficients n H (lp x) e e' G E) as (G' & _ & _ & GC).
  exists e'. split; [exact E|]. rewrite GC, (ge_states _ _ _ G'). split; [apply map_length|].
  pose proof (energy_derivative n H lp d x HD HH) as D. rewrite gradient_sum in D. split.
  - apply (limit_ext (fun t => Re (result_energy n H (lp t)))); [|exact D]. intros t. now rewrite (reported_ok n H).
  - apply (limit_ext (fun t => Re (result_energy n H (lp t)))); [|exact D]. intros t. now rewrite (proj2 (expectation_real n H (lp t) HH)).
Qed.

Lemma divides n b : (0 < b)%nat -> (2 ^ n mod b = 0)%nat -> (2 ^ n = 2 ^ n / b * b)%nat.
Proof. intros Hb Hm. pose proof (Nat.div_mod (2 ^ n) b ltac:(lia)). rewrite Hm in H. lia. Qed.

Lemma cycle_gradient_ok : forall n H op batch past e (lp : R -> list Z -> C) d x, (n <= 31)%nat -> operator_represents n H op -> hermitian n H ->
  good_batch_size n batch -> built n op batch past e ->
  (forall s, In s (spin_configs n) -> Cderive (fun t => lp t s) x (d s)) ->
  exists g batches D, generator_run (fun _ => lp x) (start_generator e) 0 (2 ^ n / batch_size e) = Ok (g, batches) /\
    derivable_pt_lim (fun t => cycle_loss batches (lp t)) x D /\
    derivable_pt_lim (fun t => Re (reported_energy e (lp t))) x (INR (batch_size e) * D).
Proof.
  intros n H op batch past e lp d x Hn HO HH HB HE HD. destruct (built_good n H op batch past e Hn HO HB HE) as (G & _).
  pose proof (divides n (batch_size e) (ge_batch _ _ _ G) (ge_div _ _ _ G)) as Hm.
  destruct (cycles n H (fun _ => lp x) _ 1 e 0 G Hm) as (e' & yss & R & _ & _ & _ & L & A).
  destruct yss as [|ys [|]]; try discriminate L. destruct (A 0%nat ys eq_refl) as [_ CO].
  rewrite Nat.mul_1_l in R. cbn [concat] in R. rewrite app_nil_r in R.
  exists (e', 2 ^ n)%nat, ys. eexists.
  split. { unfold start_generator, num_of_states. rewrite (ge_n _ _ _ G). exact R. }
  assert (HbR : INR (batch_size e) <> 0) by (apply not_0_INR; pose proof (ge_batch _ _ _ G); lia).
  split.
  - apply (limit_ext (fun t => / INR (batch_size e) * Rsum (fun s => 2 * Re (lp t s * gradient_coefficient n H (lp x) s)%C) (spin_configs n))).
    { intros t. symmetry. now apply (cycle_loss_sum n H (lp x)). }
    exact (loss_derivative n (gradient_coefficient n H (lp x)) lp d x _ HD).
  - apply (limit_ext (fun t => Re (result_energy n H (lp t)))). { intros t. now rewrite (reported_ok n H). }
    eapply limit_value; [|apply (energy_derivative n H lp d x HD HH)].
    rewrite <- Rmult_assoc, Rinv_r, Rmult_1_l by exact HbR. apply Rsum_ext. intros s _. unfold coefficient. now rewrite coefficient_spec.
Qed.

Lemma cycles_ok : forall n H op batch past e (machine : nat -> list Z -> C) k, (n <= 31)%nat -> operator_represents n H op ->
  good_batch_size n batch -> built n op batch past e ->
  let b := Nat.min batch (2 ^ n) in let m := (2 ^ n / b)%nat in
  exists e' i cycles, generator_run machine (start_generator e) 0 (k * m) = Ok ((e', i), concat cycles) /\
    length cycles = k /\ updates e' = (k + updates e)%nat /\
    forall c ys, nth_error cycles c = Some ys -> length ys = m /\
      Forall (fun y => length (fst y) = b /\ length (snd y) = b) ys /\
      Permutation (concat (map fst ys)) (spin_configs n) /\
      concat (map snd ys) = map (gradient_coefficient n H (machine (c * m)%nat)) (concat (map fst ys)).
Proof.
  intros n H op batch past e machine k Hn HO HB HE b m. destruct (built_good n H op batch past e Hn HO HB HE) as (G & Eb & _).
  fold b in Eb. pose proof (divides n (batch_size e) (ge_batch _ _ _ G) (ge_div _ _ _ G)) as Hm. rewrite Eb in Hm. fold m in Hm.
  rewrite <- Eb in Hm. destruct (cycles n H machine m k e 0 G Hm) as (e' & yss & R & _ & _ & U & L & A).
  exists e', (2 ^ n)%nat, yss. split. { unfold start_generator, num_of_states. rewrite (ge_n _ _ _ G). exact R. }
  split; [exact L|]. split; [exact U|]. intros c ys Hc. destruct (A c ys Hc) as [Ly (F & E1 & E2)]. rewrite Eb in F.
  split; [exact Ly|]. split; [exact F|]. rewrite E2, E1. split; [apply basis_perm|reflexivity].
Qed.

Lemma batch_sizes_ok : forall n H op, (n <= 31)%nat -> operator_represents n H op ->
  new_exact n op 0 = Err ZeroDivisionError /\
  (forall batch, (0 < batch)%nat -> ~ Nat.divide (Nat.min batch (2 ^ n)) (2 ^ n) -> new_exact n op batch = Err GenericException) /\
  (forall batch, (0 < batch)%nat -> Nat.divide (Nat.min batch (2 ^ n)) (2 ^ n) ->
     exists e, new_exact n op batch = Ok e /\ batch_size e = Nat.min batch (2 ^ n)).
Proof.
  intros n H op Hn HO. pose proof (ExactUtilsProofs.pow2_pos n) as P. split; [apply zero_batch_rejected|]. split.
  - intros batch Hb ND. apply bad_batch_rejected; [exact Hb|]. intros E. apply ND. apply Nat.mod_divide; [lia|exact E].
  - intros batch Hb D. apply Nat.mod_divide in D; [|lia].
    destruct (new_exact_ok n H op batch Hn HO (conj Hb D)) as (e & E & _ & B & _). now exists e.
Qed.

Lemma exact_sampler_interval : forall n H op batch past e lp e', (n <= 31)%nat -> operator_represents n H op ->
  good_batch_size n batch -> built n op batch past e -> machine_updated lp e = Ok e' ->
  forall s, In s (spin_configs n) -> exists a, 0 <= a /\ a + probability n lp s <= 1 /\
  forall us, Forall (fun u => 0 <= u < 1) us ->
  exists samples, exact_sampler_next e' us = Ok samples /\ length samples = length us /\
    (forall t, In t samples -> In t (spin_configs n)) /\
    forall k u, nth_error us k = Some u -> (nth_error samples k = Some s <-> a <= u < a + probability n lp s).
Proof.
  intros n H op batch past e lp e' Hn HO HB HE EU s Hs. destruct (built_good n H op batch past e Hn HO HB HE) as (G & _).
  destruct (basis_position n s Hs) as (i & Hi). set (w := map (probability n lp) (basis n)).
  assert (Fw : Forall (fun x => 0 <= x) w).
  { apply Forall_forall. intros x Hx. apply in_map_iff in Hx. destruct Hx as (t & <- & _). apply probability_nonneg. }
  assert (Sw : Rsum (fun x => x) w = 1) by apply Rsum_probability.
  assert (Lw : length w = (2 ^ n)%nat) by (unfold w; rewrite map_length; apply basis_length).
  assert (Ei : nth i w 0 = probability n lp s) by (apply nth_error_nth; unfold w; now apply map_nth_error).
  assert (Pw : 0 < Rsum (fun x => x) w) by lra.
  exists (partial w i / Rsum (fun x => x) w).
  destruct (draw_basis n w [] Lw Fw Pw (Forall_nil _)) as (_ & _ & D0). destruct (D0 s i Hi) as (A & B & _).
  assert (Ep : nth i w 0 / Rsum (fun x => x) w = probability n lp s) by (rewrite Ei, Sw; field). rewrite Ep in B.
  split; [exact A|]. split; [exact B|]. intros us Hus.
  destruct (exact_sampler_ok n H lp e e' us G EU Hus) as (samples & E1 & E2 & E3 & E4).
  exists samples. split; [exact E1|]. split; [exact E2|]. split; [exact E3|]. intros k u Hk.
  destruct (draw_basis n w us Lw Fw Pw Hus) as (_ & _ & D). destruct (D s i Hi) as (_ & _ & D1). specialize (D1 k u Hk).
  rewrite Ep in D1. rewrite E4. exact D1.
Qed.

Lemma vector_sampler_interval : forall n (v : list C), length v = (2 ^ n)%nat -> Rabs (Rsum born v - 1) <= / 2 ^ 26 ->
  forall s, In s (spin_configs n) -> exists a, let p := born (nth (Z.to_nat (positional_value s)) v C0) / Rsum born v in
  0 <= a /\ a + p <= 1 /\
  forall us, Forall (fun u => 0 <= u < 1) us ->
  exists samples, wave_function_sampler_next v n us = Ok samples /\ length samples = length us /\
    (forall t, In t samples -> In t (spin_configs n)) /\
    forall k u, nth_error us k = Some u -> (nth_error samples k = Some s <-> a <= u < a + p).
Proof.
  intros n v L T s Hs. pose proof (basis_index n s Hs) as Hi. set (i := Z.to_nat (positional_value s)) in *. set (w := map born v).
  assert (Fw : Forall (fun x => 0 <= x) w).
  { apply Forall_forall. intros x Hx. apply in_map_iff in Hx. destruct Hx as (t & <- & _). apply Cnorm2_nonneg. }
  assert (Sw : Rsum (fun x => x) w = Rsum born v) by (unfold w; now rewrite Rsum_map).
  assert (Lw : length w = (2 ^ n)%nat) by (unfold w; now rewrite map_length).
  assert (Hil : (i < length v)%nat) by (rewrite L, <- basis_length; apply nth_error_Some; now rewrite Hi).
  assert (Ei : nth i w 0 = born (nth i v C0)) by (unfold w; rewrite (nth_indep _ 0 (born C0)) by (rewrite map_length; exact Hil); apply map_nth).
  assert (Pw : 0 < Rsum (fun x => x) w).
  { rewrite Sw. assert (/ 2 ^ 26 < 1).
    { apply (Rmult_lt_reg_l (2 ^ 26)); [apply pow_lt; lra|]. rewrite Rinv_r by (apply pow_nonzero; lra). simpl. lra. }
    revert T. unfold Rabs. destruct (Rcase_abs (Rsum born v - 1)); lra. }
  exists (partial w i / Rsum (fun x => x) w). cbv zeta.
  destruct (draw_basis n w [] Lw Fw Pw (Forall_nil _)) as (_ & _ & D0). destruct (D0 s i Hi) as (A & B & _).
  rewrite <- Sw, <- Ei. split; [exact A|]. split; [exact B|]. intros us Hus.
  destruct (draw_basis n w us Lw Fw Pw Hus) as (D1 & D2 & D3). destruct (D3 s i Hi) as (_ & _ & D4).
  eexists. split; [now apply wave_sampler_ok|]. split; [exact D1|]. split; [exact D2|exact D4].
Qed.

Lemma vector_sampler_refuted : exists v us, length v = (2 ^ 1)%nat /\ Forall (fun u => 0 <= u < 1) us /\
  wave_function_sampler_next v 1 us = Err ValueError.
Proof.
  exists [C0; C0], [/ 2]. split; [reflexivity|]. split; [constructor; [lra|constructor]|]. apply wave_sampler_rejects.
  unfold Rsum. cbn [fold_right]. unfold born. rewrite Cexp_0. unfold Cnorm2, C1. cbn [fst snd].
  replace (1 * 1 + 0 * 0 + (1 * 1 + 0 * 0 + 0) - 1) with 1 by ring. rewrite Rabs_R1. unfold choice_tolerance.
  rewrite <- Rinv_1. apply Rinv_lt_contravar; [|simpl; lra]. rewrite Rmult_1_l. apply pow_lt. lra.
Qed.

Definition imaginary_operator : operator :=
  {| find_conn := fun samples => Ok {| conns := [samples]; mels := [map (fun _ => (0, 1)) samples]; uses := [map (fun _ => true) samples] |};
     declared_max := Some 1%nat |}.
Definition imaginary_matrix (s t : list Z) : C := if list_eq_dec Z.eq_dec s t then (0, 1) else C0.

Lemma imaginary_represents n : operator_represents n imaginary_matrix imaginary_operator.
Proof.
  intros samples _ Hs. exists 1%nat. eexists. split; [reflexivity|]. split; [lia|]. split.
  - split; [|split; [|split]].
    + unfold rectangular, arrays. cbn [conns mels uses]. repeat split; auto; constructor; auto; apply map_length.
    + intros b s Hb. unfold entry. cbn [conns uses nth]. split; [now apply nth_error_nth|].
      apply nth_error_nth. now rewrite (map_nth_error _ _ _ Hb).
    + intros k b Hk Hb. unfold entry. cbn [uses mels]. replace k with 0%nat by lia. cbn [nth]. intros E. exfalso.
      rewrite (IsingProofs.nth_map_in _ _ _ false []) in E by exact Hb. discriminate E.
    + intros b s Hb. split.
      * intros k Hk _. replace k with 0%nat by lia. unfold entry. cbn [conns nth]. rewrite (nth_error_nth _ _ _ Hb). apply Hs.
        eapply nth_error_In, Hb.
      * intros t Ht. unfold Csum, entry. cbn [seq fold_right conns uses mels nth].
        rewrite (nth_error_nth _ _ _ Hb). rewrite (nth_error_nth _ _ false (map_nth_error (fun _ => true) _ _ Hb)).
        rewrite (nth_error_nth _ _ C0 (map_nth_error (fun _ => (0, 1)) _ _ Hb)). unfold imaginary_matrix.
        destruct (list_eq_dec Z.eq_dec s t); ring.
  - split; [cbn; intros k E; injection E as <-; lia|]. cbn [conns]. intros row s [<-|[]] Hr. apply Hs in Hr.
    apply spins_in in Hr. now destruct Hr.
Qed.

Lemma non_hermitian_refuted :
  exists n H op batch e lp e', operator_represents n H op /\ built n op batch [] e /\ machine_updated lp e = Ok e' /\
    current_energy e' <> expectation n H lp.
Proof.
  assert (HB : good_batch_size 1 2) by (split; [lia|reflexivity]).
  destruct (built_ok 1 imaginary_matrix imaginary_operator 2 [] ltac:(lia) (imaginary_represents 1) HB) as (e & He & G & _).
  destruct (machine_updated_ok 1 imaginary_matrix (fun _ => C0) e G) as (e' & E & _ & _ & _ & _ & _ & _ & Cu & _).
  exists 1%nat, imaginary_matrix, imaginary_operator, 2%nat, e, (fun _ => C0), e'.
  split; [apply imaginary_represents|]. split; [exact He|]. split; [exact E|]. rewrite Cu, result_energy_conj.
  intros X. apply conj_fixed_real in X. revert X. unfold expectation, norm2, braket, apply_matrix, spin_configs, Rsum, Csum, born.
  cbn [strings flat_map map app fold_right]. unfold imaginary_matrix. cbn. rewrite Cexp_0.
  unfold Cscale, Cnorm2, Cmult, Cplus, Cconj, C1, C0, Im. cbn [fst snd]. rewrite exp_0, cos_0, sin_0. intros X.
  match type of X with / ?a * ?b = 0 => replace a with 2 in X by ring; replace b with 2 in X by ring end. lra.
Qed.
