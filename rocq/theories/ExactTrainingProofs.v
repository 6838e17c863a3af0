(** Lemmas about training on all configurations. *)
From Coq Require Import List ZArith Reals Bool Arith Lia Lra Permutation.
From Verif Require Import Base Cplx Vec IsingModel TrainingModel TrainingSpec TrainingProofs AutoregressiveSpec AutoregressiveProofs ObservableModel ObservableSpec
  ExactModel ExactSpec ExactProofs ExactGradientProofs ExactGeneratorProofs ExactFinalProofs ExactCallbackModel PipelineSpec PipelineProofs
  ExactTrainingModel ExactTrainingSpec.
Import ListNotations.
Local Open Scope R_scope.

(** * The slope of the energy along a path of machines *)
Lemma loss_slope n H (p : R -> list Z -> C) (D : list Z -> C -> R) x : hermitian n H ->
  (forall s t, In s (spin_configs n) -> derivable_pt_lim (fun h => 2 * Re (p h s * t)%C) x (D s t)) ->
  derivable_pt_lim (fun h => Re (expectation n H (p h))) x (Rsum (fun s => D s (gradient_coefficient n H (p x) s)) (spin_configs n)).
Proof.
  intros HH HD. set (ds := fun s => (D s C1 / 2, D s (0, -1) / 2)).
  assert (HC : forall s, In s (spin_configs n) -> Cderive (fun h => p h s) x (ds s)).
  { intros s Hs. split; cbn [Re Im fst snd ds]; apply half_derivative.
    - apply (limit_ext (fun h => 2 * Re (p h s * C1)%C)); [|apply HD; assumption].
      intros v. unfold Cmult, C1, Re. cbn [fst snd]. ring.
    - apply (limit_ext (fun h => 2 * Re (Cmult (p h s) (0, -1)))); [|apply HD; assumption].
      intros v. unfold Cmult, Re, Im. cbn [fst snd]. ring. }
  apply (limit_ext (fun h => Re (result_energy n H (p h)))). { intros h. now rewrite (proj2 (expectation_real n H (p h) HH)). }
  eapply limit_value; [|apply (energy_derivative n H p ds x HC HH)].
  apply Rsum_ext. intros s Hs. unfold coefficient. rewrite coefficient_spec.
  eapply uniqueness_limite; [|apply (HD s _ Hs)]. set (t := gradient_coefficient n H (p x) s).
  apply (limit_ext (fun h => 2 * Re (t * p h s)%C)). { intros v. unfold Cmult, Re. cbn [fst snd]. ring. }
  apply (derivable_pt_lim_scal (fun h => Re (t * p h s)%C) 2). exact (proj1 (Cderive_scal t _ _ _ (HC s Hs))).
Qed.

(** The gradient of the energy: the per sample gradients with the coefficients of all configurations. *)
Definition full_gradient (n d : nat) (H : list Z -> list Z -> C) (log_psi : list R -> list Z -> C) (sg : list R -> list Z * C -> list R) (w : list R) : list R :=
  vsum d (map (fun s => sg w (s, gradient_coefficient n H (log_psi w) s)) (basis n)).

Lemma full_gradient_nth n d H lp sg w i : (forall x, length (sg w x) = d) ->
  nth i (full_gradient n d H lp sg w) 0 = Rsum (fun s => nth i (sg w (s, gradient_coefficient n H (lp w) s)) 0) (spin_configs n).
Proof.
  intros L. unfold full_gradient. rewrite nth_vsum.
  - rewrite Rsum_map. apply (Rsum_perm _ _ _ (basis_perm n)).
  - intros v Hv. apply in_map_iff in Hv. destruct Hv as (x & <- & _). apply L.
Qed.
Lemma full_gradient_length n d H lp sg w : (forall x, length (sg w x) = d) -> length (full_gradient n d H lp sg w) = d.
Proof. intros L. apply vsum_length. intros v Hv. apply in_map_iff in Hv. destruct Hv as (x & <- & _). apply L. Qed.

Lemma full_gradient_is n d H lp sg w : hermitian n H -> loss_gradient n d lp sg w -> energy_gradient_is n d H lp w (full_gradient n d H lp sg w).
Proof.
  intros HH HG. split; [apply full_gradient_length, HG|]. intros i Hi. rewrite full_gradient_nth by apply HG.
  pose proof (loss_slope n H (fun v => lp (upd w i v)) (fun s t => nth i (sg w (s, t)) 0) (nth i w 0) HH) as P. cbv beta in P.
  rewrite upd_same_value in P. apply P. intros s t Hs. apply (proj2 HG); assumption.
Qed.

Lemma gradient_unique n d H lp w G G' : energy_gradient_is n d H lp w G -> energy_gradient_is n d H lp w G' -> G = G'.
Proof.
  intros [L D] [L' D']. apply vec_ext; [congruence|]. intros i. destruct (Nat.lt_ge_cases i d) as [Hi|Hi].
  - eapply uniqueness_limite; [apply D|apply D']; exact Hi.
  - rewrite !nth_overflow by lia. reflexivity.
Qed.

(** * One cycle *)
Section Cycle.
  Context {S : Type} (O : optimizer S) (sum : bool) (d : nat) (lp : list R -> list Z -> C) (sg : list R -> list Z * C -> list R).
  Context (Hs : forall w x, length w = d -> length (sg w x) = d).
  Context (Hk : forall s g, length (weights O s) = d -> length g = d -> length (weights O (apply_gradients O s g)) = d).

  Lemma exact_fit_app : forall a b g A, exact_fit O sum d lp sg g A (a + b) =
    (do r <- exact_fit O sum d lp sg g A a; exact_fit O sum d lp sg (fst r) (snd r) b).
  Proof.
    induction a as [|a IH]; intros b g A; [reflexivity|]. cbn [Nat.add exact_fit].
    destruct (generator_next (lp (weights O (inner A))) g) as [[g' y]|]; [cbn [bind]|reflexivity].
    destruct (train_step _ _ _ _ _ _) as [A'|]; [cbn [bind]|reflexivity]. apply IH.
  Qed.

  Lemma mean_length w b : length w = d -> length (mean_gradient d sg w b) = d.
  Proof. intros Lw. unfold mean_gradient. rewrite vscale_length. apply vsum_length. intros v Hv. apply in_map_iff in Hv. destruct Hv as (x & <- & _). now apply Hs. Qed.

  Definition contributions (c : R) (w : list R) (ys : list (list (list Z) * list C)) : list (list R) :=
    map (fun y => vscale c (mean_gradient d sg w (combine (fst y) (snd y)))) ys.

  (** Steps that do not complete a window leave the weights and add to the accumulators. *)
  Lemma inside : forall r g A g' ys j f t, let w := weights O (inner A) in length w = d ->
    generator_run (fun _ => lp w) g t r = Ok (g', ys) -> acc_freq A = f -> (acc_iterations A mod f = j)%nat -> (j + r < f)%nat -> length (accumulators A) = d ->
    exists A', exact_fit O sum d lp sg g A r = Ok (g', A') /\ inner A' = inner A /\ acc_freq A' = f /\
      acc_iterations A' = (acc_iterations A + r)%nat /\
      accumulators A' = vsum d (accumulators A :: contributions (step_scale sum f) w ys).
  Proof.
    induction r as [|r IH]; intros g A g' ys j f t w Lw ER EF EJ LT LA; cbn [generator_run exact_fit] in *.
    - injection ER as <- <-. exists A. split; [reflexivity|]. split; [reflexivity|]. split; [exact EF|]. split; [lia|].
      cbn [contributions map]. unfold vsum. cbn [fold_right]. apply vec_ext; [rewrite vadd_length; [reflexivity|rewrite vzero_length; exact LA]|].
      intros i. rewrite nth_vadd by (rewrite vzero_length; exact LA). rewrite nth_vzero. lra.
    - fold w. destruct (generator_next (lp w) g) as [[g1 y]|] eqn:EN; [cbn [bind] in *|discriminate].
      destruct (generator_run (fun _ => lp w) g1 (Datatypes.S t) r) as [[g2 ys']|] eqn:ER'; [cbn [bind fst snd] in ER|discriminate].
      injection ER as <- <-. unfold train_step. rewrite EF, scaled_gradient. destruct (Nat.eqb_spec f 0); [lia|].
      assert (EM : ((acc_iterations A + 1) mod f = j + 1)%nat).
      { symmetry. pose proof (Nat.div_mod (acc_iterations A) f ltac:(lia)). apply (Nat.mod_unique _ _ (acc_iterations A / f)); lia. }
      rewrite EM. destruct (Nat.eqb_spec (j + 1) 0); [lia|]. cbn [bind].
      set (v := vscale (step_scale sum f) (mean_gradient d sg w (combine (fst y) (snd y)))).
      assert (LV : length v = d) by (unfold v; rewrite vscale_length; now apply mean_length).
      match goal with |- context [exact_fit O sum d lp sg g1 ?B r] => set (A1 := B) end.
      destruct (IH g1 A1 g2 ys' (j + 1)%nat f (Datatypes.S t)) as (A' & E' & I' & F' & T' & C').
      { exact Lw. } { exact ER'. } { reflexivity. } { exact EM. } { lia. } { cbn [A1 accumulators]. rewrite vadd_length; congruence. }
      exists A'. split; [exact E'|]. split; [exact I'|]. split; [exact F'|]. split; [rewrite T'; cbn [A1 acc_iterations]; lia|].
      rewrite C'. cbn [A1 accumulators inner]. fold w.
      assert (FC : forall u, In u (contributions (step_scale sum f) w ys') -> length u = d).
      { intros u Hu. apply in_map_iff in Hu. destruct Hu as (z & <- & _). rewrite vscale_length. now apply mean_length. }
      cbn [contributions map]. fold v. fold (contributions (step_scale sum f) w ys').
      assert (F1 : forall u, In u (vadd (accumulators A) v :: contributions (step_scale sum f) w ys') -> length u = d).
      { intros u [<-|Hu]; [rewrite vadd_length; congruence|now apply FC]. }
      assert (F2 : forall u, In u (accumulators A :: v :: contributions (step_scale sum f) w ys') -> length u = d).
      { intros u [<-|[<-|Hu]]; [exact LA|exact LV|now apply FC]. }
      apply vec_ext; [rewrite !vsum_length; auto|]. intros i. rewrite !nth_vsum by assumption. rewrite !Rsum_cons, nth_vadd by congruence. lra.
  Qed.

  (** The step that completes the window applies the sum. *)
  Lemma complete : forall m g A g' ys f, let w := weights O (inner A) in length w = d -> (0 < f)%nat -> f = Datatypes.S m ->
    generator_run (fun _ => lp w) g 0 f = Ok (g', ys) -> acc_freq A = f -> (acc_iterations A mod f = 0)%nat -> accumulators A = vzero d ->
    exists A', exact_fit O sum d lp sg g A f = Ok (g', A') /\
      inner A' = apply_gradients O (inner A) (vsum d (contributions (step_scale sum f) w ys)) /\ acc_freq A' = f /\
      acc_iterations A' = (acc_iterations A + f)%nat /\ accumulators A' = vzero d /\ length (weights O (inner A')) = d.
  Proof.
    intros m g A g' ys f w Lw Hf Em ER EF EJ EA. assert (LA : length (accumulators A) = d) by (rewrite EA; apply vzero_length).
    rewrite Em in ER. replace (Datatypes.S m) with (m + 1)%nat in ER by lia. rewrite generator_run_app in ER.
    destruct (generator_run (fun _ => lp w) g 0 m) as [[g1 ys1]|] eqn:E1; [cbn [bind fst snd] in ER|discriminate].
    destruct (inside m g A g1 ys1 0%nat f 0%nat Lw E1 EF EJ ltac:(lia) LA) as (A1 & X1 & I1 & F1 & T1 & C1).
    assert (EX : exact_fit O sum d lp sg g A f = exact_fit O sum d lp sg g A (m + 1)) by (f_equal; lia). rewrite EX, exact_fit_app, X1. cbn [bind fst snd exact_fit generator_run] in *.
    rewrite I1. fold w. fold w in C1. destruct (generator_next (lp w) g1) as [[g2 y]|]; [cbn [bind fst snd] in *|discriminate].
    injection ER as <- <-. unfold train_step. rewrite F1, T1, scaled_gradient. destruct (Nat.eqb_spec f 0); [lia|].
    assert (EM : ((acc_iterations A + m + 1) mod f = 0)%nat).
    { replace (acc_iterations A + m + 1)%nat with (acc_iterations A + 1 * f)%nat by lia. rewrite Nat.mod_add by lia. exact EJ. }
    rewrite EM. cbn [Nat.eqb bind]. rewrite I1.
    set (v := vscale (step_scale sum f) (mean_gradient d sg w (combine (fst y) (snd y)))).
    assert (LV : length v = d) by (unfold v; rewrite vscale_length; now apply mean_length).
    assert (FC : forall u, In u (contributions (step_scale sum f) w ys1) -> length u = d).
    { intros u Hu. apply in_map_iff in Hu. destruct Hu as (z & <- & _). rewrite vscale_length. now apply mean_length. }
    assert (F2 : forall u, In u (accumulators A :: contributions (step_scale sum f) w ys1) -> length u = d).
    { intros u [<-|Hu]; [exact LA|now apply FC]. }
    assert (LC : length (accumulators A1) = d) by (rewrite C1; now apply vsum_length).
    assert (LAV : length (vadd (accumulators A1) v) = d) by (rewrite vadd_length; congruence).
    eexists. split; [reflexivity|]. cbn [inner acc_freq acc_iterations accumulators]. split; [|split; [reflexivity|split; [lia|split; [now rewrite LAV|]]]].
    2: { apply Hk; assumption. }
    f_equal. assert (FY : forall u, In u (contributions (step_scale sum f) w (ys1 ++ [y])) -> length u = d).
    { intros u Hu. apply in_map_iff in Hu. destruct Hu as (z & <- & _). rewrite vscale_length. now apply mean_length. }
    apply vec_ext; [rewrite LAV, vsum_length; auto|]. intros i. rewrite nth_vadd by congruence. rewrite C1, !nth_vsum by assumption.
    unfold contributions. rewrite map_app, Rsum_app. cbn [map]. rewrite !Rsum_cons, Rsum_nil. fold v. rewrite EA, nth_vzero. lra.
  Qed.

  (** The contributions of a cycle are the gradient of the energy over the batch size. *)
  Lemma cycle_sum n H b c w ys : length w = d -> (0 < b)%nat -> cycle_ok n H (lp w) b ys ->
    vsum d (contributions c w ys) = vscale (c / INR b) (full_gradient n d H lp sg w).
  Proof.
    intros Lw Hb (F & E1 & E2). assert (NZ : INR b <> 0) by (apply not_0_INR; lia).
    assert (FC : forall u, In u (contributions c w ys) -> length u = d).
    { intros u Hu. apply in_map_iff in Hu. destruct Hu as (z & <- & _). rewrite vscale_length. now apply mean_length. }
    apply vec_ext. { rewrite vscale_length, full_gradient_length by auto. now apply vsum_length. }
    intros i. rewrite nth_vsum, nth_vscale by assumption. unfold contributions. rewrite Rsum_map.
    rewrite (Rsum_ext _ (fun y => c / INR b * Rsum (fun p => nth i (sg w p) 0) (combine (fst y) (snd y)))).
    2: { intros y Hy. rewrite Forall_forall in F. destruct (F y Hy) as [L1 L2]. rewrite nth_vscale. unfold mean_gradient. rewrite nth_vscale, nth_vsum.
         - rewrite Rsum_map, combine_length, L1, L2, Nat.min_id. unfold Rdiv. ring.
         - intros v Hv. apply in_map_iff in Hv. destruct Hv as (x & <- & _). now apply Hs. }
    rewrite Rsum_scal. f_equal. rewrite <- combine_concat.
    2: { eapply Forall_impl; [|exact F]. intros y [L1 L2]. congruence. }
    rewrite E1, E2. unfold full_gradient. rewrite nth_vsum, Rsum_map.
    - generalize (basis n). intros l. induction l as [|s l IH]; [reflexivity|]. cbn [map combine]. rewrite !Rsum_cons, IH. reflexivity.
    - intros v Hv. apply in_map_iff in Hv. destruct Hv as (x & <- & _). now apply Hs.
  Qed.

  Lemma fit_cycles n H f : forall k e A, good_exact n H e -> (2 ^ n = f * batch_size e)%nat -> acc_freq A = f -> (acc_iterations A mod f = 0)%nat ->
    accumulators A = vzero d -> length (weights O (inner A)) = d ->
    exists e' A', exact_fit O sum d lp sg (e, 2 ^ n)%nat A (k * f) = Ok ((e', 2 ^ n)%nat, A') /\ good_exact n H e' /\ batch_size e' = batch_size e /\
      updates e' = (k + updates e)%nat /\ acc_freq A' = f /\ (acc_iterations A' mod f = 0)%nat /\ accumulators A' = vzero d /\ length (weights O (inner A')) = d /\
      inner A' = gradient_steps O (step_scale sum f / INR (batch_size e)) (full_gradient n d H lp sg) (inner A) k.
  Proof.
    induction k as [|k IH]; intros e A G Hm EF EI EA EW.
    - exists e, A. split; [reflexivity|]. split; [exact G|]. repeat (split; [reflexivity || assumption|]). reflexivity.
    - destruct (IH e A G Hm EF EI EA EW) as (e1 & A1 & X1 & G1 & B1 & U1 & F1 & I1 & Z1 & L1 & W1).
      assert (Hf : (0 < f)%nat). { destruct f; [|lia]. rewrite Nat.mul_0_l in Hm. exfalso. exact (Nat.pow_nonzero 2 n ltac:(lia) Hm). }
      rewrite <- B1 in Hm. set (w := weights O (inner A1)).
      destruct (one_cycle n H (fun _ => lp w) e1 0 f G1 Hm) as (e2 & E2 & G2 & B2 & U2 & R2 & C2).
      destruct f as [|m]; [lia|].
      destruct (complete m (e1, 2 ^ n)%nat A1 _ _ (Datatypes.S m) L1 Hf eq_refl R2 F1 I1 Z1) as (A2 & X2 & W2 & F2 & I2 & Z2 & L2).
      exists e2, A2. split. { replace (Datatypes.S k * Datatypes.S m)%nat with (k * Datatypes.S m + Datatypes.S m)%nat by lia. rewrite exact_fit_app, X1. cbn [bind fst snd]. exact X2. }
      split; [exact G2|]. split; [congruence|]. split; [lia|]. split; [exact F2|].
      split. { rewrite I2. replace (acc_iterations A1 + Datatypes.S m)%nat with (acc_iterations A1 + 1 * Datatypes.S m)%nat by lia. rewrite Nat.mod_add by lia. exact I1. }
      split; [exact Z2|]. split; [exact L2|]. rewrite W2. cbn [gradient_steps]. rewrite <- W1. fold w. f_equal. rewrite <- B1, <- B2.
      apply cycle_sum; [exact L1|apply (ge_batch _ _ _ G2)|]. apply cycle_batches; auto. now rewrite B2.
  Qed.
End Cycle.

Lemma run_prefix machine : forall a b g t g' ys, generator_run machine g t (a + b) = Ok (g', ys) -> exists g1 ys1, generator_run machine g t a = Ok (g1, ys1).
Proof.
  intros a b g t g' ys E. rewrite generator_run_app in E. destruct (generator_run machine g t a) as [[g1 ys1]|]; [eauto|discriminate].
Qed.

Lemma run_updates n H machine e e' : forall a t i g ys, updates e = updates e' -> num_of_states (number_of_spins e) = (2 ^ n)%nat ->
  (i + a * batch_size e <= 2 ^ n)%nat -> (0 < batch_size e)%nat -> good_exact n H e ->
  generator_run machine (e, i) t a = Ok (g, ys) -> fst g = e.
Proof.
  induction a as [|a IH]; intros t i g ys EU EN LE HB GE ER; cbn [generator_run] in ER.
  - injection ER as <- <-. reflexivity.
  - unfold generator_next in ER. rewrite EN in ER. assert (LT : (i < 2 ^ n)%nat) by (cbn [Nat.mul] in LE; lia).
    rewrite (proj2 (Nat.ltb_lt _ _) LT) in ER. cbn [bind] in ER.
    destruct (generator_run machine (e, (i + batch_size e)%nat) (Datatypes.S t) a) as [[g2 y2]|] eqn:E2; [cbn [bind fst snd] in ER|discriminate].
    injection ER as <- <-. apply (IH _ _ _ _ EU EN) in E2; auto. cbn [Nat.mul] in LE. lia.
Qed.

Lemma training_ok : forall {S} n H op batch past e lp sg d (O : optimizer S) sum s0, (n <= 31)%nat -> operator_represents n H op -> hermitian n H ->
  good_batch_size n batch -> built n op batch past e -> length (weights O s0) = d -> (forall w x, length w = d -> length (sg w x) = d) ->
  (forall s g, length (weights O s) = d -> length g = d -> length (weights O (apply_gradients O s g)) = d) ->
  forall k r, (r < num_of_batch_until_full_cycle e)%nat -> exists e' i A,
    train_exactly O sum d lp sg e s0 (k * num_of_batch_until_full_cycle e + r) = Ok ((e', i), A) /\
    inner A = gradient_steps O (step_scale sum (num_of_batch_until_full_cycle e) / INR (batch_size e)) (full_gradient n d H lp sg) s0 k /\
    updates e' = (k + (if r =? 0 then 0 else 1) + updates e)%nat.
Proof.
  intros S n H op batch past e lp sg d O sum s0 Hn HO HH HB HE Hw Hs Hk k r Hr. destruct (built_good n H op batch past e Hn HO HB HE) as (G & Eb & _).
  pose proof (divides n (batch_size e) (ge_batch _ _ _ G) (ge_div _ _ _ G)) as Hm.
  unfold train_exactly, num_of_batch_until_full_cycle, num_of_states, start_generator in *. unfold num_of_states. rewrite (ge_n _ _ _ G) in *.
  set (f := (2 ^ n / batch_size e)%nat) in *. unfold convert_to_accumulate. rewrite (proj2 (Nat.ltb_ge f 1)) by lia. cbn [bind]. rewrite Hw.
  set (A0 := {| acc_iterations := 0; acc_freq := f; accumulators := vzero d; inner := s0; total_iterations := 0; params_ema := vzero d |}).
  destruct (fit_cycles O sum d lp sg Hs Hk n H f k e A0 G Hm eq_refl) as (e1 & A1 & X1 & G1 & B1 & U1 & F1 & I1 & Z1 & L1 & W1); [cbn; apply Nat.mod_0_l; lia|reflexivity|exact Hw|].
  rewrite exact_fit_app, X1. cbn [bind fst snd]. destruct (Nat.eqb_spec r 0) as [->|Hr0].
  { cbn [exact_fit]. exists e1, (2 ^ n)%nat, A1. split; [reflexivity|]. split; [exact W1|lia]. }
  set (w := weights O (inner A1)). rewrite <- B1 in Hm. destruct (one_cycle n H (fun _ => lp w) e1 0 f G1 Hm) as (e2 & E2 & G2 & B2 & U2 & R2 & _).
  replace f with (r + (f - r))%nat in R2 by lia. destruct (run_prefix _ _ _ _ _ _ _ R2) as (g3 & ys3 & R3).
  destruct (inside O sum d lp sg Hs r (e1, 2 ^ n)%nat A1 g3 ys3 0%nat f 0%nat L1 R3 F1 I1 ltac:(lia) ltac:(rewrite Z1; apply vzero_length)) as (A3 & X3 & I3 & _).
  destruct g3 as [e3 i3]. exists e3, i3, A3. split; [exact X3|]. split; [rewrite I3; exact W1|].
  destruct r as [|r]; [lia|]. cbn [generator_run] in R3. unfold generator_next in R3. unfold num_of_states in R3. rewrite (ge_n _ _ _ G1), Nat.ltb_irrefl in R3.
  rewrite E2 in R3. cbn [bind] in R3. destruct (generator_run (fun _ => lp w) (e2, (0 + batch_size e1)%nat) 1 r) as [[g4 ys4]|] eqn:R4; [cbn [bind fst snd] in R3|discriminate].
  injection R3 as E4 _. apply (run_updates n H (fun _ => lp w) e2 e2) in R4; [|reflexivity|unfold num_of_states; now rewrite (ge_n _ _ _ G2)| |apply (ge_batch _ _ _ G2)|exact G2].
  - rewrite E4 in R4. cbn [fst] in R4. subst e3. lia.
  - rewrite B2, Hm. assert (P : (Datatypes.S r * batch_size e1 <= f * batch_size e1)%nat) by (apply Nat.mul_le_mono_r; lia). cbn [Nat.mul] in P. lia.
Qed.

Lemma scale_value sum n b : (0 < b)%nat -> (2 ^ n = 2 ^ n / b * b)%nat -> step_scale sum (2 ^ n / b) / INR b = if sum then / INR b else / INR (2 ^ n).
Proof.
  intros Hb E. assert (NZ : INR b <> 0) by (apply not_0_INR; lia). unfold step_scale. destruct sum; [field; exact NZ|].
  rewrite E at 2. rewrite mult_INR. assert (NF : INR (2 ^ n / b) <> 0).
  { apply not_0_INR. intros Z. rewrite Z, Nat.mul_0_l in E. exact (Nat.pow_nonzero 2 n ltac:(lia) E). }
  field. split; assumption.
Qed.

(** * Lines *)
Lemma along_zero w v d : length w = d -> length v = d -> vadd w (vscale 0 v) = w.
Proof.
  intros Lw Lv. assert (L : length w = length (vscale 0 v)) by (rewrite vscale_length; congruence).
  apply vec_ext; [now apply vadd_length|]. intros i. rewrite nth_vadd, nth_vscale by exact L. lra.
Qed.

Lemma line_slope n d H lp sg w v : hermitian n H -> line_gradient n d lp sg w -> length w = d -> length v = d ->
  derivable_pt_lim (fun h => energy_at n H lp (vadd w (vscale h v))) 0 (inner_product d v (full_gradient n d H lp sg w)).
Proof.
  intros HH HG Lw Lv. unfold energy_at.
  pose proof (loss_slope n H (fun h => lp (vadd w (vscale h v))) (fun s t => inner_product d v (sg w (s, t))) 0 HH) as P. cbv beta in P.
  rewrite (along_zero w v d Lw Lv) in P.
  eapply limit_value; [|apply P; intros s t Hs; apply (proj2 HG); assumption].
  unfold inner_product. rewrite Rsum_exchange. apply Rsum_ext. intros i _. rewrite full_gradient_nth by apply HG. apply Rsum_scal.
Qed.

Lemma upd_length {A} (l : list A) i (v : A) : length (upd l i v) = length l.
Proof. revert i. induction l as [|a l IH]; intros [|i]; try reflexivity. cbn [upd length]. now rewrite IH. Qed.
Lemma nth_upd {A} (l : list A) i j (v dflt : A) : (i < length l)%nat -> nth j (upd l i v) dflt = if (j =? i)%nat then v else nth j l dflt.
Proof.
  revert i j. induction l as [|a l IH]; intros i j Hi; [cbn in Hi; lia|]. destruct i as [|i]; destruct j as [|j]; try reflexivity. cbn [upd nth Nat.eqb].
  apply IH. cbn [length] in Hi. lia.
Qed.
Lemma Rsum_single_seq (f : nat -> R) i d : (i < d)%nat -> (forall j, (j < d)%nat -> j <> i -> f j = 0) -> Rsum f (seq 0 d) = f i.
Proof.
  intros Hi HZ. replace d with (i + (1 + (d - i - 1)))%nat by lia. rewrite !seq_app, !Rsum_app. cbn [seq]. rewrite Rsum_cons, Rsum_nil.
  rewrite (Rsum_ext f (fun _ => 0) (seq 0 i)). 2: { intros j Hj. apply in_seq in Hj. apply HZ; lia. }
  rewrite (Rsum_ext f (fun _ => 0) (seq _ (d - i - 1))). 2: { intros j Hj. apply in_seq in Hj. apply HZ; lia. }
  assert (Z : forall l : list nat, Rsum (fun _ => 0) l = 0). { induction l as [|a l IH]; [reflexivity|]. rewrite Rsum_cons, IH. lra. }
  rewrite !Z. cbn [Nat.add]. lra.
Qed.

Lemma line_loss n d lp sg w : length w = d -> line_gradient n d lp sg w -> loss_gradient n d lp sg w.
Proof.
  intros Lw (L & D). split; [exact L|]. intros i s t Hi Hs. set (u := upd (vzero d) i 1).
  assert (Lu : length u = d) by (unfold u; rewrite upd_length; apply vzero_length).
  assert (NU : forall j, nth j u 0 = if (j =? i)%nat then 1 else 0).
  { intros j. unfold u. rewrite nth_upd by (rewrite vzero_length; exact Hi). destruct (j =? i)%nat; [reflexivity|apply nth_vzero]. }
  assert (E : forall h, vadd w (vscale h u) = upd w i (nth i w 0 + h)).
  { intros h. assert (LL : length w = length (vscale h u)) by (rewrite vscale_length; congruence).
    apply vec_ext; [rewrite vadd_length, upd_length by exact LL; reflexivity|]. intros j. rewrite nth_vadd, nth_vscale, NU by exact LL.
    rewrite nth_upd by lia. destruct (Nat.eqb_spec j i) as [->|]; lra. }
  pose proof (D u s t Lu Hs) as P. unfold inner_product in P.
  rewrite (Rsum_single_seq _ i d Hi) in P. 2: { intros j _ Hj. rewrite NU. destruct (Nat.eqb_spec j i); [contradiction|lra]. }
  rewrite NU, Nat.eqb_refl, Rmult_1_l in P. intros eps He. destruct (P eps He) as [dl Q]. exists dl. intros h Hh Hd. specialize (Q h Hh Hd).
  rewrite !E, Rplus_0_l, Rplus_0_r in Q. exact Q.
Qed.

(** * Descent *)
Lemma negative_slope f l : derivable_pt_lim f 0 l -> l < 0 -> exists delta, 0 < delta /\ forall h, 0 < h < delta -> f h < f 0.
Proof.
  intros D Hl. destruct (D (- l) ltac:(lra)) as [dl Q]. exists dl. split; [apply cond_pos|]. intros h [H0 H1].
  specialize (Q h ltac:(lra)). rewrite Rplus_0_l in Q. rewrite Rabs_right in Q by lra. specialize (Q H1).
  apply Rabs_def2 in Q. destruct Q as [Q _]. assert (Q' : (f h - f 0) / h < 0) by lra.
  assert (Q2 : (f h - f 0) / h * h < 0 * h) by (apply Rmult_lt_compat_r; assumption).
  unfold Rdiv in Q2. rewrite Rmult_assoc, Rinv_l, Rmult_1_r in Q2 by lra. lra.
Qed.

Lemma inner_nonneg d a : 0 <= square_norm d a.
Proof. apply Cplx.Rsum_nonneg. intros i _. apply Rle_0_sqr. Qed.
Lemma square_norm_zero d a : length a = d -> square_norm d a = 0 -> a = vzero d.
Proof.
  intros L Z. apply vec_ext; [now rewrite vzero_length|]. intros i. rewrite nth_vzero. destruct (Nat.lt_ge_cases i d) as [Hi|Hi]; [|apply nth_overflow; lia].
  assert (P : Rsum (fun j => if (j =? i)%nat then nth j a 0 * nth j a 0 else 0) (seq 0 d) <= square_norm d a).
  { apply Cplx.Rsum_le. intros j _. pose proof (Rle_0_sqr (nth j a 0)) as Q. unfold Rsqr in Q. destruct (j =? i)%nat; lra. }
  rewrite (Rsum_single_seq _ i d Hi) in P. 2: { intros j _ Hj. destruct (Nat.eqb_spec j i); [contradiction|reflexivity]. }
  rewrite Nat.eqb_refl, Z in P. pose proof (Rle_0_sqr (nth i a 0)) as Q. unfold Rsqr in Q. apply Rsqr_0_uniq. unfold Rsqr. lra.
Qed.
Lemma inner_scale d c a b : inner_product d (vscale c a) b = c * inner_product d a b.
Proof. unfold inner_product. rewrite <- Rsum_scal. apply Rsum_ext. intros i _. rewrite nth_vscale. ring. Qed.
Lemma inner_sym d a b : inner_product d a b = inner_product d b a.
Proof. apply Rsum_ext. intros i _. ring. Qed.
Lemma square_norm_scale d c a : square_norm d (vscale c a) = c * c * square_norm d a.
Proof. unfold square_norm. rewrite inner_scale, inner_sym, inner_scale. ring. Qed.
Lemma vscale_scale a b v : vscale a (vscale b v) = vscale (a * b) v.
Proof. unfold vscale. rewrite map_map. apply map_ext. intros; ring. Qed.

(** * A lower bound of the energy *)
Lemma member_below {A} (f : A -> R) l a : (forall x, 0 <= f x) -> In a l -> f a <= Rsum f l.
Proof.
  intros N. induction l as [|b l IH]; intros []; rewrite Rsum_cons.
  - subst. assert (0 <= Rsum f l) by (apply Cplx.Rsum_nonneg; intros; apply N). lra.
  - specialize (IH H). pose proof (N b). lra.
Qed.
Lemma Csum_Re_lower {A} (f : A -> C) (g : A -> R) l : (forall a, In a l -> - g a <= Re (f a)) -> - Rsum g l <= Re (Csum f l).
Proof.
  induction l as [|a l IH]; intros Q; [unfold Csum, Rsum; cbn; lra|]. rewrite Csum_cons, Rsum_cons, Re_plus.
  pose proof (Q a (or_introl eq_refl)). assert (P : - Rsum g l <= Re (Csum f l)) by (apply IH; intros; apply Q; now right). lra.
Qed.

Lemma bounded_below n H : exists m, forall lp, m <= Re (expectation n H lp).
Proof.
  set (l := spin_configs n). set (M := Rsum (fun s => Rsum (fun t => Rabs (Re (H s t)) + Rabs (Im (H s t))) l) l).
  exists (- (M * INR (length l))). intros lp. apply variational_principle. intros psi. fold l.
  assert (HM : forall s t, In s l -> In t l -> Rabs (Re (H s t)) + Rabs (Im (H s t)) <= M).
  { intros s t Hs Ht.
    assert (N : forall s t, 0 <= Rabs (Re (H s t)) + Rabs (Im (H s t))) by (intros a b; pose proof (Rabs_pos (Re (H a b))); pose proof (Rabs_pos (Im (H a b))); lra).
    pose proof (member_below (fun t => Rabs (Re (H s t)) + Rabs (Im (H s t))) l t (N s) Ht) as P.
    pose proof (member_below (fun s => Rsum (fun t => Rabs (Re (H s t)) + Rabs (Im (H s t))) l) l s) as Q. cbv beta in P, Q.
    fold M in Q. eapply Rle_trans; [exact P|]. apply Q; [|exact Hs]. intros x. apply Cplx.Rsum_nonneg. intros; apply N. }
  assert (B : forall s, In s l -> - Rsum (fun t => M * ((Cnorm2 (psi s) + Cnorm2 (psi t)) / 2)) l <= Re (Cconj (psi s) * apply_matrix n H psi s)%C).
  { intros s Hs. unfold apply_matrix. rewrite <- Csum_scal. apply Csum_Re_lower. intros t Ht. specialize (HM s t Hs Ht).
    set (h := H s t) in *. set (p := psi s). set (q := psi t). unfold Cmult, Cconj, Cnorm2, Re, Im in *. cbn [fst snd] in *.
    destruct h as [a b], p as [x y], q as [z w]. cbn [fst snd] in *.
    set (U := x * z + y * w). set (V := x * w - y * z). set (Q := (x * x + y * y + (z * z + w * w)) / 2).
    assert (HU : Rabs U <= Q). { apply Rabs_le. unfold U, Q. pose proof (Rle_0_sqr (x - z)). pose proof (Rle_0_sqr (y - w)). pose proof (Rle_0_sqr (x + z)). pose proof (Rle_0_sqr (y + w)). unfold Rsqr in *. split; lra. }
    assert (HV : Rabs V <= Q). { apply Rabs_le. unfold V, Q. pose proof (Rle_0_sqr (x - w)). pose proof (Rle_0_sqr (y - z)). pose proof (Rle_0_sqr (x + w)). pose proof (Rle_0_sqr (y + z)). unfold Rsqr in *. split; lra. }
    assert (Q0 : 0 <= Q) by (pose proof (Rabs_pos U); lra).
    assert (T1 : Rabs (a * U - b * V) <= (Rabs a + Rabs b) * Q).
    { eapply Rle_trans; [apply (Rabs_triang (a * U) (- (b * V)))|]. rewrite Rabs_Ropp, !Rabs_mult.
      pose proof (Rmult_le_compat_l (Rabs a) _ _ (Rabs_pos a) HU). pose proof (Rmult_le_compat_l (Rabs b) _ _ (Rabs_pos b) HV). lra. }
    assert (T2 : (Rabs a + Rabs b) * Q <= M * Q) by (apply Rmult_le_compat_r; assumption).
    assert (T3 : x * (a * z - b * w) - - y * (a * w + b * z) = a * U - b * V) by (unfold U, V; ring).
    rewrite T3. pose proof (Rle_abs (- (a * U - b * V))) as T4. rewrite Rabs_Ropp in T4. fold Q. lra. }
  pose proof (Csum_Re_lower _ _ l B) as P. unfold braket. fold l.
  rewrite (Rsum_ext _ (fun s => M / 2 * (INR (length l) * Cnorm2 (psi s)) + M / 2 * Rsum (fun t => Cnorm2 (psi t)) l)) in P.
  2: { intros s _. rewrite Rsum_scal. rewrite (Rsum_ext _ (fun t => / 2 * (Cnorm2 (psi s) + Cnorm2 (psi t)))) by (intros; unfold Rdiv; ring).
       rewrite Rsum_scal, Rsum_plus, Rsum_const. field. }
  rewrite Rsum_plus, Rsum_scal, Rsum_scal, Rsum_const in P. lra.
Qed.

(** * Many updates *)
Lemma descent_step n d H lp grad L a w : smooth n d H lp grad L -> length w = d -> length (grad w) = d ->
  energy_at n H lp (vadd w (vscale (- a) (grad w))) <= energy_at n H lp w - a * (1 - a * L / 2) * square_norm d (grad w).
Proof.
  intros HS Lw Lg. pose proof (HS w (vscale (- a) (grad w)) Lw ltac:(now rewrite vscale_length)) as P.
  rewrite inner_sym, inner_scale, square_norm_scale in P. fold (square_norm d (grad w)) in P. lra.
Qed.

Lemma sequence_limits (E g : nat -> R) (c m : R) : 0 < c -> (forall k, 0 <= g k) -> (forall k, m <= E k) -> (forall k, E (S k) <= E k - c * g k) ->
  (exists l, Un_cv E l) /\ Un_cv g 0 /\ forall K, (0 < K)%nat -> exists k, (k < K)%nat /\ g k <= (E 0%nat - m) / (c * INR K).
Proof.
  intros Hc Hg Hm HE.
  assert (CV : exists l, Un_cv E l).
  { destruct (decreasing_cv E) as [l Hl].
    - intros k. specialize (HE k). pose proof (Rmult_le_pos c (g k) ltac:(lra) (Hg k)). lra.
    - exists (- m). intros x (k & ->). unfold opp_seq. specialize (Hm k). lra.
    - now exists l. }
  split; [exact CV|]. split.
  - destruct CV as [l Hl]. intros eps He. destruct (Hl (c * eps / 2)) as [N HN]. { apply Rmult_lt_0_compat; [|lra]. apply Rmult_lt_0_compat; lra. }
    exists N. intros k Hk. unfold R_dist. rewrite Rminus_0_r, Rabs_right by (apply Rle_ge, Hg).
    pose proof (HN k Hk) as P. pose proof (HN (S k) ltac:(lia)) as Q. unfold R_dist in P, Q. apply Rabs_def2 in P. apply Rabs_def2 in Q.
    specialize (HE k). apply (Rmult_lt_reg_l c); [exact Hc|]. lra.
  - assert (T : forall K, c * Rsum g (seq 0 K) <= E 0%nat - E K).
    { induction K as [|K IH]; [cbn [seq]; rewrite Rsum_nil; lra|]. rewrite seq_S, Rsum_app, Rsum_cons, Rsum_nil. cbn [Nat.add]. specialize (HE K). lra. }
    intros K HK. assert (PK : 0 < INR K) by (apply lt_0_INR; exact HK).
    set (b := (E 0%nat - m) / (c * INR K)).
    destruct (Exists_dec (fun k => g k <= b) (seq 0 K) (fun k => Rle_dec (g k) b)) as [X|X].
    + apply Exists_exists in X. destruct X as (k & I & Q). apply in_seq in I. exists k. split; [lia|exact Q].
    + exfalso. assert (ALL : forall k, (k < K)%nat -> b < g k).
      { intros k Hk. apply Rnot_le_lt. intros Q. apply X. apply Exists_exists. exists k. split; [apply in_seq; lia|exact Q]. }
      assert (S : INR K * b < Rsum g (seq 0 K)).
      { clearbody b. clear - ALL HK. induction K as [|K IH]; [lia|]. rewrite seq_S, Rsum_app, Rsum_cons, Rsum_nil. cbn [Nat.add]. rewrite S_INR.
        pose proof (ALL K ltac:(lia)). destruct K as [|K]; [cbn [seq INR]; rewrite Rsum_nil; lra|].
        assert (INR (S K) * b < Rsum g (seq 0 (S K))) by (apply IH; [lia|intros; apply ALL; lia]). lra. }
      specialize (T K). specialize (Hm K).
      assert (Q : c * (INR K * b) = E 0%nat - m) by (unfold b; field; split; lra).
      pose proof (Rmult_lt_compat_l c _ _ Hc S). lra.
Qed.

Lemma sgd_step lr c grad w k : gradient_steps (sgd lr) c grad w (S k) =
  vadd (gradient_steps (sgd lr) c grad w k) (vscale (- (lr * c)) (grad (gradient_steps (sgd lr) c grad w k))).
Proof.
  cbn [gradient_steps sgd apply_gradients weights]. rewrite vscale_scale. replace (- lr * c) with (- (lr * c)) by ring. reflexivity.
Qed.
Lemma sgd_length lr c grad w d k : length w = d -> (forall v, length v = d -> length (grad v) = d) -> length (gradient_steps (sgd lr) c grad w k) = d.
Proof.
  intros Lw Lg. induction k as [|k IH]; [exact Lw|]. rewrite sgd_step, vadd_length; [exact IH|]. now rewrite vscale_length, Lg.
Qed.
Lemma sgd_ext lr c g1 g2 w d k : length w = d -> (forall v, length v = d -> length (g1 v) = d) -> (forall v, length v = d -> g1 v = g2 v) ->
  gradient_steps (sgd lr) c g1 w k = gradient_steps (sgd lr) c g2 w k.
Proof.
  intros Lw Lg E. induction k as [|k IH]; [reflexivity|]. rewrite !sgd_step, <- IH, <- E; [reflexivity|]. now apply sgd_length.
Qed.

Lemma sgd_keeps lr d w g : length (weights (sgd lr) w) = d -> length g = d -> length (weights (sgd lr) (apply_gradients (sgd lr) w g)) = d.
Proof. cbn [sgd weights apply_gradients]. intros A B. rewrite vadd_length; [exact A|]. now rewrite vscale_length, B. Qed.
