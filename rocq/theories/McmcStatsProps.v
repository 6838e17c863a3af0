(** Property C62. *)
From Coq Require Import String List ZArith Reals Bool Arith Lia Lra.
From Verif Require Import Base Cplx IsingModel TrainingModel McmcStatsModel McmcStatsSpec McmcStatsProofs.
Import ListNotations.
Local Open Scope R_scope.

Lemma div_ok m n : (0 < m)%nat -> (m * n / m = n)%nat.
Proof. intros H. rewrite Nat.mul_comm. apply Nat.div_mul. lia. Qed.

(** C62: for at least two chains of at least two samples, not all equal, the function returns the book's potential scale reduction and variance estimate, and
    the sum of the autocorrelations up to a lag K: all of them, or one more than the odd T after which a pair of consecutive ones is negative. Only
    pairs with T + 3 <= n - 1 are looked at: when the number of lags n - 1 is odd the pair made of the last two lags is skipped. *)
Theorem C62_values : forall m n values, (2 <= m)%nat -> (2 <= n)%nat -> List.length values = (m * n)%nat ->
  let psi := samples n values in let W := within m n psi in let V := var_plus m n psi in let r := rho m n psi in
  V <> 0 ->
  exists K,
    calc_r_hat_value (m * n) m values =
      Ok (if Req_EM_T W 0 then PlusInf else Finite (sqrt (V / W)), V, Finite (rho_sum m n psi K),
          if Req_EM_T (1 + 2 * rho_sum m n psi K) 0 then PlusInf else Finite (INR (m * n) / (1 + 2 * rho_sum m n psi K))) /\
    ((K = (n - 1)%nat /\ forall T, Nat.Odd T -> (T + 3 <= n - 1)%nat -> 0 <= r (T + 1)%nat + r (T + 2)%nat) \/
     exists T, Nat.Odd T /\ (T + 3 <= n - 1)%nat /\ K = (T + 1)%nat /\ r (T + 1)%nat + r (T + 2)%nat < 0 /\
       forall T', Nat.Odd T' -> (T' < T)%nat -> 0 <= r (T' + 1)%nat + r (T' + 2)%nat).
Proof.
  intros m n values Hm Hn HL psi W V r HV. destruct (sum_cut n r) as (K & E & C). exists K. split; [|exact C].
  rewrite (calc_stats (m * n) m n values Hm ltac:(lia) (div_ok m n ltac:(lia)) HL Hn). fold psi. fold W. fold V. unfold statistics. cbv zeta.
  assert (EC : map (fun t => np_add (Finite 1) (np_neg (np_div (variogram m n psi (t + 1)) (2 * V)))) (range (n - 1)) =
               map (fun t => Finite (r (t + 1)%nat)) (range (n - 1))).
  { apply map_ext. intros t. rewrite np_div_ok by lra. reflexivity. }
  change (Rsum r (seq 1 K)) with (rho_sum m n psi K) in E. rewrite EC, E. cbn [np_double np_add np_divide_into].
  pose proof (var_plus_nonneg m n psi Hm Hn) as PV. fold V in PV. pose proof (within_nonneg m n psi Hm Hn) as PW. fold W in PW.
  assert (E1 : np_sqrt (np_div V W) = if Req_EM_T W 0 then PlusInf else Finite (sqrt (V / W))).
  { unfold np_div. destruct (Req_EM_T W 0) as [EW|NW].
    - destruct (Req_EM_T V 0) as [EV|_]; [contradiction|]. destruct (Rlt_dec 0 V) as [_|NV]; [reflexivity|exfalso; lra].
    - unfold np_sqrt. destruct (Rlt_dec (V / W) 0) as [NG|_]; [|reflexivity]. exfalso. assert (0 < V / W) by (apply Rdiv_lt_0_compat; lra). lra. }
  rewrite E1. do 2 f_equal. unfold np_div. destruct (Req_EM_T (1 + 2 * rho_sum m n psi K) 0) as [_|_]; [|reflexivity].
  assert (PI : 0 < INR (m * n)) by (apply lt_0_INR; nia).
  destruct (Req_EM_T (INR (m * n)) 0) as [Z|_]; [exfalso; lra|]. destruct (Rlt_dec 0 (INR (m * n))) as [_|N]; [reflexivity|contradiction].
Qed.
Print Assumptions C62_values.
Example C62_values_case : exists m n values, (2 <= m)%nat /\ (2 <= n)%nat /\ List.length values = (m * n)%nat /\ var_plus m n (samples n values) <> 0.
Proof.
  exists 2%nat, 2%nat, [0; 1; 0; 0]. split; [lia|]. split; [lia|]. split; [reflexivity|]. intros E.
  apply (proj1 (var_plus_zero 2 2 (samples 2 [0; 1; 0; 0]) ltac:(lia) ltac:(lia))) with (j := 0%nat) (i := 0%nat) (j' := 0%nat) (i' := 1%nat) in E; try lia.
  unfold samples in E. cbn in E. lra.
Qed.

(** C62: with the book's T, the code adds one autocorrelation more than the book (when the code looks at that pair at all). *)
Theorem C62_one_lag_more : forall m n values T, (2 <= m)%nat -> (2 <= n)%nat -> List.length values = (m * n)%nat ->
  let psi := samples n values in
  var_plus m n psi <> 0 -> first_negative_pair m n psi T -> (T + 3 <= n - 1)%nat ->
  exists r_hat v ess, calc_r_hat_value (m * n) m values = Ok (r_hat, v, Finite (rho_sum m n psi T + rho m n psi (T + 1)), ess).
Proof.
  intros m n values T Hm Hn HL psi HV (OT & _ & NT & MT) HT.
  destruct (C62_values m n values Hm Hn HL HV) as (K & E & C). fold psi in E, C. rewrite E.
  assert (KT : K = (T + 1)%nat).
  { destruct C as [[_ A]|(T2 & O2 & L2 & -> & N2 & M2)]; [specialize (A T OT HT); lra|].
    destruct (Nat.lt_trichotomy T T2) as [L|[->|L]]; [specialize (M2 T OT L); lra|reflexivity|specialize (MT T2 O2 L); lra]. }
  rewrite KT. unfold rho_sum. rewrite seq_app, Cplx.Rsum_app. cbn [seq Rsum fold_right map].
  do 3 eexists. do 2 f_equal. f_equal. f_equal. f_equal. rewrite (Nat.add_comm 1 T). cbn. ring.
Qed.
Print Assumptions C62_one_lag_more.

(** Two chains with the five values 1, 1, -1, -1, 0. *)
Definition waves : list R := [1; 1; -1; -1; 0; 1; 1; -1; -1; 0].
Lemma waves_mean j : (j < 2)%nat -> chain_mean 5 (samples 5 waves) j = 0.
Proof. intros H. destruct j as [|[|j]]; [| |lia]; unfold chain_mean, samples, waves; cbn; field. Qed.
Lemma waves_overall : overall_mean 2 5 (samples 5 waves) = 0.
Proof. unfold overall_mean. cbn [seq Rsum fold_right]. rewrite !waves_mean by lia. cbn. field. Qed.
Lemma waves_between : between 2 5 (samples 5 waves) = 0.
Proof. unfold between. cbn [seq Rsum fold_right]. rewrite !waves_mean, waves_overall by lia. cbn. field. Qed.
Lemma waves_within : within 2 5 (samples 5 waves) = 1.
Proof. unfold within, chain_variance. cbn [seq Rsum fold_right]. rewrite !waves_mean by lia. unfold samples, waves. cbn. field. Qed.
Lemma waves_var : var_plus 2 5 (samples 5 waves) = 4 / 5.
Proof. unfold var_plus. rewrite waves_between, waves_within. cbn. field. Qed.
Lemma waves_rho1 : rho 2 5 (samples 5 waves) 1 = 7 / 32.
Proof. unfold rho. rewrite waves_var. unfold variogram, samples, waves. cbn. field. Qed.
Lemma waves_rho2 : rho 2 5 (samples 5 waves) 2 = - (7 / 8).
Proof. unfold rho. rewrite waves_var. unfold variogram, samples, waves. cbn. field. Qed.
Lemma waves_rho3 : rho 2 5 (samples 5 waves) 3 = - (9 / 16).
Proof. unfold rho. rewrite waves_var. unfold variogram, samples, waves. cbn. field. Qed.
Lemma odd_ge1 T : Nat.Odd T -> (1 <= T)%nat.
Proof. intros [q ->]. lia. Qed.
Lemma waves_first : first_negative_pair 2 5 (samples 5 waves) 1.
Proof.
  split; [exists 0%nat; reflexivity|]. split; [lia|]. split; [cbn [Nat.add]; rewrite waves_rho2, waves_rho3; lra|].
  intros T' O L. pose proof (odd_ge1 T' O). lia.
Qed.
Example C62_one_lag_more_case : exists m n values T, (2 <= m)%nat /\ (2 <= n)%nat /\ List.length values = (m * n)%nat /\
  var_plus m n (samples n values) <> 0 /\ first_negative_pair m n (samples n values) T /\ (T + 3 <= n - 1)%nat.
Proof.
  exists 2%nat, 5%nat, waves, 1%nat. split; [lia|]. split; [lia|]. split; [reflexivity|]. split; [rewrite waves_var; lra|]. split; [apply waves_first|lia].
Qed.

(** C62, refuted: the effective sample size is not the book's, and it need not even be positive: ten samples, 160/23 by the book, -32 by the code. *)
Theorem C62_effective_sample_size_refuted : exists m n values T r_hat v s, (2 <= m)%nat /\ (2 <= n)%nat /\ List.length values = (m * n)%nat /\
  first_negative_pair m n (samples n values) T /\ effective_size m n (samples n values) T = 160 / 23 /\
  calc_r_hat_value (m * n) m values = Ok (r_hat, v, s, Finite (-32)).
Proof.
  assert (HV : var_plus 2 5 (samples 5 waves) <> 0) by (rewrite waves_var; lra).
  destruct (C62_values 2 5 waves ltac:(lia) ltac:(lia) eq_refl HV) as (K & E & C).
  assert (KE : K = 2%nat).
  { destruct C as [[_ A]|(T2 & O2 & L2 & -> & _)].
    - specialize (A 1%nat ltac:(exists 0%nat; reflexivity) ltac:(lia)). cbn [Nat.add] in A. rewrite waves_rho2, waves_rho3 in A. lra.
    - pose proof (odd_ge1 T2 O2). lia. }
  subst K. assert (S2 : rho_sum 2 5 (samples 5 waves) 2 = - (21 / 32)) by (unfold rho_sum; cbn [seq Rsum fold_right]; rewrite waves_rho1, waves_rho2; lra).
  rewrite S2 in E. exists 2%nat, 5%nat, waves, 1%nat. do 3 eexists. split; [lia|]. split; [lia|]. split; [reflexivity|]. split; [apply waves_first|].
  split.
  - unfold effective_size, rho_sum. cbn [seq Rsum fold_right]. rewrite waves_rho1. cbn. field.
  - rewrite E. destruct (Req_EM_T (1 + 2 * - (21 / 32)) 0) as [Z|_]; [exfalso; lra|]. do 3 f_equal. cbn. field.
Qed.
Print Assumptions C62_effective_sample_size_refuted.

(** C62, refuted: with one chain, the default of the sampler, nothing is reported: the division by (number of chains - 1) raises, and so does the callback. *)
Theorem C62_single_chain_refuted : forall batch_size values acceptance_ratio local_energy, List.length values = batch_size -> List.length local_energy = batch_size ->
  calc_r_hat_value batch_size 1 values = Err ZeroDivisionError /\
  add_mcmc_logs batch_size 1 acceptance_ratio local_energy = Err ZeroDivisionError.
Proof.
  intros bs values ar le HL HE. split; [now apply single_chain|]. unfold add_mcmc_logs. rewrite single_chain; [reflexivity|]. now rewrite map_length.
Qed.
Print Assumptions C62_single_chain_refuted.
Example C62_single_chain_case : exists (batch_size : nat) (values : list R) (local_energy : list C), (0 < batch_size)%nat /\
  List.length values = batch_size /\ List.length local_energy = batch_size.
Proof. exists 2%nat, [0; 1], [C0; C1]. split; [lia|]. split; reflexivity. Qed.

(** C62: one sample per chain: a fixed answer, together with the variance between the samples. *)
Theorem C62_one_sample : forall m values, (2 <= m)%nat -> List.length values = m ->
  calc_r_hat_value m m values = Ok (Finite 1, between m 1 (samples 1 values), Finite 0, Finite (INR m)).
Proof.
  intros m values Hm HL. apply (one_sample m m 1 values Hm ltac:(lia)); [apply Nat.div_same; lia|lia|reflexivity].
Qed.
Print Assumptions C62_one_sample.
Example C62_one_sample_case : exists m (values : list R), (2 <= m)%nat /\ List.length values = m.
Proof. exists 2%nat, [0; 1]. split; [lia|reflexivity]. Qed.

(** C62: when all samples are equal nothing can be said: all answers are nan (the variance is 0). *)
Theorem C62_all_equal : forall m n values, (2 <= m)%nat -> (2 <= n)%nat -> List.length values = (m * n)%nat ->
  (forall x y, In x values -> In y values -> x = y) ->
  calc_r_hat_value (m * n) m values = Ok (NaN, 0, NaN, NaN).
Proof.
  intros m n values Hm Hn HL EQ. set (psi := samples n values).
  assert (A : forall j i j' i', (j < m)%nat -> (i < n)%nat -> (j' < m)%nat -> (i' < n)%nat -> psi j i = psi j' i').
  { intros. apply EQ; apply nth_In; nia. }
  assert (V0 : var_plus m n psi = 0) by (apply var_plus_zero; assumption).
  assert (W0 : within m n psi = 0).
  { pose proof (within_nonneg m n psi Hm Hn). pose proof (between_nonneg m n psi Hm Hn). pose proof (INR_pred_pos n Hn). pose proof (INR_pos2 n Hn). unfold var_plus in V0.
    assert (E1 : (INR n - 1) * within m n psi + between m n psi = 0).
    { apply (Rmult_eq_reg_r (/ INR n)); [|apply Rinv_neq_0_compat; lra]. rewrite Rmult_0_l, <- V0. field. lra. }
    nra. }
  assert (G0 : forall t, variogram m n psi t = 0).
  { intros t. unfold variogram. rewrite (Rsum_ext _ (fun _ => 0)); [rewrite Rsum_const; unfold Rdiv; ring|]. intros j Hj. apply in_seq in Hj.
    rewrite (Rsum_ext _ (fun _ => 0)); [rewrite Rsum_const; ring|]. intros i Hi. apply in_seq in Hi. rewrite (A j (i + t)%nat j i) by lia. ring. }
  rewrite (calc_stats (m * n) m n values Hm ltac:(lia) (div_ok m n ltac:(lia)) HL Hn). fold psi. rewrite V0, W0. unfold statistics. cbv zeta.
  assert (NN : np_div 0 0 = NaN) by (unfold np_div; destruct (Req_EM_T 0 0); [reflexivity|contradiction]).
  rewrite NN. rewrite (map_ext _ (fun _ => NaN)).
  2:{ intros t. rewrite G0, Rmult_0_r, NN. reflexivity. }
  assert (SN : forall l : list nat, sum_correlations (map (fun _ => NaN) (0%nat :: l)) = NaN).
  { intros l. unfold sum_correlations. set (k := (List.length (map (fun _ => NaN) (0%nat :: l)) / 2 - 1)%nat). clearbody k. generalize 1%nat.
    induction k as [|k IH]; intros i; [reflexivity|]. cbn [sum_correlations_loop].
    assert (NT : nth (2 * i - 1) (map (fun _ => NaN) (0%nat :: l)) NaN = NaN).
    { destruct (nth_in_or_default (2 * i - 1) (map (fun _ => NaN) (0%nat :: l)) NaN) as [I|D]; [|exact D]. apply in_map_iff in I. destruct I as (x & <- & _). reflexivity. }
    rewrite NT. cbn [np_add np_negative]. apply IH. }
  unfold range. destruct (n - 1)%nat as [|k] eqn:Ek; [lia|]. cbn [seq]. rewrite SN. reflexivity.
Qed.
Print Assumptions C62_all_equal.
Example C62_all_equal_case : exists m n (values : list R), (2 <= m)%nat /\ (2 <= n)%nat /\ List.length values = (m * n)%nat /\
  (forall x y, In x values -> In y values -> x = y).
Proof.
  exists 2%nat, 2%nat, [3; 3; 3; 3]. split; [lia|]. split; [lia|]. split; [reflexivity|]. intros x y Hx Hy. cbn in Hx, Hy. intuition congruence.
Qed.

(** C62: shifting or rescaling the values (other units for the energy) only rescales the variance. *)
Theorem C62_affine : forall m n values a b, (2 <= m)%nat -> (2 <= n)%nat -> List.length values = (m * n)%nat -> a <> 0 ->
  exists r_hat v s ess, calc_r_hat_value (m * n) m values = Ok (r_hat, v, s, ess) /\
    calc_r_hat_value (m * n) m (map (fun x => a * x + b) values) = Ok (r_hat, a * a * v, s, ess).
Proof.
  intros m n values a b Hm Hn HL Ha. set (psi := samples n values). set (phi := samples n (map (fun x => a * x + b) values)).
  assert (E : forall j i, (j < m)%nat -> (i < n)%nat -> phi j i = a * psi j i + b).
  { intros j i Hj Hi. unfold phi, psi, samples. rewrite (nth_indep _ 0 ((fun x => a * x + b) 0)) by (rewrite map_length; nia).
    now rewrite (map_nth (fun x => a * x + b)). }
  rewrite (calc_stats (m * n) m n values Hm ltac:(lia) (div_ok m n ltac:(lia)) HL Hn).
  rewrite (calc_stats (m * n) m n (map (fun x => a * x + b) values) Hm ltac:(lia) (div_ok m n ltac:(lia)) ltac:(now rewrite map_length) Hn).
  fold psi. fold phi. rewrite (affine_var m n psi phi a b Hm Hn E), (affine_within m n psi phi a b Hm Hn E).
  assert (DV : forall x y, np_div (a * a * x) (a * a * y) = np_div x y).
  { intros x y. assert (AA : 0 < a * a) by nra. unfold np_div.
    destruct (Req_EM_T (a * a * y) 0) as [Y|Y], (Req_EM_T y 0) as [Y'|Y']; try (exfalso; nra).
    - destruct (Req_EM_T (a * a * x) 0) as [X|X], (Req_EM_T x 0) as [X'|X']; try (exfalso; nra); [reflexivity|].
      destruct (Rlt_dec 0 (a * a * x)) as [P|P], (Rlt_dec 0 x) as [P'|P']; try reflexivity; exfalso; nra.
    - f_equal. field. split; assumption. }
  unfold statistics. cbv zeta.
  rewrite (map_ext (fun t => np_add (Finite 1) (np_neg (np_div (variogram m n phi (t + 1)) (2 * (a * a * var_plus m n psi)))))
             (fun t => np_add (Finite 1) (np_neg (np_div (variogram m n psi (t + 1)) (2 * var_plus m n psi))))).
  2:{ intros t. rewrite (affine_variogram m n psi phi a b Hm Hn E). replace (2 * (a * a * var_plus m n psi)) with (a * a * (2 * var_plus m n psi)) by ring. now rewrite DV. }
  rewrite DV. do 4 eexists. split; reflexivity.
Qed.
Print Assumptions C62_affine.
Example C62_affine_case : exists m n (values : list R) a, (2 <= m)%nat /\ (2 <= n)%nat /\ List.length values = (m * n)%nat /\ a <> 0.
Proof. exists 2%nat, 5%nat, waves, 2. split; [lia|]. split; [lia|]. split; [reflexivity|lra]. Qed.

(** C62: the book's quantities: the two variances split up the spread of all samples, the square of the potential scale reduction is at least (n-1)/n, with
    equality exactly when all chain means agree, and no autocorrelation exceeds one. *)
Theorem C62_bounds : forall m n psi, (2 <= m)%nat -> (2 <= n)%nat ->
  let W := within m n psi in let B := between m n psi in let V := var_plus m n psi in
  INR m * (INR n - 1) * W + (INR m - 1) * B = Rsum (fun j => Rsum (fun i => (psi j i - overall_mean m n psi) ^ 2) (seq 0 n)) (seq 0 m) /\
  (W <> 0 -> (INR n - 1) / INR n <= V / W /\ (V / W = (INR n - 1) / INR n <-> forall j, (j < m)%nat -> chain_mean n psi j = overall_mean m n psi)) /\
  (V <> 0 -> forall t, (t < n)%nat -> rho m n psi t <= 1).
Proof.
  intros m n psi Hm Hn W B V. split; [apply total_variance; assumption|].
  pose proof (within_nonneg m n psi Hm Hn) as PW. pose proof (between_nonneg m n psi Hm Hn) as PB. pose proof (INR_pos2 n Hn) as PN. pose proof (INR_pred_pos m Hm) as PM.
  split.
  - intros NW. unfold V, W. rewrite (ratio m n psi Hn) by exact NW. fold W. fold B. fold W in PW. fold B in PB.
    assert (PNW : 0 < INR n * W) by (apply Rmult_lt_0_compat; lra).
    assert (Q : 0 <= B / (INR n * W)) by (apply Rmult_le_pos; [exact PB|now apply Rlt_le, Rinv_0_lt_compat]).
    split; [lra|]. split.
    + intros E. assert (Z : B / (INR n * W) = 0) by lra. unfold Rdiv in Z. apply Rmult_integral in Z.
      destruct Z as [Z|Z]; [|exfalso; revert Z; apply Rinv_neq_0_compat; lra]. unfold B, between in Z. apply Rmult_integral in Z. destruct Z as [Z|Z].
      * exfalso. assert (0 < INR n / (INR m - 1)) by (apply Rdiv_lt_0_compat; lra). lra.
      * intros j Hj. pose proof (Rsum_zero_all _ _ (fun x _ => pow2_ge_0 _) Z j ltac:(apply in_seq; lia)) as S. cbv beta in S. nra.
    + intros E. assert (Z : B = 0).
      { unfold B, between. rewrite (Rsum_ext _ (fun _ => 0)); [rewrite Rsum_const; ring|]. intros j Hj. apply in_seq in Hj. rewrite E by lia. ring. }
      rewrite Z. unfold Rdiv. ring.
  - intros NV t Ht. unfold rho. pose proof (variogram_nonneg m n psi Hm Hn t Ht) as G. pose proof (var_plus_nonneg m n psi Hm Hn) as PV. fold V. fold V in PV.
    assert (0 <= variogram m n psi t / (2 * V)); [|lra]. apply Rmult_le_pos; [exact G|]. apply Rlt_le, Rinv_0_lt_compat. lra.
Qed.
Print Assumptions C62_bounds.
Example C62_bounds_case : exists m n psi, (2 <= m)%nat /\ (2 <= n)%nat /\ within m n psi <> 0 /\ var_plus m n psi <> 0.
Proof. exists 2%nat, 5%nat, (samples 5 waves). split; [lia|]. split; [lia|]. split; [rewrite waves_within; lra|rewrite waves_var; lra]. Qed.

(** C62: the callback reports these numbers for the real parts of the local energies, under fixed names. *)
Theorem C62_logged : forall m n acceptance_ratio local_energy r_hat v s ess, (2 <= m)%nat -> (2 <= n)%nat ->
  calc_r_hat_value (m * n) m (map Re local_energy) = Ok (r_hat, v, s, ess) ->
  add_mcmc_logs (m * n) m acceptance_ratio local_energy =
    Ok [("mcmc/acceptance_ratio", Finite acceptance_ratio); ("mcmc/energy_r_hat", r_hat);
        ("mcmc/energy_effective_sample_size", ess); ("mcmc/energy_correlations_sum", s)]%string.
Proof. intros m n ar le r v s ess _ _ H. unfold add_mcmc_logs. rewrite H. reflexivity. Qed.
Print Assumptions C62_logged.
Example C62_logged_case : exists m n local_energy r_hat v s ess, (2 <= m)%nat /\ (2 <= n)%nat /\
  calc_r_hat_value (m * n) m (map Re local_energy) = Ok (r_hat, v, s, ess).
Proof.
  exists 2%nat, 2%nat, [RtoC 3; RtoC 3; RtoC 3; RtoC 3], NaN, 0, NaN, NaN. split; [lia|]. split; [lia|]. apply C62_all_equal; [lia|lia|reflexivity|].
  intros x y Hx Hy. cbn in Hx, Hy. intuition congruence.
Qed.

(** C62: when it fails: no chain, one chain, or chains that do not divide the batch; otherwise it answers. *)
Theorem C62_errors : forall batch_size m values, (0 < batch_size)%nat -> List.length values = batch_size ->
  calc_r_hat_value batch_size m values =
    Err ZeroDivisionError /\ (m <= 1)%nat \/
  calc_r_hat_value batch_size m values = Err ValueError /\ (2 <= m)%nat /\ ~ Nat.divide m batch_size \/
  exists r, calc_r_hat_value batch_size m values = Ok r /\ (2 <= m)%nat /\ Nat.divide m batch_size.
Proof.
  intros bs m values HB HL. destruct m as [|[|m']]; [left; split; [reflexivity|lia]|left; split; [now apply single_chain|lia]|]. right.
  set (m := S (S m')). assert (Hm : (2 <= m)%nat) by (unfold m; lia). clearbody m.
  destruct (Nat.eq_dec bs (m * (bs / m))) as [D|D].
  - right. set (n := (bs / m)%nat) in *. assert (n <> 0)%nat by (intros Z; rewrite Z in D; lia). clearbody n. subst bs. rewrite D.
    
    destruct (Nat.eq_dec n 1) as [E|E].
    + eexists. split; [apply (one_sample (m * n) m n values); try assumption; try lia; apply div_ok; lia|]. split; [exact Hm|]. exists n. lia.
    + eexists. split; [apply (calc_stats (m * n) m n values); try assumption; try lia; apply div_ok; lia|]. split; [exact Hm|]. exists n. lia.
  - left. split; [|split; [exact Hm|]].
    + unfold calc_r_hat_value. rewrite (proj2 (Nat.eqb_neq m 0)) by lia. cbv zeta. rewrite HL, (proj2 (Nat.eqb_neq bs _) D). reflexivity.
    + intros (k & ->). apply D. rewrite Nat.div_mul by lia. lia.
Qed.
Print Assumptions C62_errors.
Example C62_errors_case : calc_r_hat_value 3 2 [0; 1; 2] = Err ValueError /\ calc_r_hat_value 3 0 [0; 1; 2] = Err ZeroDivisionError.
Proof. split; reflexivity. Qed.
