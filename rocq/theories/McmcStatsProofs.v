(** Lemmas about the convergence statistics. *)
From Coq Require Import String List ZArith Reals Bool Arith Lia Lra.
From Verif Require Import Base Cplx McmcStatsModel McmcStatsSpec.
Import ListNotations.
Local Open Scope R_scope.

Lemma np_mean_map {A} (f : A -> R) l : np_mean (map f l) = Rsum f l / INR (List.length l).
Proof. unfold np_mean. now rewrite Rsum_map, map_length. Qed.
Lemma map2_map {A B D E} (f : A -> B -> D) (g : E -> A) (h : E -> B) l : map2 f (map g l) (map h l) = map (fun x => f (g x) (h x)) l.
Proof. induction l as [|a l IH]; [reflexivity|]. cbn [map map2]. now rewrite IH. Qed.
Lemma map2_map_r {A B D} (f : A -> B -> D) (g : A -> B) l : map2 f l (map g l) = map (fun x => f x (g x)) l.
Proof. rewrite <- (map_id l) at 1. rewrite map2_map. reflexivity. Qed.
Lemma map_cons_eq {A B} (f : A -> B) a l : map f (a :: l) = f a :: map f l.
Proof. reflexivity. Qed.

Lemma row_samples values m n j : List.length values = (m * n)%nat -> (j < m)%nat ->
  slice values (j * n) (j * n + n) = map (samples n values j) (range n).
Proof.
  intros L Hj. assert (Lj : (j * n + n <= m * n)%nat) by nia.
  apply (nth_ext _ _ 0 0).
  - unfold slice. rewrite firstn_length, skipn_length, map_length, range_length. lia.
  - intros i Hi. unfold slice in *. rewrite firstn_length, skipn_length in Hi.
    replace (nth i (map (samples n values j) (range n)) 0) with (samples n values j i).
    + unfold samples. rewrite <- (firstn_skipn (j * n) values) at 2. rewrite app_nth2; rewrite firstn_length, Nat.min_l by lia; [|lia].
      replace (j * n + i - j * n)%nat with i by lia. set (l := skipn (j * n) values). rewrite <- (firstn_skipn (j * n + n - j * n) l) at 2.
      rewrite app_nth1; [reflexivity|]. rewrite firstn_length. unfold l. rewrite skipn_length. lia.
    + unfold range. rewrite (nth_indep _ 0 (samples n values j 0)) by (rewrite map_length, seq_length; lia). rewrite map_nth, seq_nth by lia. reflexivity.
Qed.
Lemma skipn_seq k : forall a n, skipn k (seq a n) = seq (a + k) (n - k).
Proof.
  induction k as [|k IH]; intros a n; [now rewrite Nat.add_0_r, Nat.sub_0_r|]. destruct n as [|n]; [reflexivity|]. cbn [seq skipn].
  rewrite IH. f_equal; lia.
Qed.
Lemma firstn_seq' k : forall a n, (k <= n)%nat -> firstn k (seq a n) = seq a k.
Proof. induction k as [|k IH]; intros a n Hk; [reflexivity|]. destruct n as [|n]; [lia|]. cbn [seq firstn]. now rewrite IH by lia. Qed.

(** What the function returns for at least two chains of at least two samples, in terms of the variances and the variogram. *)
Definition statistics (bs n : nat) (var W : R) (V : nat -> R) : npfloat * R * npfloat * npfloat :=
  let c := map (fun t => np_add (Finite 1) (np_neg (np_div (V (t + 1)%nat) (2 * var)))) (range (n - 1)) in
  (np_sqrt (np_div var W), var, sum_correlations c, np_divide_into (INR bs) (np_add (Finite 1) (np_double (sum_correlations c)))).

Section Calc.
  Context (bs m n : nat) (values : list R) (Hm : (2 <= m)%nat) (Hn : (1 <= n)%nat) (Hbs : (bs / m = n)%nat) (HL : List.length values = (m * n)%nat).
  Let psi := samples n values.

  Lemma rows_eq : map (fun j => slice values (j * n) (j * n + n)) (range m) = map (fun j => map (psi j) (range n)) (range m).
  Proof. apply map_ext_in. intros j Hj. apply in_seq in Hj. apply (row_samples values m n j HL). lia. Qed.
  Lemma means_eq : map np_mean (map (fun j => map (psi j) (range n)) (range m)) = map (chain_mean n psi) (range m).
  Proof. rewrite map_map. apply map_ext. intros j. rewrite np_mean_map, range_length. reflexivity. Qed.
  Lemma between_eq : INR n / (INR m - 1) * Rsum (fun d => d * d) (map (fun c => c - np_mean (map (chain_mean n psi) (range m))) (map (chain_mean n psi) (range m))) =
    between m n psi.
  Proof.
    unfold between. f_equal. rewrite map_map, Rsum_map. apply Rsum_ext. intros j _. rewrite np_mean_map, range_length.
    unfold overall_mean. unfold range. ring.
  Qed.

  Lemma one_sample : n = 1%nat -> calc_r_hat_value bs m values = Ok (Finite 1, between m n psi, Finite 0, Finite (INR bs)).
  Proof.
    intros H1. unfold calc_r_hat_value. rewrite (proj2 (Nat.eqb_neq m 0)) by lia. rewrite Hbs, HL, Nat.eqb_refl. cbn [negb]. cbv zeta.
    rewrite rows_eq, means_eq, between_eq.
    destruct (Req_EM_T (INR m - 1) 0) as [E|_].
    { exfalso. apply (Rminus_diag_uniq (INR m) 1) in E. apply INR_eq in E || (change 1 with (INR 1) in E; apply INR_eq in E). lia. }
    rewrite H1. reflexivity.
  Qed.

  Lemma within_eq : (2 <= n)%nat ->
    np_mean (map (Rsum (fun d => d * d)) (map2 (fun row c => map (fun x => x - c) row) (map (fun j => map (psi j) (range n)) (range m)) (map (chain_mean n psi) (range m)))) /
      INR (n - 1) = within m n psi.
  Proof.
    intros H2. rewrite map2_map, map_map, np_mean_map, range_length. unfold within, chain_variance.
    assert (N1 : INR n - 1 <> 0) by (change 1 with (INR 1); rewrite <- minus_INR by lia; apply not_0_INR; lia).
    assert (M0 : INR m <> 0) by (apply not_0_INR; lia).
    rewrite minus_INR by lia. change (INR 1) with 1.
    rewrite (Rsum_ext (fun j => Rsum _ _ / (INR n - 1)) (fun j => Rsum (fun d => d * d) (map (fun x => x - chain_mean n psi j) (map (psi j) (range n))) * / (INR n - 1))).
    - rewrite Rsum_scal_r. unfold range. field. split; assumption.
    - intros j _. unfold Rdiv. f_equal. rewrite map_map, Rsum_map. apply Rsum_ext. intros i _. ring.
  Qed.
  Lemma variogram_eq t : (t < n - 1)%nat ->
    np_mean (map (fun row => np_mean (map (fun d => d * d) (map2 Rminus (skipn (t + 1) row) (firstn (n - t - 1) row)))) (map (fun j => map (psi j) (range n)) (range m))) =
    variogram m n psi (t + 1).
  Proof.
    intros Ht. rewrite map_map, np_mean_map, range_length. unfold variogram.
    assert (K0 : INR (n - (t + 1)) <> 0) by (apply not_0_INR; lia). assert (M0 : INR m <> 0) by (apply not_0_INR; lia).
    rewrite (Rsum_ext (fun j => np_mean _) (fun j => Rsum (fun i => (psi j (i + (t + 1))%nat - psi j i) ^ 2) (seq 0 (n - (t + 1))) * / INR (n - (t + 1)))).
    - rewrite Rsum_scal_r. unfold range. field. split; assumption.
    - intros j _. rewrite skipn_map, firstn_map. unfold range. rewrite skipn_seq, firstn_seq' by lia.
      replace (0 + (t + 1))%nat with (t + 1)%nat by lia. replace (n - t - 1)%nat with (n - (t + 1))%nat by lia.
      assert (E : seq (t + 1) (n - (t + 1)) = map (fun i => (i + (t + 1))%nat) (seq 0 (n - (t + 1)))).
      { rewrite (map_ext _ (fun i => ((t + 1) + i)%nat)) by (intros; lia). clear. generalize (n - (t + 1))%nat. intros k. generalize (t + 1)%nat. intros a.
        revert a. induction k as [|k IH]; intros a; [reflexivity|]. cbn [seq map]. rewrite Nat.add_0_r. f_equal. rewrite <- (seq_shift k 0), map_map.
        rewrite (IH (S a)). apply map_ext. intros i. lia. }
      rewrite E, map_map, map2_map, map_map, np_mean_map, seq_length. unfold Rdiv. f_equal. apply Rsum_ext. intros i _. ring.
  Qed.

  Lemma calc_stats : (2 <= n)%nat -> calc_r_hat_value bs m values = Ok (statistics bs n (var_plus m n psi) (within m n psi) (variogram m n psi)).
  Proof.
    intros H2. unfold calc_r_hat_value. rewrite (proj2 (Nat.eqb_neq m 0)) by lia. rewrite Hbs, HL, Nat.eqb_refl. cbn [negb]. cbv zeta.
    rewrite rows_eq, means_eq, between_eq.
    destruct (Req_EM_T (INR m - 1) 0) as [E|_].
    { exfalso. apply (Rminus_diag_uniq (INR m) 1) in E. apply INR_eq in E || (change 1 with (INR 1) in E; apply INR_eq in E). lia. }
    rewrite (proj2 (Nat.eqb_neq n 1)) by lia. rewrite (within_eq H2).
    assert (EV : (INR (n - 1) * within m n psi + between m n psi) / INR n = var_plus m n psi).
    { unfold var_plus. rewrite minus_INR by lia. change (INR 1) with 1. assert (INR n <> 0) by (apply not_0_INR; lia). field. assumption. }
    rewrite EV. unfold statistics. cbv zeta. rewrite map_map.
    rewrite (map_ext_in _ (fun t => np_add (Finite 1) (np_neg (np_div (variogram m n psi (t + 1)) (2 * var_plus m n psi))))); [reflexivity|].
    intros t Ht. apply in_seq in Ht. now rewrite variogram_eq by lia.
  Qed.
End Calc.

Lemma single_chain bs values : List.length values = bs -> calc_r_hat_value bs 1 values = Err ZeroDivisionError.
Proof.
  intros L. unfold calc_r_hat_value. cbn [Nat.eqb]. rewrite Nat.div_1_r, Nat.mul_1_l, L, Nat.eqb_refl. cbn [negb]. cbv zeta.
  destruct (Req_EM_T (INR 1 - 1) 0) as [_|N]; [reflexivity|]. exfalso. apply N. cbn. ring.
Qed.

(** * The sum of the correlations *)
Lemma np_sum_finite (l : list R) : np_sum (map Finite l) = Finite (Rsum (fun x => x) l).
Proof. induction l as [|a l IH]; [reflexivity|]. cbn [map]. change (np_sum (Finite a :: map Finite l)) with (np_add (Finite a) (np_sum (map Finite l))). rewrite IH. reflexivity. Qed.

Lemma loop_finite (c : nat -> R) len : forall steps i, (1 <= i)%nat -> (i + steps <= len / 2)%nat ->
  exists K, sum_correlations_loop (map (fun t => Finite (c t)) (range len)) steps i = Finite (Rsum c (seq 0 K)) /\
    ((K = len /\ forall k, (i <= k < i + steps)%nat -> 0 <= c (2 * k - 1)%nat + c (2 * k)%nat) \/
     exists k, (i <= k < i + steps)%nat /\ K = (2 * k)%nat /\ c (2 * k - 1)%nat + c (2 * k)%nat < 0 /\
       forall k', (i <= k' < k)%nat -> 0 <= c (2 * k' - 1)%nat + c (2 * k')%nat).
Proof.
  assert (NT : forall x, (x < len)%nat -> nth x (map (fun t => Finite (c t)) (range len)) NaN = Finite (c x)).
  { intros x Hx. rewrite (nth_indep _ NaN (Finite (c 0%nat))) by (rewrite map_length, range_length; exact Hx).
    change (Finite (c 0%nat)) with ((fun t => Finite (c t)) 0%nat). rewrite map_nth. unfold range. now rewrite seq_nth. }
  induction steps as [|s IH]; intros i Hi Hs.
  - exists len. split; [|left; split; [reflexivity|intros; lia]]. cbn [sum_correlations_loop].
    rewrite <- (map_map c Finite), np_sum_finite, Rsum_map. reflexivity.
  - cbn [sum_correlations_loop]. pose proof (Nat.div_mod len 2 ltac:(lia)) as D. pose proof (Nat.mod_upper_bound len 2 ltac:(lia)) as U.
    rewrite !NT by lia. cbn [np_add np_negative]. destruct (Rlt_dec (c (2 * i - 1)%nat + c (2 * i)%nat) 0) as [Neg|Pos].
    + exists (2 * i)%nat. split.
      * rewrite firstn_map. unfold range. rewrite firstn_seq' by lia. rewrite <- (map_map c Finite), np_sum_finite, Rsum_map. reflexivity.
      * right. exists i. split; [lia|]. split; [reflexivity|]. split; [exact Neg|]. intros; lia.
    + destruct (IH (S i) ltac:(lia) ltac:(lia)) as (K & E & C). exists K. split; [exact E|].
      apply Rnot_lt_le in Pos. destruct C as [[-> A]|(k & Hk & -> & Ng & A)].
      * left. split; [reflexivity|]. intros k Hk. destruct (Nat.eq_dec k i) as [->|N]; [exact Pos|]. apply A. lia.
      * right. exists k. split; [lia|]. split; [reflexivity|]. split; [exact Ng|]. intros k' Hk'. destruct (Nat.eq_dec k' i) as [->|N]; [exact Pos|]. apply A. lia.
Qed.

Lemma Rsum_seq_shift (f : nat -> R) K : Rsum (fun t => f (t + 1)%nat) (seq 0 K) = Rsum f (seq 1 K).
Proof. rewrite <- seq_shift, Rsum_map. apply Rsum_ext. intros t _. f_equal. lia. Qed.
Lemma np_div_ok a b : b <> 0 -> np_div a b = Finite (a / b).
Proof. intros H. unfold np_div. destruct (Req_EM_T b 0) as [E|_]; [contradiction|reflexivity]. Qed.

(** Where the sum over the correlations stops. *)
Definition cut (n : nat) (r : nat -> R) (K : nat) : Prop :=
  (K = (n - 1)%nat /\ forall T, Nat.Odd T -> (T + 3 <= n - 1)%nat -> 0 <= r (T + 1)%nat + r (T + 2)%nat) \/
  exists T, Nat.Odd T /\ (T + 3 <= n - 1)%nat /\ K = (T + 1)%nat /\ r (T + 1)%nat + r (T + 2)%nat < 0 /\
    forall T', Nat.Odd T' -> (T' < T)%nat -> 0 <= r (T' + 1)%nat + r (T' + 2)%nat.
Lemma sum_cut n r : exists K, sum_correlations (map (fun t => Finite (r (t + 1)%nat)) (range (n - 1))) = Finite (Rsum r (seq 1 K)) /\ cut n r K.
Proof.
  unfold sum_correlations. rewrite map_length, range_length.
  pose proof (Nat.div_mod (n - 1) 2 ltac:(lia)) as D. pose proof (Nat.mod_upper_bound (n - 1) 2 ltac:(lia)) as U.
  set (h := ((n - 1) / 2)%nat) in *. destruct (Nat.eq_dec h 0) as [Z|NZ].
  - rewrite Z. cbn [sum_correlations_loop Nat.sub]. exists (n - 1)%nat. split.
    + rewrite <- (map_map (fun t => r (t + 1)%nat) Finite), np_sum_finite, Rsum_map. unfold range. now rewrite Rsum_seq_shift.
    + left. split; [reflexivity|]. intros T _ HT. lia.
  - destruct (loop_finite (fun t => r (t + 1)%nat) (n - 1) (h - 1) 1 ltac:(lia) ltac:(fold h; lia)) as (K & E & C). exists K.
    split; [rewrite E; now rewrite Rsum_seq_shift|]. destruct C as [[-> A]|(k & Hk & -> & Ng & A)].
    + left. split; [reflexivity|]. intros T [q ->] HT. specialize (A (q + 1)%nat ltac:(lia)).
      replace (2 * (q + 1) - 1 + 1)%nat with (2 * q + 1 + 1)%nat in A by lia. replace (2 * (q + 1) + 1)%nat with (2 * q + 1 + 2)%nat in A by lia. exact A.
    + right. exists (2 * k - 1)%nat. split; [exists (k - 1)%nat; lia|]. split; [lia|]. split; [lia|].
      replace (2 * k - 1 + 2)%nat with (2 * k + 1)%nat by lia. split; [exact Ng|].
      intros T' [q ->] HT. specialize (A (q + 1)%nat ltac:(lia)).
      replace (2 * (q + 1) - 1 + 1)%nat with (2 * q + 1 + 1)%nat in A by lia. replace (2 * (q + 1) + 1)%nat with (2 * q + 1 + 2)%nat in A by lia. exact A.
Qed.

(** * Signs *)
Lemma Rsum_nonneg {A} (f : A -> R) l : (forall x, In x l -> 0 <= f x) -> 0 <= Rsum f l.
Proof.
  induction l as [|a l IH]; intros H; [apply Req_le; reflexivity|]. rewrite Rsum_cons. pose proof (H a (or_introl eq_refl)).
  assert (0 <= Rsum f l) by (apply IH; intros x Hx; apply H; now right). lra.
Qed.
Lemma Rsum_zero_all {A} (f : A -> R) l : (forall x, In x l -> 0 <= f x) -> Rsum f l = 0 -> forall x, In x l -> f x = 0.
Proof.
  induction l as [|a l IH]; intros H E x Hx; [destruct Hx|]. rewrite Rsum_cons in E. pose proof (H a (or_introl eq_refl)).
  assert (0 <= Rsum f l) by (apply Rsum_nonneg; intros y Hy; apply H; now right).
  destruct Hx as [<-|Hx]; [lra|]. apply IH; [intros y Hy; apply H; now right|lra|exact Hx].
Qed.
Lemma Rsum_const {A} (c : R) (l : list A) : Rsum (fun _ => c) l = INR (List.length l) * c.
Proof. induction l as [|a l IH]; [cbn; ring|]. rewrite Rsum_cons, IH. cbn [List.length]. rewrite S_INR. ring. Qed.
Lemma Rsum_add {A} (f g : A -> R) l : Rsum (fun x => f x + g x) l = Rsum f l + Rsum g l.
Proof. induction l as [|a l IH]; [cbn; ring|]. rewrite !Rsum_cons, IH. ring. Qed.

Lemma INR_pos2 k : (2 <= k)%nat -> 0 < INR k.
Proof. intros H. apply lt_0_INR; lia. Qed.
Lemma INR_pred_pos k : (2 <= k)%nat -> 0 < INR k - 1.
Proof. intros H. change 1 with (INR 1). rewrite <- minus_INR by lia. apply lt_0_INR; lia. Qed.
Section Signs.
  Context (m n : nat) (psi : nat -> nat -> R) (Hm : (2 <= m)%nat) (Hn : (2 <= n)%nat).
  Lemma between_nonneg : 0 <= between m n psi.
  Proof.
    unfold between. apply Rmult_le_pos; [|apply Rsum_nonneg; intros; apply pow2_ge_0].
    apply Rlt_le, Rdiv_lt_0_compat; [apply (INR_pos2 n Hn)|apply (INR_pred_pos m Hm)].
  Qed.
  Lemma chain_variance_nonneg j : 0 <= chain_variance n psi j.
  Proof.
    unfold chain_variance, Rdiv. apply Rmult_le_pos; [apply Rsum_nonneg; intros; apply pow2_ge_0|]. apply Rlt_le, Rinv_0_lt_compat, (INR_pred_pos n Hn).
  Qed.
  Lemma within_nonneg : 0 <= within m n psi.
  Proof.
    unfold within, Rdiv. apply Rmult_le_pos; [apply Rsum_nonneg; intros; apply chain_variance_nonneg|]. apply Rlt_le, Rinv_0_lt_compat, (INR_pos2 m Hm).
  Qed.
  Lemma var_plus_nonneg : 0 <= var_plus m n psi.
  Proof.
    unfold var_plus, Rdiv. pose proof (INR_pos2 n Hn). pose proof (INR_pred_pos n Hn). assert (0 < / INR n) by now apply Rinv_0_lt_compat.
    assert (0 <= (INR n - 1) * / INR n * within m n psi) by (apply Rmult_le_pos; [nra|apply within_nonneg]).
    assert (0 <= between m n psi * / INR n) by (apply Rmult_le_pos; [apply between_nonneg|lra]). lra.
  Qed.
  Lemma variogram_nonneg t : (t < n)%nat -> 0 <= variogram m n psi t.
  Proof.
    intros Ht. unfold variogram, Rdiv. apply Rmult_le_pos; [apply Rsum_nonneg; intros; apply Rsum_nonneg; intros; apply pow2_ge_0|].
    apply Rlt_le, Rinv_0_lt_compat, Rmult_lt_0_compat; [apply (INR_pos2 m Hm)|apply lt_0_INR; lia].
  Qed.
  Lemma ratio : within m n psi <> 0 -> var_plus m n psi / within m n psi = (INR n - 1) / INR n + between m n psi / (INR n * within m n psi).
  Proof. intros W. unfold var_plus. pose proof (INR_pos2 n Hn). field. split; [exact W|lra]. Qed.

  (** All samples are equal exactly when the estimated variance is zero. *)
  Lemma var_plus_zero : var_plus m n psi = 0 <-> forall j i j' i', (j < m)%nat -> (i < n)%nat -> (j' < m)%nat -> (i' < n)%nat -> psi j i = psi j' i'.
  Proof.
    pose proof (INR_pos2 n Hn). pose proof (INR_pred_pos n Hn). pose proof (INR_pos2 m Hm). pose proof (INR_pred_pos m Hm). pose proof within_nonneg as W0. pose proof between_nonneg as B0.
    split.
    - intros E. unfold var_plus in E.
      assert (E1 : (INR n - 1) * within m n psi + between m n psi = 0).
      { apply (Rmult_eq_reg_r (/ INR n)); [|apply Rinv_neq_0_compat; lra]. rewrite Rmult_0_l. rewrite <- E. field. lra. }
      assert (EW : within m n psi = 0) by nra. assert (EB : between m n psi = 0) by nra.
      assert (CM : forall j, (j < m)%nat -> chain_mean n psi j = overall_mean m n psi).
      { intros j Hj. unfold between in EB. apply Rmult_integral in EB. destruct EB as [Z|Z].
        - exfalso. assert (0 < INR n / (INR m - 1)) by (apply Rdiv_lt_0_compat; lra). lra.
        - pose proof (Rsum_zero_all _ _ (fun x _ => pow2_ge_0 _) Z j ltac:(apply in_seq; lia)) as Q. cbv beta in Q. nra. }
      assert (CV : forall j i, (j < m)%nat -> (i < n)%nat -> psi j i = chain_mean n psi j).
      { intros j i Hj Hi. unfold within, Rdiv in EW. apply Rmult_integral in EW. destruct EW as [Z|Z]; [|exfalso; revert Z; apply Rinv_neq_0_compat; lra].
        pose proof (Rsum_zero_all _ _ (fun x _ => chain_variance_nonneg x) Z j ltac:(apply in_seq; lia)) as Q. unfold chain_variance, Rdiv in Q.
        apply Rmult_integral in Q. destruct Q as [Q|Q]; [|exfalso; revert Q; apply Rinv_neq_0_compat; lra].
        pose proof (Rsum_zero_all _ _ (fun x _ => pow2_ge_0 _) Q i ltac:(apply in_seq; lia)) as P. cbv beta in P. nra. }
      intros j i j' i' Hj Hi Hj' Hi'. rewrite (CV j i), (CV j' i'), (CM j), (CM j') by assumption. reflexivity.
    - intros E. set (c := psi 0%nat 0%nat). assert (A : forall j i, (j < m)%nat -> (i < n)%nat -> psi j i = c) by (intros; apply E; lia).
      assert (CM : forall j, In j (seq 0 m) -> chain_mean n psi j = c).
      { intros j Hj. apply in_seq in Hj. unfold chain_mean. rewrite (Rsum_ext _ (fun _ => c)) by (intros i Hi; apply in_seq in Hi; apply A; lia).
        rewrite Rsum_const, seq_length. field. lra. }
      assert (OM : overall_mean m n psi = c) by (unfold overall_mean; rewrite (Rsum_ext _ (fun _ => c)) by exact CM; rewrite Rsum_const, seq_length; field; lra).
      unfold var_plus, within, between.
      rewrite (Rsum_ext (chain_variance n psi) (fun _ => 0)).
      2:{ intros j Hj. unfold chain_variance. rewrite (Rsum_ext _ (fun _ => 0)); [rewrite Rsum_const; unfold Rdiv; ring|].
          intros i Hi. rewrite (CM j Hj). apply in_seq in Hi, Hj. rewrite A by lia. ring. }
      rewrite (Rsum_ext (fun j => (chain_mean n psi j - _) ^ 2) (fun _ => 0)) by (intros j Hj; rewrite (CM j Hj), OM; ring).
      rewrite !Rsum_const. unfold Rdiv. ring.
  Qed.

  (** The two variances add up to the spread of all samples around their overall mean. *)
  Lemma total_variance :
    INR m * (INR n - 1) * within m n psi + (INR m - 1) * between m n psi =
    Rsum (fun j => Rsum (fun i => (psi j i - overall_mean m n psi) ^ 2) (seq 0 n)) (seq 0 m).
  Proof.
    pose proof (INR_pos2 n Hn). pose proof (INR_pred_pos n Hn). pose proof (INR_pos2 m Hm). pose proof (INR_pred_pos m Hm). set (mu := overall_mean m n psi).
    assert (E : forall j, Rsum (fun i => (psi j i - mu) ^ 2) (seq 0 n) = (INR n - 1) * chain_variance n psi j + INR n * (chain_mean n psi j - mu) ^ 2).
    { intros j. set (c := chain_mean n psi j).
      rewrite (Rsum_ext _ (fun i => ((psi j i - c) ^ 2 + (2 * (c - mu)) * psi j i) + ((c - mu) ^ 2 - 2 * (c - mu) * c))) by (intros; ring).
      rewrite Rsum_add, Rsum_add, Rsum_scal, Rsum_const, seq_length.
      assert (S : Rsum (psi j) (seq 0 n) = INR n * c) by (unfold c, chain_mean; field; lra). rewrite S.
      unfold chain_variance. fold c. field. lra. }
    rewrite (Rsum_ext _ _ _ (fun j _ => E j)). rewrite Rsum_add, !Rsum_scal. unfold within, between. fold mu. field. lra.
  Qed.
End Signs.

(** * Affine changes of the values *)
Section Affine.
  Context (m n : nat) (psi phi : nat -> nat -> R) (a b : R) (Hm : (2 <= m)%nat) (Hn : (2 <= n)%nat).
  Context (E : forall j i, (j < m)%nat -> (i < n)%nat -> phi j i = a * psi j i + b).
  Lemma affine_mean j : (j < m)%nat -> chain_mean n phi j = a * chain_mean n psi j + b.
  Proof.
    intros Hj. unfold chain_mean. rewrite (Rsum_ext _ (fun i => a * psi j i + b)) by (intros i Hi; apply in_seq in Hi; apply E; lia).
    rewrite Rsum_add, Rsum_scal, Rsum_const, seq_length. assert (0 < INR n) by (apply lt_0_INR; lia). field. lra.
  Qed.
  Lemma affine_overall : overall_mean m n phi = a * overall_mean m n psi + b.
  Proof.
    unfold overall_mean. rewrite (Rsum_ext _ (fun j => a * chain_mean n psi j + b)) by (intros j Hj; apply in_seq in Hj; apply affine_mean; lia).
    rewrite Rsum_add, Rsum_scal, Rsum_const, seq_length. assert (0 < INR m) by (apply lt_0_INR; lia). field. lra.
  Qed.
  Lemma affine_between : between m n phi = a * a * between m n psi.
  Proof.
    unfold between. rewrite (Rsum_ext _ (fun j => (a * a) * (chain_mean n psi j - overall_mean m n psi) ^ 2)).
    - rewrite Rsum_scal. ring.
    - intros j Hj. apply in_seq in Hj. rewrite affine_mean, affine_overall by lia. ring.
  Qed.
  Lemma affine_within : within m n phi = a * a * within m n psi.
  Proof.
    unfold within. rewrite (Rsum_ext _ (fun j => (a * a) * chain_variance n psi j)).
    - rewrite Rsum_scal. unfold Rdiv. ring.
    - intros j Hj. apply in_seq in Hj. unfold chain_variance. rewrite (Rsum_ext _ (fun i => (a * a) * (psi j i - chain_mean n psi j) ^ 2)).
      + rewrite Rsum_scal. unfold Rdiv. ring.
      + intros i Hi. apply in_seq in Hi. rewrite affine_mean, E by lia. ring.
  Qed.
  Lemma affine_var : var_plus m n phi = a * a * var_plus m n psi.
  Proof. unfold var_plus. rewrite affine_within, affine_between. unfold Rdiv. ring. Qed.
  Lemma affine_variogram t : variogram m n phi t = a * a * variogram m n psi t.
  Proof.
    unfold variogram. rewrite (Rsum_ext _ (fun j => (a * a) * Rsum (fun i => (psi j (i + t)%nat - psi j i) ^ 2) (seq 0 (n - t)))).
    - rewrite Rsum_scal. unfold Rdiv. ring.
    - intros j Hj. apply in_seq in Hj. rewrite <- Rsum_scal. apply Rsum_ext. intros i Hi. apply in_seq in Hi. rewrite !E by lia. ring.
  Qed.
End Affine.
