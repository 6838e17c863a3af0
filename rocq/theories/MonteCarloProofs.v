(** Proofs about averages over random batches. *)
From Coq Require Import List ZArith Reals Lra Lia Bool Arith.
From Verif Require Import Base Cplx AutoregressiveSpec IsingModel ObservableModel ObservableSpec ObservableProofs ExactModel ExactSpec ExactProofs
  ExactGradientProofs ExactGeneratorProofs ExactSamplerProofs ExactFinalProofs MonteCarloModel MonteCarloSpec.
Import ListNotations.
Local Open Scope R_scope.

Lemma all_batches_in n B b : In b (all_batches n B) <-> (length b = B /\ forall s, In s b -> In s (spin_configs n)).
Proof.
  revert b. induction B as [|B IH]; intros b; cbn [all_batches].
  - split.
    + intros [<-|[]]. split; [reflexivity|]. intros s [].
    + intros [L _]. destruct b; [now left|discriminate].
  - rewrite in_flat_map. split.
    + intros (s & Hs & Hb). apply in_map_iff in Hb. destruct Hb as (b' & <- & Hb'). apply IH in Hb'. destruct Hb' as [L A].
      split; [simpl; lia|]. intros t [<-|Ht]; auto.
    + intros [L A]. destruct b as [|s b]; [discriminate|]. exists s. split; [apply A; now left|]. apply in_map_iff. exists b.
      split; [reflexivity|]. apply IH. split; [simpl in L; lia|]. intros t Ht. apply A. now right.
Qed.

Lemma Rsum_batches_S n B (F : list (list Z) -> R) :
  Rsum F (all_batches n (S B)) = Rsum (fun s => Rsum (fun b => F (s :: b)) (all_batches n B)) (spin_configs n).
Proof. cbn [all_batches]. rewrite Rsum_flat_map. apply Rsum_ext. intros s _. now rewrite Rsum_map. Qed.

Lemma Rsum_probability_configs n lp : Rsum (probability n lp) (spin_configs n) = 1.
Proof. rewrite <- (Rsum_perm _ _ _ (basis_perm n)), <- (Rsum_probability n lp), Rsum_map. reflexivity. Qed.

Section Averages.
  Context (n : nat) (lp : list Z -> C).
  Local Notation mu := (mean_config n lp).
  Local Notation avg := (average_over (independent n lp) n).

  Lemma mu_ext f g : (forall s, In s (spin_configs n) -> f s = g s) -> mu f = mu g.
  Proof. intros E. apply Rsum_ext. intros s Hs. now rewrite E. Qed.
  Lemma mu_plus f g : mu (fun s => f s + g s) = mu f + mu g.
  Proof. unfold mean_config. rewrite <- Rsum_plus. apply Rsum_ext. intros; ring. Qed.
  Lemma mu_scal c f : mu (fun s => c * f s) = c * mu f.
  Proof. unfold mean_config. rewrite <- Rsum_scal. apply Rsum_ext. intros; ring. Qed.
  Lemma mu_const c : mu (fun _ => c) = c.
  Proof. unfold mean_config. rewrite Rsum_scal_r, Rsum_probability_configs. ring. Qed.

  Lemma avg_ext B f g : (forall b, In b (all_batches n B) -> f b = g b) -> avg B f = avg B g.
  Proof. intros E. apply Rsum_ext. intros b Hb. now rewrite E. Qed.
  Lemma avg_plus B f g : avg B (fun b => f b + g b) = avg B f + avg B g.
  Proof. unfold average_over. rewrite <- Rsum_plus. apply Rsum_ext. intros; ring. Qed.
  Lemma avg_scal B c f : avg B (fun b => c * f b) = c * avg B f.
  Proof. unfold average_over. rewrite <- Rsum_scal. apply Rsum_ext. intros; ring. Qed.
  Lemma avg_S B F : avg (S B) F = mu (fun s => avg B (fun b => F (s :: b))).
  Proof.
    unfold average_over, mean_config. rewrite Rsum_batches_S. apply Rsum_ext. intros s _. rewrite <- Rsum_scal. apply Rsum_ext.
    intros b _. unfold independent. rewrite Rprod_cons. ring.
  Qed.
  Lemma avg_const B c : avg B (fun _ => c) = c.
  Proof.
    induction B as [|B IH].
    - unfold average_over, independent. cbn [all_batches]. rewrite Rsum_cons, Rsum_nil. unfold Rprod. cbn [fold_right]. ring.
    - rewrite avg_S. rewrite (mu_ext _ (fun _ => c)) by (intros; apply IH). apply mu_const.
  Qed.

  Lemma avg_sum B f : avg B (Rsum f) = INR B * mu f.
  Proof.
    induction B as [|B IH].
    - unfold average_over, independent. cbn [all_batches]. rewrite !Rsum_cons, !Rsum_nil. simpl INR. ring.
    - rewrite avg_S, (mu_ext _ (fun s => f s + INR B * mu f)).
      + rewrite mu_plus, mu_const, S_INR. ring.
      + intros s _. rewrite (avg_ext B _ (fun b => f s + Rsum f b)) by reflexivity. rewrite avg_plus, avg_const, IH. reflexivity.
  Qed.

  Lemma avg_product B f g :
    avg B (fun b => Rsum f b * Rsum g b) = INR B * mu (fun s => f s * g s) + INR B * (INR B - 1) * (mu f * mu g).
  Proof.
    induction B as [|B IH].
    - unfold average_over, independent. cbn [all_batches]. rewrite !Rsum_cons, !Rsum_nil. simpl INR. ring.
    - set (k := INR B * mu (fun s => f s * g s) + INR B * (INR B - 1) * (mu f * mu g)) in *.
      rewrite avg_S, (mu_ext _ (fun s => (f s * g s + INR B * mu g * f s) + (INR B * mu f * g s + k))).
      + rewrite mu_plus, mu_plus, mu_scal, mu_plus, mu_scal, mu_const, S_INR. unfold k. ring.
      + intros s _. rewrite (avg_ext B _ (fun b => (f s * g s + f s * Rsum g b) + (g s * Rsum f b + Rsum f b * Rsum g b))).
        2: { intros b _. rewrite !Rsum_cons. ring. }
        rewrite !avg_plus, avg_const, !avg_scal, !avg_sum, IH. ring.
  Qed.

  (** sum_i (f_i - mean f) g_i *)
  Lemma avg_covariance B f g : (0 < B)%nat ->
    avg B (fun b => Rsum (fun s => (f s - / INR B * Rsum f b) * g s) b) = (INR B - 1) * (mu (fun s => f s * g s) - mu f * mu g).
  Proof.
    intros HB. assert (INR B <> 0) by (apply not_0_INR; lia).
    rewrite (avg_ext B _ (fun b => Rsum (fun s => f s * g s) b + - / INR B * (Rsum f b * Rsum g b))).
    - rewrite avg_plus, avg_scal, avg_sum, avg_product. field. assumption.
    - intros b _. rewrite (Rsum_ext _ (fun s => f s * g s - (/ INR B * Rsum f b) * g s)) by (intros; ring).
      rewrite Rsum_minus, Rsum_scal. ring.
  Qed.

  Lemma avg_square_error B f : (0 < B)%nat ->
    avg B (fun b => (/ INR B * Rsum f b - mu f) ^ 2) = / INR B * mu (fun s => (f s - mu f) ^ 2).
  Proof.
    intros HB. assert (INR B <> 0) by (apply not_0_INR; lia).
    rewrite (avg_ext B _ (fun b => / INR B ^ 2 * (Rsum f b * Rsum f b) + (-2 * mu f / INR B * Rsum f b + mu f ^ 2))).
    2: { intros b _. field. assumption. }
    rewrite !avg_plus, !avg_scal, avg_const, avg_sum, avg_product.
    rewrite (mu_ext (fun s => (f s - mu f) ^ 2) (fun s => f s * f s + (- 2 * mu f * f s + mu f ^ 2))) by (intros; ring).
    rewrite !mu_plus, !mu_scal, mu_const. field. assumption.
  Qed.

  Lemma mu_centered f g : mu (fun s => (f s - mu f) * (g s - mu g)) = mu (fun s => f s * g s) - mu f * mu g.
  Proof.
    rewrite (mu_ext _ (fun s => f s * g s + (- mu f * g s + (- mu g * f s + mu f * mu g)))) by (intros; ring).
    rewrite !mu_plus, !mu_scal, mu_const. ring.
  Qed.
End Averages.

(** * Rows with the right distribution *)
Lemma Rsum_nth {A} (f : A -> R) d l : Rsum f l = Rsum (fun k => f (nth k l d)) (seq 0 (length l)).
Proof.
  induction l as [|a l IH]; [reflexivity|]. cbn [length seq]. rewrite !Rsum_cons, <- seq_shift, Rsum_map, IH. reflexivity.
Qed.

Lemma Rsum_select {A} (dec : forall a b : A, {a = b} + {a <> b}) (f : A -> R) l x : NoDup l -> In x l ->
  Rsum (fun a => if dec x a then f a else 0) l = f x.
Proof.
  induction l as [|a l IH]; intros N Hx; [destruct Hx|]. inversion N; subst. rewrite Rsum_cons. destruct (dec x a) as [->|E].
  - rewrite (Rsum_ext _ (fun _ => 0)), Rsum_zero; [ring|]. intros b Hb. destruct (dec a b) as [->|]; [contradiction|reflexivity].
  - rewrite IH; [ring|assumption|]. destruct Hx; [congruence|assumption].
Qed.

Lemma independent_marginals n B lp : right_marginals n B lp (independent n lp).
Proof.
  intros k s Hk Hs. revert k Hk. induction B as [|B IH]; intros k Hk; [lia|]. rewrite Rsum_batches_S. destruct k as [|k]; cbn [nth].
  - rewrite (Rsum_ext _ (fun s' => if list_eq_dec Z.eq_dec s s' then probability n lp s' else 0)).
    + apply Rsum_select; [apply NoDup_spin_configs|exact Hs].
    + intros s' _. destruct (list_eq_dec Z.eq_dec s' s) as [->|E], (list_eq_dec Z.eq_dec s s) as [_|E']; try congruence.
      * rewrite (Rsum_ext _ (fun b => probability n lp s * (independent n lp b * 1))).
        2: { intros b _. unfold independent. rewrite Rprod_cons. ring. }
        rewrite Rsum_scal. change (probability n lp s * average_over (independent n lp) n B (fun _ => 1) = probability n lp s).
        rewrite avg_const. ring.
      * destruct (list_eq_dec Z.eq_dec s s') as [E2|_]; [congruence|]. apply Rsum_zero.
  - rewrite (Rsum_ext _ (fun s' => probability n lp s' * probability n lp s)).
    + rewrite Rsum_scal_r, Rsum_probability_configs. ring.
    + intros s' _. rewrite <- (IH k) by lia. rewrite <- Rsum_scal. apply Rsum_ext. intros b _.
      destruct (list_eq_dec Z.eq_dec (nth k b []) s); [|ring]. unfold independent. now rewrite Rprod_cons.
Qed.

Lemma marginals_sum n B lp law f : right_marginals n B lp law -> average_over law n B (Rsum f) = INR B * mean_config n lp f.
Proof.
  intros M. unfold average_over.
  rewrite (Rsum_ext _ (fun b => Rsum (fun k => law b * f (nth k b [])) (seq 0 B))).
  2: { intros b Hb. apply all_batches_in in Hb. destruct Hb as [L _]. rewrite (Rsum_nth f [] b), L, Rsum_scal. reflexivity. }
  rewrite Rsum_exchange. rewrite (Rsum_ext _ (fun _ => mean_config n lp f)).
  2: { intros k Hk. apply in_seq in Hk. unfold mean_config.
       rewrite (Rsum_ext (fun s => probability n lp s * f s)
         (fun s => Rsum (fun b => if list_eq_dec Z.eq_dec (nth k b []) s then law b * f s else 0) (all_batches n B))).
       - rewrite Rsum_exchange. apply Rsum_ext. intros b Hb. apply all_batches_in in Hb. destruct Hb as [L A].
         symmetry. apply (Rsum_select (list_eq_dec Z.eq_dec) (fun s => law b * f s)); [apply NoDup_spin_configs|]. apply A, nth_In. lia.
       - intros s Hs. rewrite <- (M k s) by (auto; lia). rewrite <- Rsum_scal_r. apply Rsum_ext. intros b _.
         destruct (list_eq_dec Z.eq_dec (nth k b []) s); ring. }
  rewrite Rsum_const, seq_length. reflexivity.
Qed.

(** * The energy is the mean of the local energies *)
Lemma born_local n H lp s : Cscale (born (lp s)) (local_energy n H lp s) =
  (Cconj (Cexp (lp s)) * apply_matrix n H (fun t => Cexp (lp t)) s)%C.
Proof.
  unfold local_energy, Cdiv. set (a := apply_matrix n H _ s). unfold born.
  rewrite Cscale_RtoC, <- Cmult_conj.
  transitivity ((Cexp (lp s) * Cinv (Cexp (lp s))) * (Cconj (Cexp (lp s)) * a))%C; [ring|].
  rewrite Cmult_inv_r by apply Cexp_nonzero. ring.
Qed.

Lemma Re_scale r z : Re (Cscale r z) = r * Re z. Proof. reflexivity. Qed.
Lemma Im_scale r z : Im (Cscale r z) = r * Im z. Proof. reflexivity. Qed.

Lemma expectation_mean n H lp :
  Re (expectation n H lp) = mean_config n lp (fun s => Re (local_energy n H lp s)) /\
  Im (expectation n H lp) = mean_config n lp (fun s => Im (local_energy n H lp s)).
Proof.
  unfold expectation, braket, mean_config. rewrite Re_scale, Im_scale, Re_Csum, Im_Csum, <- !Rsum_scal.
  split; apply Rsum_ext; intros s _; rewrite <- born_local, ?Re_scale, ?Im_scale; unfold probability, Rdiv; ring.
Qed.

Lemma update_ok n H op lp b : operator_represents n H op -> b <> [] -> (forall s, In s b -> In s (spin_configs n)) ->
  update_batch_local_energy op lp b = Ok (estimate (map (local_energy n H lp) b)).
Proof.
  intros HO NE A. destruct (HO b NE A) as (K & c & E & HK & HR & _). unfold update_batch_local_energy. rewrite E. cbn [bind].
  rewrite (local_values_matrix n K H b c lp HK HR). reflexivity.
Qed.

Definition spec_energy n H lp (b : list (list Z)) : C := Cscale (/ INR (length b)) (Csum (local_energy n H lp) b).
Lemma estimate_energy n H lp b : mean_value (estimate (map (local_energy n H lp) b)) = spec_energy n H lp b.
Proof. cbn [estimate mean_value]. unfold Cmean, spec_energy. rewrite map_length, Csum_map. reflexivity. Qed.

Lemma next_batch_ok n H op lp b : operator_represents n H op -> b <> [] -> (forall s, In s b -> In s (spin_configs n)) ->
  next_batch op lp b = Ok {| batch_of_step := b; energy_of_step := spec_energy n H lp b;
    variance_of_step := Rvar (map (fun s => Re (local_energy n H lp s)) b); local_of_step := map (local_energy n H lp) b;
    targets_of_step := map (fun s => Cscale (/ INR (length b)) (Cconj (local_energy n H lp s - spec_energy n H lp b)%C)) b |}.
Proof.
  intros HO NE A. unfold next_batch. rewrite (update_ok n H) by assumption. cbn [bind]. rewrite estimate_energy.
  cbn [estimate local variance]. unfold loss_coefficients. now rewrite !map_map.
Qed.

Lemma nonempty_batch {A} (b : list A) B : (0 < B)%nat -> length b = B -> b <> [].
Proof. intros H L ->. cbn in L. lia. Qed.

Lemma energy_unbiased n H lp law B : (0 < B)%nat -> right_marginals n B lp law ->
  Caverage_over law n B (spec_energy n H lp) = expectation n H lp.
Proof.
  intros HB M. assert (INR B <> 0) by (apply not_0_INR; lia). destruct (expectation_mean n H lp) as [ER EI].
  assert (G : forall f, Rsum (fun b => law b * (/ INR (length b) * Rsum f b)) (all_batches n B) = mean_config n lp f).
  { intros f. rewrite (Rsum_ext _ (fun b => / INR B * (law b * Rsum f b))).
    - rewrite Rsum_scal. change (/ INR B * average_over law n B (Rsum f) = mean_config n lp f). rewrite (marginals_sum n B lp law f M).
      field. assumption.
    - intros b Hb. apply all_batches_in in Hb. destruct Hb as [-> _]. ring. }
  apply C_eq; unfold Caverage_over, spec_energy.
  - rewrite ER, Re_Csum, <- G. apply Rsum_ext. intros b _. now rewrite !Re_scale, Re_Csum.
  - rewrite EI, Im_Csum, <- G. apply Rsum_ext. intros b _. now rewrite !Im_scale, Im_Csum.
Qed.

Lemma Re_spec_energy n H lp B b : In b (all_batches n B) -> Re (spec_energy n H lp b) = / INR B * Rsum (fun s => Re (local_energy n H lp s)) b.
Proof. intros Hb. apply all_batches_in in Hb. destruct Hb as [<- _]. unfold spec_energy. now rewrite Re_scale, Re_Csum. Qed.
Lemma Im_spec_energy n H lp B b : In b (all_batches n B) -> Im (spec_energy n H lp b) = / INR B * Rsum (fun s => Im (local_energy n H lp s)) b.
Proof. intros Hb. apply all_batches_in in Hb. destruct Hb as [<- _]. unfold spec_energy. now rewrite Im_scale, Im_Csum. Qed.

Lemma energy_error n H lp B : (0 < B)%nat ->
  average_over (independent n lp) n B (fun b => Cnorm2 (spec_energy n H lp b - expectation n H lp)%C) = / INR B * fluctuation n H lp.
Proof.
  intros HB. destruct (expectation_mean n H lp) as [ER EI].
  set (f := fun s => Re (local_energy n H lp s)) in *. set (g := fun s => Im (local_energy n H lp s)) in *.
  rewrite (avg_ext n lp B _ (fun b => (/ INR B * Rsum f b - mean_config n lp f) ^ 2 + (/ INR B * Rsum g b - mean_config n lp g) ^ 2)).
  - rewrite avg_plus, !avg_square_error by assumption. rewrite <- Rmult_plus_distr_l, <- mu_plus. f_equal. apply mu_ext.
    intros s _. unfold Cnorm2. fold (Re (local_energy n H lp s - expectation n H lp)%C) (Im (local_energy n H lp s - expectation n H lp)%C).
    rewrite Re_minus, Im_minus, ER, EI. unfold f, g. ring.
  - intros b Hb. unfold Cnorm2. fold (Re (spec_energy n H lp b - expectation n H lp)%C) (Im (spec_energy n H lp b - expectation n H lp)%C).
    rewrite Re_minus, Im_minus, ER, EI, (Re_spec_energy n H lp B), (Im_spec_energy n H lp B) by assumption. fold f g. ring.
Qed.

Lemma Rvar_formula l : l <> [] -> Rvar l = Rmean (map (fun x => x * x) l) - Rmean l * Rmean l.
Proof.
  intros N. assert (INR (length l) <> 0) by (apply not_0_INR; destruct l; [congruence|discriminate]).
  unfold Rvar. set (m := Rmean l) in *. unfold Rmean. rewrite !map_length, !Rsum_map.
  rewrite (Rsum_ext _ (fun x => x * x - (2 * m * x - m * m))) by (intros; ring).
  rewrite !Rsum_minus, Rsum_scal, Rsum_const. replace (Rsum (fun a => a) l) with (INR (length l) * m).
  - field. assumption.
  - unfold m, Rmean. field. assumption.
Qed.

Lemma variance_average n H lp B : (0 < B)%nat ->
  average_over (independent n lp) n B (fun b => Rvar (map (fun s => Re (local_energy n H lp s)) b)) =
  (INR B - 1) / INR B * real_fluctuation n H lp.
Proof.
  intros HB. assert (INR B <> 0) by (apply not_0_INR; lia). destruct (expectation_mean n H lp) as [ER _].
  set (f := fun s => Re (local_energy n H lp s)) in *.
  rewrite (avg_ext n lp B _ (fun b => / INR B * Rsum (fun s => f s * f s) b + - / INR B ^ 2 * (Rsum f b * Rsum f b))).
  - rewrite avg_plus, !avg_scal, avg_sum, avg_product.
    unfold real_fluctuation. rewrite ER. rewrite (mu_ext n lp (fun s => (Re (local_energy n H lp s) - _) ^ 2) (fun s => (f s - mean_config n lp f) * (f s - mean_config n lp f)))
      by (intros; unfold f; ring).
    rewrite mu_centered. field. assumption.
  - intros b Hb. apply all_batches_in in Hb. destruct Hb as [L _]. rewrite Rvar_formula by (destruct b; [simpl in L; lia|discriminate]).
    unfold Rmean. rewrite !map_map, !map_length, !Rsum_map, L. change (Rsum (fun a => f a) b) with (Rsum f b). field. assumption.
Qed.

(** * The gradient *)
Lemma energy_gradient n H (lp : R -> list Z -> C) d x : hermitian n H ->
  (forall s, In s (spin_configs n) -> Cderive (fun t => lp t s) x (d s)) ->
  derivable_pt_lim (fun t => Re (expectation n H (lp t))) x
    (Rsum (fun s => 2 * Re (gradient_coefficient n H (lp x) s * d s)%C) (spin_configs n)).
Proof.
  intros HH HD. pose proof (energy_derivative n H lp d x HD HH) as D.
  apply (limit_ext (fun t => Re (result_energy n H (lp t)))).
  { intros t. now rewrite (proj2 (expectation_real n H (lp t) HH)). }
  eapply limit_value; [|exact D]. apply Rsum_ext. intros s _. unfold coefficient. now rewrite coefficient_spec.
Qed.

Lemma gradient_as_covariance n H lp (d : list Z -> C) :
  Rsum (fun s => 2 * Re (gradient_coefficient n H lp s * d s)%C) (spin_configs n) =
  2 * ((mean_config n lp (fun s => Re (local_energy n H lp s) * Re (d s)) -
        mean_config n lp (fun s => Re (local_energy n H lp s)) * mean_config n lp (fun s => Re (d s))) +
       (mean_config n lp (fun s => Im (local_energy n H lp s) * Im (d s)) -
        mean_config n lp (fun s => Im (local_energy n H lp s)) * mean_config n lp (fun s => Im (d s)))).
Proof.
  destruct (expectation_mean n H lp) as [ER EI]. rewrite <- ER, <- EI.
  rewrite (Rsum_ext _ (fun s => 2 * (probability n lp s * (((Re (local_energy n H lp s) * Re (d s)) + - Re (expectation n H lp) * Re (d s)) +
     ((Im (local_energy n H lp s) * Im (d s)) + - Im (expectation n H lp) * Im (d s)))))).
  - rewrite Rsum_scal. change (Rsum _ _) with (mean_config n lp (fun s => ((Re (local_energy n H lp s) * Re (d s)) + - Re (expectation n H lp) * Re (d s)) +
     ((Im (local_energy n H lp s) * Im (d s)) + - Im (expectation n H lp) * Im (d s)))).
    rewrite !mu_plus, !mu_scal. ring.
  - intros s _. unfold gradient_coefficient, Cmult, Cconj, Cminus, RtoC, Re, Im. cbn [fst snd]. ring.
Qed.

(** The sum over the batch of 2 Re (conj(e_i - mean) d_i). *)
Definition covariance_sum n H lp (d : list Z -> C) (b : list (list Z)) : R :=
  Rsum (fun s => 2 * Re (Cconj (local_energy n H lp s - spec_energy n H lp b) * d s)%C) b.
Lemma covariance_average n H lp d B : (0 < B)%nat ->
  average_over (independent n lp) n B (covariance_sum n H lp d) =
  (INR B - 1) * Rsum (fun s => 2 * Re (gradient_coefficient n H lp s * d s)%C) (spin_configs n).
Proof.
  intros HB. rewrite gradient_as_covariance.
  set (f := fun s => Re (local_energy n H lp s)). set (g := fun s => Im (local_energy n H lp s)).
  rewrite (avg_ext n lp B _ (fun b => 2 * (Rsum (fun s => (f s - / INR B * Rsum f b) * Re (d s)) b + Rsum (fun s => (g s - / INR B * Rsum g b) * Im (d s)) b))).
  - rewrite avg_scal, avg_plus, (avg_covariance n lp B f), (avg_covariance n lp B g) by assumption. unfold f, g. ring.
  - intros b Hb. unfold covariance_sum. rewrite <- Rsum_plus, <- Rsum_scal. apply Rsum_ext. intros s _.
    unfold f, g. rewrite <- (Re_spec_energy n H lp B b Hb), <- (Im_spec_energy n H lp B b Hb).
    unfold Cmult, Cconj, Cminus, Re, Im. cbn [fst snd]. ring.
Qed.

Lemma loss_of_targets (e : list Z -> C) E b lp k : (0 < length b)%nat ->
  batch_loss (map (fun s => Cscale k (Cconj (e s - E)%C)) b) (map lp b) =
  k / INR (length b) * Rsum (fun s => 2 * Re (Cconj (e s - E) * lp s)%C) b.
Proof.
  intros Lb. rewrite (batch_loss_combine (length b)) by (rewrite ?map_length; reflexivity).
  unfold Rdiv. rewrite (Rmult_comm k), Rmult_assoc. f_equal.
  rewrite <- Rsum_scal. clear Lb. induction b as [|s b IH]; [reflexivity|]. cbn [map combine]. rewrite !Rsum_cons, IH. f_equal.
  cbn [fst snd]. unfold Cmult, Cscale, Re. cbn [fst snd]. ring.
Qed.

Lemma sum_derivative (c : C -> C) (e : list Z -> C) n (lp : R -> list Z -> C) d x k b : (forall s, In s b -> In s (spin_configs n)) ->
  (forall s, In s (spin_configs n) -> Cderive (fun t => lp t s) x (d s)) ->
  derivable_pt_lim (fun t => k * Rsum (fun s => 2 * Re (c (e s) * lp t s)%C) b) x (k * Rsum (fun s => 2 * Re (c (e s) * d s)%C) b).
Proof.
  intros A HD. apply (derivable_pt_lim_scal (fun t => Rsum (fun s => 2 * Re (c (e s) * lp t s)%C) b)).
  apply (Rsum_derivative (fun s t => 2 * Re (c (e s) * lp t s)%C) (fun s => 2 * Re (c (e s) * d s)%C)).
  intros s Hs. destruct (Cderive_scal (c (e s)) _ x _ (HD s (A s Hs))) as [D _].
  exact (derivable_pt_lim_scal _ 2 x _ D).
Qed.

Lemma gradient_average n H op (lp : R -> list Z -> C) d x B : (0 < B)%nat -> operator_represents n H op -> hermitian n H ->
  (forall s, In s (spin_configs n) -> Cderive (fun t => lp t s) x (d s)) ->
  exists D G, derivable_pt_lim (fun t => Re (expectation n H (lp t))) x G /\
    (forall b, In b (all_batches n B) -> exists st, next_batch op (lp x) b = Ok st /\
       derivable_pt_lim (fun t => batch_loss (targets_of_step st) (map (lp t) b)) x (D b)) /\
    average_over (independent n (lp x)) n B D = (INR B - 1) / INR B ^ 2 * G.
Proof.
  intros HB HO HH HD. assert (NZ : INR B <> 0) by (apply not_0_INR; lia).
  exists (fun b => / INR B / INR B * covariance_sum n H (lp x) d b). eexists. split; [exact (energy_gradient n H lp d x HH HD)|]. split.
  - intros b Hb. apply all_batches_in in Hb. destruct Hb as [L A]. eexists. split; [apply (next_batch_ok n H); eauto using nonempty_batch|].
    cbn [targets_of_step].
    apply (limit_ext (fun t => / INR B / INR B * Rsum (fun s => 2 * Re (Cconj (local_energy n H (lp x) s - spec_energy n H (lp x) b) * lp t s)%C) b)).
    + intros t. rewrite loss_of_targets, L by lia. reflexivity.
    + exact (sum_derivative (fun e => Cconj (e - spec_energy n H (lp x) b)%C) (local_energy n H (lp x)) n lp d x _ b A HD).
  - rewrite avg_scal, covariance_average by assumption. field. assumption.
Qed.

(** * Several workers *)
Lemma mapM_ok {A B} (f : A -> res B) (g : A -> B) l : (forall a, In a l -> f a = Ok (g a)) -> mapM f l = Ok (map g l).
Proof.
  induction l as [|a l IH]; intros E; [reflexivity|]. cbn [mapM map]. rewrite E by now left. cbn [bind]. rewrite IH by (intros; apply E; now right).
  reflexivity.
Qed.
Lemma map2_map_self {A B D} (f : A -> B -> D) (g : A -> B) l : map2 f l (map g l) = map (fun a => f a (g a)) l.
Proof. induction l as [|a l IH]; [reflexivity|]. cbn [map map2]. now rewrite IH. Qed.
Lemma Rsum_of_chunks {A} (f : A -> R) (l : list (list A)) : Rsum f (concat l) = Rsum (fun c => Rsum f c) l.
Proof. induction l as [|c l IH]; [reflexivity|]. cbn [concat]. rewrite Rsum_app, Rsum_cons, IH. reflexivity. Qed.

Lemma reduced_spec n H lp B chunks : (0 < B)%nat -> chunks <> [] -> Forall (fun c => length c = B) chunks ->
  reduced_energy (map (spec_energy n H lp) chunks) = spec_energy n H lp (concat chunks).
Proof.
  intros HB NE F. assert (NB : INR B <> 0) by (apply not_0_INR; lia).
  assert (NW : INR (length chunks) <> 0) by (apply not_0_INR; destruct chunks; [congruence|discriminate]).
  assert (L : INR (length (concat chunks)) = INR (length chunks) * INR B).
  { clear NE NW. induction F as [|c l Hc F IH]; [simpl; ring|]. cbn [concat length]. rewrite app_length, plus_INR, IH, Hc, S_INR. ring. }
  assert (G : forall f : list Z -> R, / INR (length chunks) * Rsum (fun c => / INR (length c) * Rsum f c) chunks =
    / INR (length (concat chunks)) * Rsum f (concat chunks)).
  { intros f. rewrite L, Rsum_of_chunks, (Rsum_ext _ (fun c => / INR B * Rsum f c)).
    - rewrite Rsum_scal. change (fun c => Rsum f c) with (Rsum f). field. now split.
    - intros c Hc. rewrite Forall_forall in F. now rewrite (F c Hc). }
  apply C_eq; unfold reduced_energy, Re, Im; cbn [fst snd]; unfold Rmean; rewrite !map_length, !map_map, !Rsum_map.
  - transitivity (/ INR (length chunks) * Rsum (fun c => / INR (length c) * Rsum (fun s => Re (local_energy n H lp s)) c) chunks).
    + f_equal. apply Rsum_ext. intros c _. unfold spec_energy. change (fst (Cscale ?a ?b)) with (a * Re b). now rewrite Re_Csum.
    + rewrite G. unfold spec_energy. change (fst (Cscale ?a ?b)) with (a * Re b). now rewrite Re_Csum.
  - transitivity (/ INR (length chunks) * Rsum (fun c => / INR (length c) * Rsum (fun s => Im (local_energy n H lp s)) c) chunks).
    + f_equal. apply Rsum_ext. intros c _. unfold spec_energy. change (snd (Cscale ?a ?b)) with (a * Im b). now rewrite Im_Csum.
    + rewrite G. unfold spec_energy. change (snd (Cscale ?a ?b)) with (a * Im b). now rewrite Im_Csum.
Qed.

Lemma horovod_ok n H op lp B chunks : (0 < B)%nat -> chunks <> [] -> Forall (fun c => length c = B) chunks ->
  operator_represents n H op -> (forall s, In s (concat chunks) -> In s (spin_configs n)) ->
  horovod_next_batches op lp chunks = Ok (map (fun c => {| batch_of_step := c; energy_of_step := spec_energy n H lp (concat chunks);
    variance_of_step := Rvar (map (fun s => Re (local_energy n H lp s)) c); local_of_step := map (local_energy n H lp) c;
    targets_of_step := map (fun s => Cscale (/ INR (length c)) (Cconj (local_energy n H lp s - spec_energy n H lp (concat chunks))%C)) c |}) chunks).
Proof.
  intros HB NE F HO A. unfold horovod_next_batches.
  rewrite (mapM_ok _ (fun c => estimate (map (local_energy n H lp) c))).
  - cbn [bind]. rewrite map_map.
    rewrite (map_ext (fun x => mean_value (estimate (map (local_energy n H lp) x))) (spec_energy n H lp)) by (intros; apply estimate_energy).
    rewrite (reduced_spec n H lp B chunks HB NE F). rewrite map2_map_self. f_equal. apply map_ext. intros c.
    cbn [estimate local variance]. unfold loss_coefficients. now rewrite !map_map.
  - intros c Hc. apply (update_ok n H); [assumption| |intros s Hs; apply A; apply in_concat; eauto].
    rewrite Forall_forall in F. exact (nonempty_batch c B HB (F c Hc)).
Qed.

Lemma horovod_gradient n H op (lp : R -> list Z -> C) d x W B : (0 < W)%nat -> (0 < B)%nat -> operator_represents n H op -> hermitian n H ->
  (forall s, In s (spin_configs n) -> Cderive (fun t => lp t s) x (d s)) ->
  exists D G, derivable_pt_lim (fun t => Re (expectation n H (lp t))) x G /\
    (forall b, In b (all_batches n (W * B)) -> exists sts,
       horovod_next_batches op (lp x) (map (fun w => slice b (w * B) (w * B + B)) (seq 0 W)) = Ok sts /\
       derivable_pt_lim (fun t => / INR W * Rsum (fun st => batch_loss (targets_of_step st) (map (lp t) (batch_of_step st))) sts) x (D b)) /\
    average_over (independent n (lp x)) n (W * B) D = (INR (W * B) - 1) / (INR (W * B) * INR B) * G.
Proof.
  intros HW HB HO HH HD. assert (NB : INR B <> 0) by (apply not_0_INR; lia). assert (NW : INR W <> 0) by (apply not_0_INR; lia).
  exists (fun b => / INR W * (/ INR B / INR B) * covariance_sum n H (lp x) d b). eexists. split; [exact (energy_gradient n H lp d x HH HD)|]. split.
  - intros b Hb. apply all_batches_in in Hb. destruct Hb as [L A].
    set (chunks := map (fun w => slice b (w * B) (w * B + B)) (seq 0 W)).
    assert (EC : concat chunks = b) by (apply concat_slices; lia).
    assert (F : Forall (fun c => length c = B) chunks).
    { apply Forall_forall. intros c Hc. apply in_map_iff in Hc. destruct Hc as (w & <- & Hw). apply in_seq in Hw. unfold slice.
      rewrite firstn_length, skipn_length, L. nia. }
    assert (NE : chunks <> []) by (unfold chunks; destruct W; [lia|discriminate]).
    eexists. split; [apply (horovod_ok n H op (lp x) B chunks HB NE F HO); now rewrite EC|].
    apply (limit_ext (fun t => / INR W * (/ INR B / INR B) *
      Rsum (fun s => 2 * Re (Cconj (local_energy n H (lp x) s - spec_energy n H (lp x) b) * lp t s)%C) b)).
    + intros t. rewrite Rsum_map. cbn [targets_of_step batch_of_step]. rewrite Rmult_assoc. f_equal.
      clearbody chunks. rewrite EC. set (E := spec_energy n H (lp x) b). clearbody E.
      match goal with |- _ * Rsum ?f b = _ => transitivity (/ INR B / INR B * Rsum f (concat chunks)); [now rewrite EC|] end.
      rewrite Rsum_of_chunks, <- Rsum_scal. apply Rsum_ext. intros c Hc.
      rewrite Forall_forall in F. rewrite loss_of_targets, (F c Hc) by (rewrite (F c Hc); lia). reflexivity.
    + exact (sum_derivative (fun e => Cconj (e - spec_energy n H (lp x) b)%C) (local_energy n H (lp x)) n lp d x _ b A HD).
  - rewrite avg_scal, covariance_average by nia. rewrite mult_INR. field. now split.
Qed.

(** * The fluctuation of the local energy is the variance of H *)
Lemma fluctuation_formula n H lp : fluctuation n H lp =
  mean_config n lp (fun s => Cnorm2 (local_energy n H lp s)) - Cnorm2 (expectation n H lp).
Proof.
  destruct (expectation_mean n H lp) as [ER EI]. unfold fluctuation.
  rewrite (mu_ext n lp (fun s => Cnorm2 (local_energy n H lp s - expectation n H lp)%C)
    (fun s => Cnorm2 (local_energy n H lp s) + ((- 2 * Re (expectation n H lp)) * Re (local_energy n H lp s) +
       ((- 2 * Im (expectation n H lp)) * Im (local_energy n H lp s) + Cnorm2 (expectation n H lp))))).
  - rewrite !mu_plus, !mu_scal, mu_const, <- ER, <- EI. unfold Cnorm2. fold (Re (expectation n H lp)) (Im (expectation n H lp)). ring.
  - intros s _. unfold Cnorm2, Cminus, Re, Im. cbn [fst snd]. ring.
Qed.

Lemma born_local2 n H lp s : born (lp s) * Cnorm2 (local_energy n H lp s) = Cnorm2 (apply_matrix n H (fun t => Cexp (lp t)) s).
Proof.
  unfold local_energy, Cdiv, born. rewrite !Cnorm2_mult. rewrite (Rmult_comm (Cnorm2 (apply_matrix _ _ _ _))), <- Rmult_assoc, <- Cnorm2_mult.
  rewrite Cmult_inv_r by apply Cexp_nonzero. unfold Cnorm2 at 1, C1. cbn [fst snd]. ring.
Qed.

Lemma apply_product n G H psi s : apply_matrix n (matrix_product n G H) psi s = apply_matrix n G (apply_matrix n H psi) s.
Proof.
  unfold apply_matrix, matrix_product.
  rewrite (Csum_ext _ (fun t => Csum (fun u => (G s u * H u t * psi t)%C) (spin_configs n))) by (intros; now rewrite Csum_scal_r).
  rewrite Csum_exchange. apply Csum_ext. intros u _. rewrite <- Csum_scal. apply Csum_ext. intros; ring.
Qed.

Lemma braket_square n H psi : hermitian n H -> braket n (matrix_product n H H) psi = RtoC (Rsum (fun s => Cnorm2 (apply_matrix n H psi s)) (spin_configs n)).
Proof.
  intros HH. unfold braket.
  rewrite (Csum_ext _ (fun s => Csum (fun t => (Cconj (psi s) * (H s t * apply_matrix n H psi t))%C) (spin_configs n))).
  2: { intros s _. rewrite apply_product. unfold apply_matrix at 1. now rewrite Csum_scal. }
  rewrite Csum_exchange, <- Csum_RtoC. apply Csum_ext. intros t Ht. rewrite <- Cmult_conj.
  rewrite (Csum_ext _ (fun s => (apply_matrix n H psi t * Cconj (H t s * psi s))%C)).
  - rewrite Csum_scal. f_equal. unfold apply_matrix. now rewrite Csum_conj.
  - intros s Hs. rewrite (HH s t Hs Ht), Cconj_mult. ring.
Qed.

Lemma fluctuation_hermitian n H lp : hermitian n H ->
  RtoC (fluctuation n H lp) = (expectation n (matrix_product n H H) lp - expectation n H lp * expectation n H lp)%C.
Proof.
  intros HH. rewrite fluctuation_formula. unfold expectation at 2. rewrite braket_square by assumption.
  assert (E : mean_config n lp (fun s => Cnorm2 (local_energy n H lp s)) =
    / norm2 n lp * Rsum (fun s => Cnorm2 (apply_matrix n H (fun t => Cexp (lp t)) s)) (spin_configs n)).
  { unfold mean_config. rewrite <- Rsum_scal. apply Rsum_ext. intros s _. rewrite <- born_local2. unfold probability, Rdiv. ring. }
  rewrite E. destruct (expectation_real n H lp HH) as [I _]. unfold Im in I. apply C_eq; unfold RtoC, Cminus, Cmult, Cscale, Cnorm2, Re, Im; cbn [fst snd];
    rewrite I; ring.
Qed.
