(** Lemmas: batches of the unsymmetrised machine give the statistics of the symmetrised one. *)
From Coq Require Import List ZArith Arith Bool Reals Lia Lra Permutation.
From Verif Require Import Base Cplx LatticeSpec AutoregressiveSpec ObservableModel ObservableSpec ObservableProofs ExactModel ExactSpec MonteCarloModel MonteCarloSpec
  MonteCarloProofs SymmetryModel SymmetrySpec SymmetryProofs SymmetryEnsembleProofs SymmetricEvaluationModel SymmetricEvaluationSpec.
Import ListNotations.
Local Open Scope R_scope.

Lemma weight_born z : weight z = born z.
Proof. unfold weight, born. now rewrite Cnorm2_exp. Qed.

Lemma permutes_in n T s : permutes_configurations n T -> In s (spin_configs n) -> In (T s) (spin_configs n).
Proof. intros P Hs. apply (Permutation_in _ (Permutation_sym (permutes_perm n T P))). now apply in_map. Qed.

Section Symmetrised.
  Context (n : nat) (Ts : list (list Z -> list Z)) (psi phi : list Z -> C) (S : symmetrised n Ts psi phi).

  Lemma Ts_permute T : In T Ts -> permutes_configurations n T.
  Proof. destruct S as (_ & F & _). rewrite Forall_forall in F. auto. Qed.
  Lemma Ts_in T s : In T Ts -> In s (spin_configs n) -> In (T s) (spin_configs n).
  Proof. intros HT. apply permutes_in. now apply Ts_permute. Qed.
  Lemma Ts_count : 0 < INR (length Ts).
  Proof. destruct S as (NE & _). apply lt_0_INR. destruct Ts; [contradiction|simpl; lia]. Qed.

  Lemma weighted_sum f : (forall s T, In s (spin_configs n) -> In T Ts -> f (T s) = f s) ->
    Rsum (fun s => born (phi s) * f s) (spin_configs n) = Rsum (fun s => born (psi s) * f s) (spin_configs n).
  Proof.
    intros I. assert (L := Ts_count). destruct S as (_ & _ & W & _).
    apply (Rmult_eq_reg_r (INR (length Ts))); [|lra]. rewrite <- !Rsum_scal_r.
    rewrite (Rsum_ext _ (fun s => Rsum (fun T => born (psi (T s)) * f (T s)) Ts)).
    - rewrite Rsum_exchange. rewrite (Rsum_ext _ (fun _ => Rsum (fun s => born (psi s) * f s) (spin_configs n))).
      + rewrite Rsum_const. rewrite Rsum_scal_r. ring.
      + intros T HT. rewrite <- (Rsum_map T (fun s => born (psi s) * f s)). symmetry. apply Rsum_perm, permutes_perm. now apply Ts_permute.
    - intros s Hs. rewrite <- weight_born. transitivity (f s * (weight (phi s) * INR (length Ts))); [ring|]. rewrite W by exact Hs.
      rewrite <- Rsum_scal. apply Rsum_ext. intros T HT. rewrite weight_born, I by assumption. ring.
  Qed.

  Lemma same_norm : norm2 n phi = norm2 n psi.
  Proof.
    unfold norm2. rewrite (Rsum_ext (fun s => born (phi s)) (fun s => born (phi s) * 1)) by (intros; ring).
    rewrite weighted_sum by reflexivity. apply Rsum_ext. intros; ring.
  Qed.

  Lemma same_mean f : (forall s T, In s (spin_configs n) -> In T Ts -> f (T s) = f s) -> mean_config n psi f = mean_config n phi f.
  Proof.
    intros I. unfold mean_config, probability, Rdiv. rewrite same_norm.
    rewrite (Rsum_ext (fun s => born (psi s) * / norm2 n psi * f s) (fun s => / norm2 n psi * (born (psi s) * f s))) by (intros; ring).
    rewrite (Rsum_ext (fun s => born (phi s) * / norm2 n psi * f s) (fun s => / norm2 n psi * (born (phi s) * f s))) by (intros; ring).
    now rewrite !Rsum_scal, weighted_sum.
  Qed.

  Lemma same_average F : row_invariant n Ts F -> forall B, average_over (independent n psi) n B F = average_over (independent n phi) n B F.
  Proof.
    intros I B. revert F I. induction B as [|B IH]; intros F I; [reflexivity|].
    rewrite !avg_S.
    rewrite (mu_ext n psi (fun s => average_over (independent n psi) n B (fun b => F (s :: b))) (fun s => average_over (independent n phi) n B (fun b => F (s :: b)))).
    - apply same_mean. intros s T Hs HT. apply avg_ext. intros b Hb. apply all_batches_in in Hb. destruct Hb as [_ A].
      apply (I [] s b T); [|exact HT]. apply Forall_cons; [exact Hs|]. apply Forall_forall. exact A.
    - intros s Hs. apply IH. intros b1 r b2 T A HT. apply (I (s :: b1) r b2 T); [|exact HT]. apply Forall_cons; assumption.
  Qed.

  Context (H : list Z -> list Z -> C) (HS : Forall (fun T => symmetry n T H) Ts).

  Lemma local_invariant s T : In s (spin_configs n) -> In T Ts -> local_energy n H phi (T s) = local_energy n H phi s.
  Proof.
    intros Hs HT. assert (P := Ts_permute T HT). destruct S as (_ & _ & _ & I). rewrite Forall_forall in HS. unfold local_energy, apply_matrix.
    rewrite I by assumption. f_equal.
    rewrite (Csum_perm _ _ _ (permutes_perm n T P)), Csum_map. apply Csum_ext. intros t Ht.
    rewrite (HS T HT s t Hs Ht), I by assumption. reflexivity.
  Qed.

  Lemma symmetrised_expectation :
    Re (expectation n H phi) = mean_config n psi (fun s => Re (local_energy n H phi s)) /\
    Im (expectation n H phi) = mean_config n psi (fun s => Im (local_energy n H phi s)).
  Proof.
    destruct (expectation_mean n H phi) as [-> ->].
    split; symmetry; apply same_mean; intros s T Hs HT; now rewrite local_invariant.
  Qed.

  Lemma symmetrised_unbiased law B : (0 < B)%nat -> right_marginals n B psi law ->
    Caverage_over law n B (spec_energy n H phi) = expectation n H phi.
  Proof.
    intros HB M. assert (INR B <> 0) by (apply not_0_INR; lia). destruct symmetrised_expectation as [ER EI].
    assert (G : forall f, Rsum (fun b => law b * (/ INR (length b) * Rsum f b)) (all_batches n B) = mean_config n psi f).
    { intros f. rewrite (Rsum_ext _ (fun b => / INR B * (law b * Rsum f b))).
      - rewrite Rsum_scal. change (/ INR B * average_over law n B (Rsum f) = mean_config n psi f). rewrite (marginals_sum n B psi law f M).
        field. assumption.
      - intros b Hb. apply all_batches_in in Hb. destruct Hb as [-> _]. ring. }
    apply C_eq; unfold Caverage_over, spec_energy.
    - rewrite ER, Re_Csum, <- G. apply Rsum_ext. intros b _. now rewrite !Re_scale, Re_Csum.
    - rewrite EI, Im_Csum, <- G. apply Rsum_ext. intros b _. now rewrite !Im_scale, Im_Csum.
  Qed.

  Lemma Rsum_row (f : list Z -> R) b1 s b2 T : Forall (fun r => In r (spin_configs n)) (b1 ++ s :: b2) -> f (T s) = f s ->
    Rsum f (b1 ++ T s :: b2) = Rsum f (b1 ++ s :: b2).
  Proof. intros _ E. rewrite !Rsum_app, !Rsum_cons, E. reflexivity. Qed.

  Lemma row_config b1 (s : list Z) b2 : Forall (fun r => In r (spin_configs n)) (b1 ++ s :: b2) -> In s (spin_configs n).
  Proof. intros A. rewrite Forall_forall in A. apply A, in_or_app. right. now left. Qed.

  Lemma spec_energy_row b1 s b2 T : Forall (fun r => In r (spin_configs n)) (b1 ++ s :: b2) -> In T Ts ->
    spec_energy n H phi (b1 ++ T s :: b2) = spec_energy n H phi (b1 ++ s :: b2).
  Proof.
    intros A HT. unfold spec_energy. rewrite !app_length. cbn [length]. f_equal. rewrite !Csum_app, !Csum_cons.
    now rewrite (local_invariant s T (row_config b1 s b2 A) HT).
  Qed.

  Lemma symmetrised_error B : (0 < B)%nat ->
    average_over (independent n psi) n B (fun b => Cnorm2 (spec_energy n H phi b - expectation n H phi)%C) = / INR B * fluctuation n H phi.
  Proof.
    intros HB. rewrite same_average; [now apply energy_error|]. intros b1 s b2 T A HT. now rewrite (spec_energy_row b1 s b2 T A HT).
  Qed.

  Lemma symmetrised_variance B : (0 < B)%nat ->
    average_over (independent n psi) n B (fun b => Rvar (map (fun s => Re (local_energy n H phi s)) b)) =
    (INR B - 1) / INR B * real_fluctuation n H phi.
  Proof.
    intros HB. rewrite same_average; [now apply variance_average|]. intros b1 s b2 T A HT. f_equal. rewrite !map_app. cbn [map].
    now rewrite (local_invariant s T (row_config b1 s b2 A) HT).
  Qed.
End Symmetrised.
