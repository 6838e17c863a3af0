(** Lemmas for the refutations of C65: Hamiltonians without field are diagonal. *)
From Coq Require Import List ZArith Arith Bool Reals Lia Lra Permutation.
From Verif Require Import Base OrderingSpec Cplx LatticeSpec AutoregressiveSpec ObservableModel ObservableSpec ObservableProofs ExactModel ExactSpec ExactProofs
  ExactOperatorProofs MonteCarloModel MonteCarloSpec MonteCarloProofs SymmetryModel SymmetrySpec SymmetryProofs SymmetryEnsembleProofs
  SymmetricEvaluationModel SymmetricEvaluationSpec SymmetricEvaluationProofs SymmetricBondsProofs SymmetricLibraryProofs.
Import ListNotations.
Local Open Scope R_scope.

Definition bond_energy (bonds : list (nat * nat)) (s : list Z) : R := - Rsum (fun b => IZR (spin s (fst b) * spin s (snd b))) bonds.

Lemma hamming_zero s : forall t, length s = length t -> hamming s t = 0%nat -> s = t.
Proof.
  induction s as [|a s IH]; intros [|b t] L E; try discriminate; [reflexivity|]. cbn [hamming] in E. injection L as L.
  destruct (Z.eqb_spec a b) as [->|N]; [|lia]. f_equal. apply IH; [exact L|lia].
Qed.
Lemma hamming_self s : hamming s s = 0%nat.
Proof. induction s as [|a s IH]; [reflexivity|]. cbn [hamming]. now rewrite Z.eqb_refl, IH. Qed.

Lemma no_field_element bonds s t : length s = length t -> ising_element 1 0 bonds s t = if list_eq_dec Z.eq_dec s t then bond_energy bonds s else 0.
Proof.
  intros L. unfold ising_element, bond_energy. destruct (list_eq_dec Z.eq_dec s t) as [<-|N].
  - rewrite hamming_self. ring.
  - destruct (hamming s t) as [|[|k]] eqn:E; [exfalso; apply N; now apply hamming_zero|ring|reflexivity].
Qed.

Lemma Csum_select {A} (dec : forall a b : A, {a = b} + {a <> b}) (f : A -> C) l x : NoDup l -> In x l ->
  Csum (fun a => if dec x a then f a else C0) l = f x.
Proof.
  intros N I. apply C_eq; rewrite ?Re_Csum, ?Im_Csum.
  - rewrite <- (Rsum_select dec (fun a => Re (f a)) l x N I). apply Rsum_ext. intros a _. destruct (dec x a); reflexivity.
  - rewrite <- (Rsum_select dec (fun a => Im (f a)) l x N I). apply Rsum_ext. intros a _. destruct (dec x a); reflexivity.
Qed.

Lemma diagonal_local n pbc sh phi s : In s (spin_configs n) ->
  local_energy n (ising_matrix 1 0 pbc sh) phi s = RtoC (bond_energy (shape_bonds sh pbc) s).
Proof.
  intros Hs. unfold local_energy, apply_matrix.
  rewrite (Csum_ext _ (fun t => if list_eq_dec Z.eq_dec s t then (RtoC (bond_energy (shape_bonds sh pbc) t) * Cexp (phi t))%C else C0)).
  - rewrite (Csum_select (list_eq_dec Z.eq_dec) (fun t => (RtoC (bond_energy (shape_bonds sh pbc) t) * Cexp (phi t))%C));
      [|apply NoDup_spin_configs|exact Hs].
    unfold Cdiv. set (e := RtoC (bond_energy (shape_bonds sh pbc) s)).
    transitivity (e * (Cexp (phi s) * Cinv (Cexp (phi s))))%C; [ring|]. rewrite Cmult_inv_r by apply Cexp_nonzero. ring.
  - intros t Ht. unfold ising_matrix. rewrite no_field_element by (apply spin_lengths in Hs; apply spin_lengths in Ht; congruence).
    destruct (list_eq_dec Z.eq_dec s t) as [<-|_]; [reflexivity|]. change (RtoC 0) with C0. ring.
Qed.

Lemma diagonal_average n B pbc sh psi phi : (0 < B)%nat ->
  Re (Caverage_over (independent n psi) n B (spec_energy n (ising_matrix 1 0 pbc sh) phi)) = mean_config n psi (bond_energy (shape_bonds sh pbc)).
Proof.
  intros HB. assert (INR B <> 0) by (apply not_0_INR; lia). unfold Caverage_over. rewrite Re_Csum.
  rewrite (Rsum_ext _ (fun b => / INR B * (independent n psi b * Rsum (bond_energy (shape_bonds sh pbc)) b))).
  - rewrite Rsum_scal. change (/ INR B * average_over (independent n psi) n B (Rsum (bond_energy (shape_bonds sh pbc))) = mean_config n psi (bond_energy (shape_bonds sh pbc))).
    rewrite avg_sum. field. assumption.
  - intros b Hb. apply all_batches_in in Hb. destruct Hb as [L A]. rewrite Re_scale. unfold spec_energy. rewrite Re_scale, Re_Csum, L.
    rewrite (Rsum_ext _ (bond_energy (shape_bonds sh pbc))); [ring|]. intros s Hs. now rewrite diagonal_local by auto.
Qed.

Lemma diagonal_expectation n pbc sh phi : Re (expectation n (ising_matrix 1 0 pbc sh) phi) = mean_config n phi (bond_energy (shape_bonds sh pbc)).
Proof.
  destruct (expectation_mean n (ising_matrix 1 0 pbc sh) phi) as [-> _]. apply mu_ext. intros s Hs. now rewrite diagonal_local.
Qed.

(** Different means of the bond energy give a biased estimate. *)
Lemma biased n pbc sh psi phi : n = sites_of sh -> good_shape sh pbc ->
  mean_config n psi (bond_energy (shape_bonds sh pbc)) <> mean_config n phi (bond_energy (shape_bonds sh pbc)) ->
  exists energy, (forall b, In b (all_batches n 1) -> exists st, next_batch (ising_operator 1 0 pbc sh) phi b = Ok st /\ energy_of_step st = energy b) /\
    Caverage_over (independent n psi) n 1 energy <> expectation n (ising_matrix 1 0 pbc sh) phi.
Proof.
  intros -> G N. exists (spec_energy (sites_of sh) (ising_matrix 1 0 pbc sh) phi). split.
  - intros b Hb. apply all_batches_in in Hb. destruct Hb as [Lb A]. eexists.
    split; [apply (next_batch_ok (sites_of sh) (ising_matrix 1 0 pbc sh)); [now apply ising_operator_represents|eauto using nonempty_batch|exact A]|reflexivity].
  - intros E. apply N. rewrite <- (diagonal_average _ 1 pbc sh psi phi), <- diagonal_expectation by lia. now rewrite E.
Qed.

Lemma mean_of_weights n phi (f w : list Z -> R) : (forall s, In s (spin_configs n) -> weight (phi s) = w s) ->
  mean_config n phi f = Rsum (fun s => w s * f s) (spin_configs n) / Rsum w (spin_configs n).
Proof.
  intros E. unfold mean_config, probability, norm2, Rdiv. rewrite <- Rsum_scal_r.
  rewrite (Rsum_ext (fun s => born (phi s)) w (spin_configs n)) by (intros s Hs; rewrite <- weight_born; auto).
  apply Rsum_ext. intros s Hs. rewrite <- weight_born, E by exact Hs. ring.
Qed.

Lemma weight_0 : weight C0 = 1.
Proof. unfold weight, C0, Re. cbn [fst]. rewrite Rmult_0_r. apply exp_0. Qed.
Lemma weight_1 : weight (RtoC 1) = exp 2.
Proof. unfold weight, RtoC, Re. cbn [fst]. f_equal. ring. Qed.
Lemma exp2_gt : 1 < exp 2.
Proof. rewrite <- exp_0. apply exp_increasing. lra. Qed.
Lemma weight_phase (x : R) : weight (0, x) = 1.
Proof. unfold weight, Re. cbn [fst]. rewrite Rmult_0_r. apply exp_0. Qed.
