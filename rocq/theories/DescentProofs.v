(** Lemmas about stochastic gradient descent on the energy. *)
From Coq Require Import List ZArith Reals Lra Lia Bool Arith.
From Verif Require Import Base Cplx Vec AutoregressiveSpec ObservableModel ObservableSpec ObservableProofs ExactModel ExactSpec ExactProofs ExactGradientProofs
  TrainingModel MonteCarloModel MonteCarloSpec MonteCarloProofs PipelineSpec PipelineProofs ExactTrainingSpec ExactTrainingProofs DescentSpec.
Import ListNotations.
Local Open Scope R_scope.

Lemma avg_le n lp B f g : (forall b, In b (all_batches n B) -> f b <= g b) -> average_over (independent n lp) n B f <= average_over (independent n lp) n B g.
Proof.
  intros E. apply Cplx.Rsum_le. intros b Hb. apply Rmult_le_compat_l; [|now apply E].
  unfold independent. induction b as [|s b IH]; [unfold Rprod; simpl; lra|]. clear. induction (s :: b) as [|t l IH]; [unfold Rprod; simpl; lra|].
  rewrite Rprod_cons. apply Rmult_le_pos; [apply ExactSamplerProofs.probability_nonneg|exact IH].
Qed.
Lemma avg_rsum n lp B (F : list (list Z) -> nat -> R) l :
  average_over (independent n lp) n B (fun b => Rsum (F b) l) = Rsum (fun i => average_over (independent n lp) n B (fun b => F b i)) l.
Proof.
  induction l as [|i l IH].
  - rewrite Rsum_nil. rewrite (avg_ext n lp B _ (fun _ => 0)) by reflexivity. apply avg_const.
  - rewrite Rsum_cons, <- IH, <- avg_plus. reflexivity.
Qed.

Section Descent.
  Context (n d : nat) (H : list Z -> list Z -> C) (lp : list R -> list Z -> C) (sg : list R -> list Z * C -> list R).
  Local Notation grad_of := (batch_gradient n d H lp sg).
  Local Notation avg w := (average_over (independent n (lp w)) n).

  Lemma batch_gradient_length w b : (forall x, length (sg w x) = d) -> length (grad_of w b) = d.
  Proof. intros L. unfold batch_gradient. cbv zeta. rewrite vscale_length, vsum_length; [reflexivity|]. intros v Hv. apply in_map_iff in Hv. destruct Hv as (x & <- & _). apply L. Qed.

  Lemma batch_gradient_mean w b : grad_of w b = mean_gradient d sg w (map (fun s => (s, Cscale (/ INR (length b)) (Cconj (local_energy n H (lp w) s -
         Cscale (/ INR (length b)) (Csum (local_energy n H (lp w)) b))%C))) b).
  Proof. unfold batch_gradient, mean_gradient. rewrite map_length, map_map. reflexivity. Qed.

  Lemma average_gradient op w G B : (0 < B)%nat -> operator_represents n H op -> hermitian n H -> loss_gradient n d lp sg w -> energy_gradient_is n d H lp w G ->
    forall i, (i < d)%nat -> avg w B (fun b => nth i (grad_of w b) 0) = (INR B - 1) / INR B ^ 2 * nth i G 0.
  Proof.
    intros HB HO HH HG (LG & DG) i Hi. destruct (mean_gradient_average n d H op lp sg w i B HB HO HH HG Hi) as (g & Dg & E).
    rewrite (uniqueness_limite _ _ _ _ (DG i Hi) Dg). rewrite <- E. apply avg_ext. intros b _. now rewrite batch_gradient_mean.
  Qed.

  Lemma average_inner op w G B : (0 < B)%nat -> operator_represents n H op -> hermitian n H -> loss_gradient n d lp sg w -> energy_gradient_is n d H lp w G ->
    avg w B (fun b => inner_product d G (grad_of w b)) = (INR B - 1) / INR B ^ 2 * square_norm d G.
  Proof.
    intros HB HO HH HG DG. unfold inner_product at 1. rewrite avg_rsum. unfold square_norm, inner_product. rewrite <- Rsum_scal. apply Rsum_ext. intros i Hi. apply in_seq in Hi.
    rewrite avg_scal, (average_gradient op w G B HB HO HH HG DG i) by lia. ring.
  Qed.

  Lemma average_descent op w grad L a B : (0 < B)%nat -> operator_represents n H op -> hermitian n H -> length w = d -> loss_gradient n d lp sg w ->
    energy_gradient_is n d H lp w (grad w) -> smooth n d H lp grad L ->
    avg w B (fun b => energy_at n H lp (descend n d H lp sg a w b)) <=
      energy_at n H lp w - a * ((INR B - 1) / INR B ^ 2) * square_norm d (grad w) + L / 2 * (a * a) * avg w B (fun b => square_norm d (grad_of w b)).
  Proof.
    intros HB HO HH Lw HG DG HS.
    eapply Rle_trans.
    { apply avg_le with (g := fun b => energy_at n H lp w + ((- a) * inner_product d (grad w) (grad_of w b) + L / 2 * (a * a) * square_norm d (grad_of w b))).
      intros b Hb. unfold descend. eapply Rle_trans; [apply HS; [exact Lw|rewrite vscale_length; apply batch_gradient_length; apply HG]|].
      rewrite inner_sym, inner_scale, (inner_sym d _ (grad w)), square_norm_scale. right. ring. }
    rewrite !avg_plus, !avg_scal, avg_const, (average_inner op w (grad w) B) by assumption. right. ring.
  Qed.

  (** * The noise *)
  Lemma mean_square (f : list Z -> R) b : (0 < length b)%nat -> (/ INR (length b) * Rsum f b) * (/ INR (length b) * Rsum f b) <= / INR (length b) * Rsum (fun s => f s * f s) b.
  Proof.
    intros L. assert (P : 0 < INR (length b)) by (apply lt_0_INR; exact L). set (m := / INR (length b) * Rsum f b).
    assert (Q : 0 <= Rsum (fun s => (f s - m) * (f s - m)) b) by (apply Cplx.Rsum_nonneg; intros s _; pose proof (Rle_0_sqr (f s - m)) as X; exact X).
    rewrite (Rsum_ext _ (fun s => f s * f s - (2 * m * f s - m * m))) in Q by (intros; ring).
    rewrite !Rsum_minus, Rsum_scal, Rsum_const in Q.
    assert (E : Rsum f b = INR (length b) * m) by (unfold m; field; lra). rewrite E in Q.
    apply (Rmult_le_reg_l (INR (length b))); [exact P|]. rewrite <- (Rmult_assoc _ (/ _)), Rinv_r, Rmult_1_l by lra. lra.
  Qed.

  Lemma gradient_square w b D : (forall x, length (sg w x) = d) -> (forall s t, In s (spin_configs n) -> square_norm d (sg w (s, t)) <= D * Cnorm2 t) ->
    (0 < length b)%nat -> (forall s, In s b -> In s (spin_configs n)) ->
    square_norm d (grad_of w b) <= D / INR (length b) ^ 3 * Rsum (fun s => Cnorm2 (local_energy n H (lp w) s - spec_energy n H (lp w) b)%C) b.
  Proof.
    intros HL HD Lb A. assert (P : 0 < INR (length b)) by (apply lt_0_INR; exact Lb).
    set (t := fun s => Cscale (/ INR (length b)) (Cconj (local_energy n H (lp w) s - spec_energy n H (lp w) b)%C)).
    assert (E : forall i, nth i (grad_of w b) 0 = / INR (length b) * Rsum (fun s => nth i (sg w (s, t s)) 0) b).
    { intros i. unfold batch_gradient. cbv zeta. rewrite nth_vscale, nth_vsum; [now rewrite Rsum_map|]. intros v Hv. apply in_map_iff in Hv. destruct Hv as (x & <- & _). apply HL. }
    eapply Rle_trans with (Rsum (fun i => / INR (length b) * Rsum (fun s => nth i (sg w (s, t s)) 0 * nth i (sg w (s, t s)) 0) b) (seq 0 d)).
    { apply Cplx.Rsum_le. intros i _. rewrite E. now apply mean_square. }
    rewrite Rsum_scal, Rsum_exchange. eapply Rle_trans with (/ INR (length b) * Rsum (fun s => D * Cnorm2 (t s)) b).
    { apply Rmult_le_compat_l; [left; now apply Rinv_0_lt_compat|]. apply Cplx.Rsum_le. intros s Hs. exact (HD s (t s) (A s Hs)). }
    right. rewrite Rsum_scal. rewrite (Rsum_ext _ (fun s => / INR (length b) ^ 2 * Cnorm2 (local_energy n H (lp w) s - spec_energy n H (lp w) b)%C)).
    { rewrite Rsum_scal. field. lra. }
    intros s _. unfold t. generalize (local_energy n H (lp w) s - spec_energy n H (lp w) b)%C. intros z. unfold Cnorm2, Cscale, Cconj. cbn [fst snd]. field. lra.
  Qed.

  Lemma average_spread w B : (0 < B)%nat ->
    avg w B (fun b => Rsum (fun s => Cnorm2 (local_energy n H (lp w) s - spec_energy n H (lp w) b)%C) b) = (INR B - 1) * fluctuation n H (lp w).
  Proof.
    intros HB. assert (NZ : INR B <> 0) by (apply not_0_INR; lia). set (f := fun s => Re (local_energy n H (lp w) s)). set (g := fun s => Im (local_energy n H (lp w) s)).
    rewrite (avg_ext n (lp w) B _ (fun b => Rsum (fun s => (f s - / INR B * Rsum f b) * f s) b + Rsum (fun s => (g s - / INR B * Rsum g b) * g s) b)).
    - rewrite avg_plus, !avg_covariance by assumption. rewrite fluctuation_formula. destruct (expectation_mean n H (lp w)) as [ER EI].
      unfold Cnorm2 at 2. fold (Re (expectation n H (lp w))) (Im (expectation n H (lp w))). rewrite ER, EI. fold f g.
      rewrite (mu_ext n (lp w) (fun s => Cnorm2 (local_energy n H (lp w) s)) (fun s => f s * f s + g s * g s)) by reflexivity. rewrite mu_plus. ring.
    - intros b Hb. pose proof (Re_spec_energy n H (lp w) B b Hb) as ER. pose proof (Im_spec_energy n H (lp w) B b Hb) as EI. fold f in ER. fold g in EI.
      apply all_batches_in in Hb. destruct Hb as [L _].
      rewrite (Rsum_ext _ (fun s => ((f s - / INR B * Rsum f b) * f s + (g s - / INR B * Rsum g b) * g s) -
        (/ INR B * Rsum f b * (f s - / INR B * Rsum f b) + / INR B * Rsum g b * (g s - / INR B * Rsum g b)))).
      + rewrite Rsum_minus, !Rsum_plus, !Rsum_scal, !Rsum_minus, !Rsum_const, L. field. assumption.
      + intros s _. unfold Cnorm2. fold (Re (local_energy n H (lp w) s - spec_energy n H (lp w) b)%C) (Im (local_energy n H (lp w) s - spec_energy n H (lp w) b)%C).
        rewrite Re_minus, Im_minus, ER, EI. unfold f, g. ring.
  Qed.

  Lemma average_noise w B D : (0 < B)%nat -> (forall x, length (sg w x) = d) -> (forall s t, In s (spin_configs n) -> square_norm d (sg w (s, t)) <= D * Cnorm2 t) ->
    avg w B (fun b => square_norm d (grad_of w b)) <= D * (INR B - 1) / INR B ^ 3 * fluctuation n H (lp w).
  Proof.
    intros HB HL HD. eapply Rle_trans.
    { apply avg_le with (g := fun b => D / INR B ^ 3 * Rsum (fun s => Cnorm2 (local_energy n H (lp w) s - spec_energy n H (lp w) b)%C) b).
      intros b Hb. apply all_batches_in in Hb. destruct Hb as [L A]. rewrite <- L. apply gradient_square; [assumption|assumption|lia|assumption]. }
    rewrite avg_scal, average_spread by assumption. right. unfold Rdiv. ring.
  Qed.
End Descent.

(** * The fluctuation is bounded *)
Lemma expectation_opp n K lp : Re (expectation n (fun s t => (- K s t)%C) lp) = - Re (expectation n K lp).
Proof.
  unfold expectation. rewrite !Re_scale. unfold braket.
  replace (Re (Csum (fun s => (Cconj (Cexp (lp s)) * apply_matrix n (fun s t => (- K s t)%C) (fun t => Cexp (lp t)) s)%C) (spin_configs n)))
    with (- Re (Csum (fun s => (Cconj (Cexp (lp s)) * apply_matrix n K (fun t => Cexp (lp t)) s)%C) (spin_configs n))); [ring|].
  rewrite !Re_Csum. replace (- Rsum (fun a => Re (Cconj (Cexp (lp a)) * apply_matrix n K (fun t => Cexp (lp t)) a)%C) (spin_configs n))
    with (-1 * Rsum (fun a => Re (Cconj (Cexp (lp a)) * apply_matrix n K (fun t => Cexp (lp t)) a)%C) (spin_configs n)) by ring.
  rewrite <- Rsum_scal. apply Rsum_ext. intros s _.
  assert (E : apply_matrix n (fun s t => (- K s t)%C) (fun t => Cexp (lp t)) s = (RtoC (-1) * apply_matrix n K (fun t => Cexp (lp t)) s)%C).
  { unfold apply_matrix. rewrite <- Csum_scal. apply Csum_ext. intros t _. unfold Copp, Cmult, RtoC. cbn [fst snd]. f_equal; ring. }
  rewrite E. unfold Cmult, RtoC, Re. cbn [fst snd]. ring.
Qed.
Lemma fluctuation_bounded n H : hermitian n H -> exists V, forall lp, fluctuation n H lp <= V.
Proof.
  intros HH. destruct (bounded_below n (fun s t => (- matrix_product n H H s t)%C)) as [m Hm]. exists (- m). intros lp. specialize (Hm lp). rewrite expectation_opp in Hm.
  pose proof (fluctuation_hermitian n H lp HH) as E. apply (f_equal Re) in E. rewrite Re_minus in E. unfold RtoC at 1, Re at 1 in E. cbn [fst] in E.
  destruct (expectation_real n H lp HH) as [I _].
  assert (Q : 0 <= Re (expectation n H lp * expectation n H lp)%C).
  { unfold Cmult, Re, Im in *. cbn [fst snd]. rewrite I. pose proof (Rle_0_sqr (fst (expectation n H lp))) as X. unfold Rsqr in X. lra. }
  lra.
Qed.
