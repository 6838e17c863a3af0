(** C93: the variance averaged over several workers. *)
From Coq Require Import List ZArith Reals Bool Arith Lra Lia.
From Verif Require Import Base Cplx LatticeSpec AutoregressiveSpec ObservableModel ObservableSpec ObservableProofs ExactModel ExactSpec ExactOperatorProofs
  MonteCarloModel MonteCarloProofs EigenStoppingSpec EigenStoppingProofs.
Import ListNotations.
Local Open Scope R_scope.

(** Means and variances of a quantity over a list. *)
Definition mean_over {A} (f : A -> R) (l : list A) : R := Rsum f l / INR (length l).
Definition variance_over {A} (f : A -> R) (l : list A) : R := mean_over (fun a => (f a - mean_over f l) * (f a - mean_over f l)) l.

Lemma variance_over_formula {A} (f : A -> R) l : l <> [] -> variance_over f l = mean_over (fun a => f a * f a) l - mean_over f l * mean_over f l.
Proof.
  intros N. assert (L : INR (length l) <> 0) by (apply not_0_INR; destruct l; [congruence|discriminate]).
  unfold variance_over. set (m := mean_over f l). unfold mean_over.
  rewrite (Rsum_ext _ (fun a => f a * f a - (2 * m * f a - m * m))) by (intros; ring).
  rewrite !Rsum_minus, Rsum_scal, Rsum_const. replace (Rsum f l) with (INR (length l) * m) by (unfold m, mean_over; field; exact L). field. exact L.
Qed.
Lemma mean_over_concat {A} (f : A -> R) B (l : list (list A)) : (0 < B)%nat -> l <> [] -> Forall (fun c => length c = B) l ->
  mean_over f (concat l) = mean_over (fun c => mean_over f c) l.
Proof.
  intros HB NE F. assert (NB : INR B <> 0) by (apply not_0_INR; lia).
  assert (NW : INR (length l) <> 0) by (apply not_0_INR; destruct l; [congruence|discriminate]).
  assert (L : INR (length (concat l)) = INR (length l) * INR B).
  { clear NE NW. induction F as [|c l Hc F IH]; [simpl; ring|]. cbn [concat length]. rewrite app_length, plus_INR, IH, Hc, S_INR. ring. }
  unfold mean_over. rewrite L, Rsum_of_chunks, (Rsum_ext (fun c => Rsum f c / INR (length c)) (fun c => / INR B * Rsum f c)).
  - rewrite Rsum_scal. change (fun c => Rsum f c) with (Rsum f). field. now split.
  - intros c Hc. rewrite Forall_forall in F. rewrite (F c Hc). unfold Rdiv. ring.
Qed.
Lemma mean_over_minus {A} (f g : A -> R) l : mean_over (fun a => f a - g a) l = mean_over f l - mean_over g l.
Proof. unfold mean_over, Rdiv. rewrite Rsum_minus. ring. Qed.
Lemma mean_over_ext {A} (f g : A -> R) l : (forall a, In a l -> f a = g a) -> mean_over f l = mean_over g l.
Proof. intros H. unfold mean_over. f_equal. now apply Rsum_ext. Qed.
Lemma variance_split {A} (f : A -> R) B (l : list (list A)) : (0 < B)%nat -> l <> [] -> Forall (fun c => length c = B) l ->
  variance_over f (concat l) = mean_over (fun c => variance_over f c) l + variance_over (fun c => mean_over f c) l.
Proof.
  intros HB NE F. assert (NC : concat l <> []).
  { destruct F as [|c l Hc F]; [congruence|]. destruct c; [cbn in Hc; lia|discriminate]. }
  rewrite (variance_over_formula f (concat l) NC), (variance_over_formula _ l NE), !(mean_over_concat _ B l HB NE F).
  rewrite (mean_over_ext (fun c => variance_over f c) (fun c => mean_over (fun a => f a * f a) c - mean_over f c * mean_over f c)).
  - rewrite mean_over_minus. change (fun c => mean_over (fun a => f a * f a) c) with (mean_over (fun a => f a * f a)). ring.
  - intros c Hc. apply variance_over_formula. rewrite Forall_forall in F. specialize (F c Hc). destruct c; [cbn in F; lia|discriminate].
Qed.
Lemma variance_over_nonneg {A} (f : A -> R) l : l <> [] -> 0 <= variance_over f l.
Proof.
  intros N. unfold variance_over, mean_over at 1, Rdiv. apply Rmult_le_pos; [apply Rsum_nonneg; intros; apply Rle_0_sqr|].
  left. apply Rinv_0_lt_compat, lt_0_INR. destruct l; [congruence|cbn; lia].
Qed.
Lemma Rvar_over {A} (f : A -> R) l : Rvar (map f l) = variance_over f l.
Proof.
  unfold Rvar, variance_over, mean_over, Rmean. rewrite !map_map, !map_length, !Rsum_map. cbv beta. unfold Rdiv. rewrite Rmult_comm. f_equal.
  apply Rsum_ext. intros s _. rewrite (Rmult_comm (Rsum _ l)). reflexivity.
Qed.
Lemma mean_over_map {A B} (g : A -> B) (f : B -> R) l : mean_over f (map g l) = mean_over (fun a => f (g a)) l.
Proof. unfold mean_over. now rewrite Rsum_map, map_length. Qed.

(** Averaging the variances of the workers, as horovod's MetricAverageCallback does with the logs, gives the variance over all their samples less the
    spread of the energies of the workers. So the average is never too large, and is right only if all the workers' energies agree. *)
Theorem C93_workers_variance : forall n (H : list Z -> list Z -> C) op log_psi B (batches : list (list (list Z))),
  operator_represents n H op -> (0 < B)%nat -> batches <> [] -> Forall (fun b => length b = B) batches ->
  (forall s, In s (concat batches) -> In s (spin_configs n)) ->
  let e s := Re (local_energy n H log_psi s) in
  exists steps, horovod_next_batches op log_psi batches = Ok steps /\ map batch_of_step steps = batches /\
    mean_over variance_of_step steps = variance_over e (concat batches) - variance_over (fun b => mean_over e b) batches /\
    mean_over variance_of_step steps <= variance_over e (concat batches) /\
    (mean_over variance_of_step steps = variance_over e (concat batches) <-> forall b, In b batches -> mean_over e b = mean_over e (concat batches)).
Proof.
  intros n H op lp B bs HO HB NE F I e. pose proof (horovod_ok n H op lp B bs HB NE F HO I) as E. eexists. split; [exact E|].
  split; [rewrite map_map; cbn [batch_of_step]; apply map_id|].
  rewrite mean_over_map. cbn [variance_of_step].
  rewrite (mean_over_ext _ (fun c => variance_over e c)) by (intros; apply (Rvar_over e)).
  pose proof (variance_split e B bs HB NE F) as S. pose proof (variance_over_nonneg (fun b => mean_over e b) bs NE) as P.
  split; [lra|]. split; [lra|]. rewrite (mean_over_concat e B bs HB NE F). split.
  - intros Q. assert (Z : variance_over (fun b => mean_over e b) bs = 0) by lra. intros b Hb.
    rewrite <- Rvar_over in Z. pose proof (Rvar_zero (map (fun b => mean_over e b) bs)) as R0.
    rewrite (R0 ltac:(destruct bs; [congruence|discriminate]) Z (mean_over e b)) by now apply (in_map (fun b => mean_over e b)).
    unfold Rmean, mean_over at 2. rewrite map_length, Rsum_map. unfold Rdiv. apply Rmult_comm.
  - intros Q. assert (Z : variance_over (fun b => mean_over e b) bs = 0); [|lra].
    unfold variance_over, mean_over at 1. rewrite (Rsum_ext _ (fun _ => 0)); [rewrite Rsum_zero; unfold Rdiv; ring|].
    intros b Hb. rewrite (Q b Hb). ring.
Qed.
Print Assumptions C93_workers_variance.
Example C93_workers_variance_ex : operator_represents 1 (ising_matrix 1 1 false [1%nat]) (ising_operator 1 1 false [1%nat]) /\
  Forall (fun b : list (list Z) => length b = 2%nat) [[[1]; [1]]; [[1]; [-1]]]%Z /\
  forall s, In s (concat [[[1]; [1]]; [[1]; [-1]]]%Z) -> In s (spin_configs 1).
Proof.
  split; [|split; [repeat constructor|]].
  - apply (ising_operator_represents 1 1 false [1%nat]). left. exists 1%nat. split; [reflexivity|]. right. split; [reflexivity|lia].
  - intros s Is. cbn in Is. destruct Is as [<- | [<- | [<- | [<- | []]]]]; [now left|now left|now left|right; now left].
Qed.
