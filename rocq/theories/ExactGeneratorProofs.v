(** The generator of exact enumeration. *)
From Coq Require Import List ZArith Reals Bool Arith Lia Lra Permutation.
From Verif Require TrainingProofs.
From Verif Require Import Base Cplx ExactUtilsModel ExactUtilsProofs AutoregressiveSpec AutoregressiveProofs ObservableModel ObservableSpec ObservableProofs
  ExactModel ExactSpec ExactProofs ExactGradientProofs.
Import ListNotations.
Local Open Scope nat_scope.

Lemma coefficient_spec n H lp s :
  (contribution n H lp s - RtoC (probability n lp s) * result_energy n H lp)%C = gradient_coefficient n H lp s.
Proof.
  unfold gradient_coefficient. rewrite result_energy_conj, Cconj_minus.
  replace (RtoC (probability n lp s) * (Cconj (local_energy n H lp s) - Cconj (expectation n H lp)))%C with
    (RtoC (probability n lp s) * Cconj (local_energy n H lp s) - RtoC (probability n lp s) * Cconj (expectation n H lp))%C by ring.
  f_equal. unfold contribution, probability, local_energy, Rdiv. set (a := apply_matrix n H _ s).
  rewrite (Rmult_comm (born _)), RtoC_mult, Cscale_RtoC. unfold born. rewrite <- Cmult_conj. unfold Cdiv.
  rewrite Cconj_mult.
  replace (RtoC (/ norm2 n lp) * (Cexp (lp s) * Cconj (Cexp (lp s))) * (Cconj a * Cconj (Cinv (Cexp (lp s)))))%C with
    (RtoC (/ norm2 n lp) * (Cexp (lp s) * Cconj a) * (Cconj (Cexp (lp s) * Cinv (Cexp (lp s)))))%C
    by (rewrite Cconj_mult; ring).
  rewrite Cmult_inv_r by apply Cexp_nonzero.
  replace (Cconj C1) with C1 by (apply C_eq; unfold Cconj, C1, Re, Im; cbn [fst snd]; ring). ring.
Qed.

Lemma updated_coefficients n H lp e e' : good_exact n H e -> machine_updated lp e = Ok e' ->
  good_exact n H e' /\ batch_size e' = batch_size e /\ updates e' = S (updates e) /\
  grad_coefficients e' = map (gradient_coefficient n H lp) (basis n).
Proof.
  intros G E. destruct (machine_updated_ok n H lp e G) as (e1 & E1 & G1 & B1 & U1 & _ & _ & _ & _ & _ & C1).
  assert (e1 = e') by congruence. subst e1. split; [exact G1|]. split; [exact B1|]. split; [exact U1|].
  rewrite C1. apply map_ext. intros s. apply coefficient_spec.
Qed.

Lemma concat_slices {A} b m : forall (l : list A), length l = m * b ->
  concat (map (fun q => slice l (q * b) (q * b + b)) (seq 0 m)) = l.
Proof.
  induction m as [|m IH]; intros l L.
  - destruct l; [reflexivity|discriminate].
  - cbn [seq map concat]. rewrite <- seq_shift, map_map.
    transitivity (firstn b l ++ skipn b l); [|apply firstn_skipn]. f_equal.
    + unfold slice. cbn [Nat.mul Nat.add skipn]. now rewrite Nat.sub_0_r.
    + etransitivity; [|apply (IH (skipn b l)); rewrite skipn_length; cbn [Nat.mul] in L; lia].
      f_equal. apply map_ext. intros q. unfold slice.
      replace (S q * b + b - S q * b) with b by lia. replace (q * b + b - q * b) with b by lia.
      f_equal. now rewrite TrainingProofs.skipn_skipn'.
Qed.

Definition batch_of (e : exact) (q : nat) : list (list Z) * list C :=
  (slice (states e) (q * batch_size e) (q * batch_size e + batch_size e),
   slice (grad_coefficients e) (q * batch_size e) (q * batch_size e + batch_size e)).

Lemma inner_run machine e m : 0 < batch_size e -> num_of_states (number_of_spins e) = m * batch_size e ->
  forall r j t, j + r = m ->
  generator_run machine (e, j * batch_size e) t r = Ok ((e, m * batch_size e), map (batch_of e) (seq j r)).
Proof.
  intros Hb Hm. induction r as [|r IH]; intros j t Hj; cbn [generator_run seq map].
  - replace j with m by lia. reflexivity.
  - unfold generator_next. rewrite Hm.
    assert (j * batch_size e < m * batch_size e) by (apply Nat.mul_lt_mono_pos_r; lia).
    rewrite (proj2 (Nat.ltb_lt _ _)) by assumption. cbn [bind].
    replace (j * batch_size e + batch_size e) with (S j * batch_size e) by (cbn [Nat.mul]; lia).
    rewrite (IH (S j)) by lia. cbn [bind fst snd]. unfold batch_of at 2. do 3 f_equal.
    replace (j * batch_size e + batch_size e) with (S j * batch_size e) by (cbn [Nat.mul]; lia). reflexivity.
Qed.

(** One cycle from a position at the end. *)
Lemma one_cycle n H machine e t m : good_exact n H e -> 2 ^ n = m * batch_size e ->
  exists e', machine_updated (machine t) e = Ok e' /\ good_exact n H e' /\ batch_size e' = batch_size e /\ updates e' = S (updates e) /\
    generator_run machine (e, 2 ^ n) t m = Ok ((e', 2 ^ n), map (batch_of e') (seq 0 m)) /\
    grad_coefficients e' = map (gradient_coefficient n H (machine t)) (basis n).
Proof.
  intros G Hm. destruct (machine_updated_ok n H (machine t) e G) as (e' & E & _).
  destruct (updated_coefficients n H (machine t) e e' G E) as (G' & B' & U' & C').
  exists e'. split; [exact E|]. split; [exact G'|]. split; [exact B'|]. split; [exact U'|]. split; [|exact C'].
  destruct m as [|m]. { pose proof (pow2_pos n). cbn [Nat.mul] in Hm. lia. }
  cbn [generator_run]. unfold generator_next. unfold num_of_states. rewrite (ge_n _ _ _ G), Nat.ltb_irrefl, E. cbn [bind].
  pose proof (inner_run machine e' (S m) (ge_batch _ _ _ G')) as I. unfold num_of_states in I.
  rewrite (ge_n _ _ _ G') in I. rewrite B' in I. specialize (I Hm m 1 (S t) eq_refl).
  replace (0 + batch_size e) with (1 * batch_size e) by lia. rewrite I. cbn [bind fst snd seq map].
  rewrite <- Hm. unfold batch_of at 2. rewrite B'. cbn [Nat.mul Nat.add]. rewrite Nat.add_0_r. reflexivity.
Qed.

Lemma generator_run_app machine : forall a b t g, generator_run machine g t (a + b) =
  (do r <- generator_run machine g t a; do r2 <- generator_run machine (fst r) (t + a) b; Ok (fst r2, snd r ++ snd r2)).
Proof.
  induction a as [|a IH]; intros b t g; cbn [Nat.add generator_run bind].
  - cbn [fst snd]. rewrite Nat.add_0_r. destruct (generator_run machine g t b) as [[g' ys]|]; reflexivity.
  - destruct (generator_next (machine t) g) as [[g' y]|]; [cbn [bind]|reflexivity]. rewrite IH.
    destruct (generator_run machine g' (S t) a) as [[g1 y1]|]; [cbn [bind fst snd]|reflexivity].
    replace (S t + a) with (t + S a) by lia.
    destruct (generator_run machine g1 (t + S a) b) as [[g2 y2]|]; reflexivity.
Qed.

Definition cycle_ok (n : nat) (H : list Z -> list Z -> C) (lp : list Z -> C) (batch : nat) (ys : list (list (list Z) * list C)) : Prop :=
  Forall (fun y => length (fst y) = batch /\ length (snd y) = batch) ys /\
  concat (map fst ys) = basis n /\ concat (map snd ys) = map (gradient_coefficient n H lp) (basis n).

Lemma cycle_batches n H lp e m : good_exact n H e -> 2 ^ n = m * batch_size e ->
  grad_coefficients e = map (gradient_coefficient n H lp) (basis n) ->
  cycle_ok n H lp (batch_size e) (map (batch_of e) (seq 0 m)).
Proof.
  intros G Hm HC. split; [|split].
  - apply Forall_forall. intros y Hy. apply in_map_iff in Hy. destruct Hy as (q & <- & Hq). apply in_seq in Hq.
    assert (q * batch_size e + batch_size e <= 2 ^ n).
    { rewrite Hm. replace (q * batch_size e + batch_size e) with (S q * batch_size e) by (cbn [Nat.mul]; lia).
      apply Nat.mul_le_mono_r. lia. }
    unfold batch_of. cbn [fst snd]. rewrite (ge_states _ _ _ G), HC. split; apply slice_length; rewrite ?map_length, basis_length; assumption.
  - rewrite map_map. unfold batch_of. cbn [fst]. rewrite concat_slices; [apply (ge_states _ _ _ G)|].
    rewrite (ge_states _ _ _ G), basis_length. exact Hm.
  - rewrite map_map. unfold batch_of. cbn [snd]. rewrite concat_slices; [exact HC|].
    rewrite HC, map_length, basis_length. exact Hm.
Qed.

Lemma cycles n H machine m : forall k e t, good_exact n H e -> 2 ^ n = m * batch_size e ->
  exists e' yss, generator_run machine (e, 2 ^ n) t (k * m) = Ok ((e', 2 ^ n), concat yss) /\
    good_exact n H e' /\ batch_size e' = batch_size e /\ updates e' = k + updates e /\ length yss = k /\
    forall c ys, nth_error yss c = Some ys -> length ys = m /\ cycle_ok n H (machine (t + c * m)) (batch_size e) ys.
Proof.
  induction k as [|k IH]; intros e t G Hm.
  - exists e, []. repeat (split; [reflexivity || assumption|]). intros [|c] ys E; discriminate E.
  - destruct (one_cycle n H machine e t m G Hm) as (e1 & E1 & G1 & B1 & U1 & R1 & C1).
    destruct (IH e1 (t + m) G1) as (e' & yss & R' & G' & B' & U' & L' & A'). { now rewrite B1. }
    exists e', (map (batch_of e1) (seq 0 m) :: yss).
    split. { cbn [Nat.mul]. rewrite generator_run_app, R1. cbn [bind fst snd]. rewrite R'. reflexivity. }
    split; [exact G'|]. split; [congruence|]. split; [lia|]. split; [cbn [length]; lia|].
    intros [|c] ys E.
    + cbn [nth_error] in E. injection E as <-. split; [now rewrite map_length, seq_length|].
      cbn [Nat.mul]. rewrite Nat.add_0_r. rewrite <- B1. apply cycle_batches; auto. now rewrite B1.
    + cbn [nth_error] in E. destruct (A' c ys E) as [La Ca]. split; [exact La|].
      rewrite <- B1. replace (t + S c * m) with (t + m + c * m) by (cbn [Nat.mul]; lia). exact Ca.
Qed.

Lemma bad_batch_rejected n op batch : 0 < batch -> 2 ^ n mod Nat.min batch (2 ^ n) <> 0 -> new_exact n op batch = Err GenericException.
Proof.
  intros Hb Hm. unfold new_exact, num_of_states, set_batch_size.
  replace (if 2 ^ n <? batch then 2 ^ n else batch) with (Nat.min batch (2 ^ n))
    by (destruct (Nat.ltb_spec (2 ^ n) batch); lia).
  rewrite (proj2 (Nat.eqb_neq (Nat.min batch (2 ^ n)) 0)) by (pose proof (pow2_pos n); lia).
  now rewrite (proj2 (Nat.eqb_neq _ 0)) by assumption.
Qed.
Lemma zero_batch_rejected n op : new_exact n op 0 = Err ZeroDivisionError.
Proof.
  unfold new_exact, num_of_states, set_batch_size. pose proof (pow2_pos n).
  rewrite (proj2 (Nat.ltb_ge (2 ^ n) 0)) by lia. reflexivity.
Qed.

(** * The losses of a cycle *)
Local Open Scope R_scope.
Lemma Rsum_concat {A} (f : A -> R) (ls : list (list A)) : Rsum f (concat ls) = Rsum (Rsum f) ls.
Proof. induction ls as [|l ls IH]; [reflexivity|]. cbn [concat]. rewrite Rsum_app, IH, Rsum_cons. reflexivity. Qed.

Lemma combine_concat {A B} (f : A * B -> R) : forall (ys : list (list A * list B)), Forall (fun y => length (fst y) = length (snd y)) ys ->
  Rsum f (combine (concat (map fst ys)) (concat (map snd ys))) = Rsum (fun y => Rsum f (combine (fst y) (snd y))) ys.
Proof.
  induction 1 as [|[a b] ys E F IH]; [reflexivity|]. cbn [map concat fst snd] in *. rewrite Rsum_cons, <- IH. cbn [fst snd].
  assert (Hc : forall (a' : list A) (b' : list B) x y, length a' = length b' -> combine (a' ++ x) (b' ++ y) = combine a' b' ++ combine x y).
  { clear. induction a' as [|h a' IHa]; intros [|h' b'] x y L; try discriminate; [reflexivity|]. cbn [combine app]. f_equal. apply IHa.
    injection L as L. exact L. }
  rewrite Hc by exact E. apply Rsum_app.
Qed.

Lemma batch_loss_combine (b : nat) (ss : list (list Z)) (ts : list C) (lp : list Z -> C) : length ss = b -> length ts = b ->
  batch_loss ts (map lp ss) = / INR b * Rsum (fun p => 2 * Re (lp (fst p) * snd p)%C) (combine ss ts).
Proof.
  intros Ls Lt. unfold batch_loss, Rmean. rewrite map2_length, Lt by (rewrite map_length; congruence).
  f_equal. clear Ls Lt. revert ts. induction ss as [|s ss IH]; intros [|t ts]; try reflexivity.
  cbn [map map2 combine]. rewrite !Rsum_cons, IH. reflexivity.
Qed.

Lemma cycle_loss_sum n H lp b ys (f : list Z -> C) : cycle_ok n H lp b ys ->
  cycle_loss ys f = / INR b * Rsum (fun s => 2 * Re (f s * gradient_coefficient n H lp s)%C) (spin_configs n).
Proof.
  intros (F & E1 & E2). unfold cycle_loss.
  rewrite (Rsum_ext _ (fun y => / INR b * Rsum (fun p => 2 * Re (f (fst p) * snd p)%C) (combine (fst y) (snd y)))).
  2: { intros y Hy. rewrite Forall_forall in F. destruct (F y Hy). now apply batch_loss_combine. }
  rewrite Rsum_scal. f_equal. rewrite <- combine_concat.
  2: { eapply Forall_impl; [|exact F]. intros y [L1 L2]. congruence. }
  rewrite E1, E2. rewrite <- (Rsum_perm _ _ _ (basis_perm n)). generalize (basis n). intros l. induction l as [|s l IH]; [reflexivity|].
  cbn [map combine]. rewrite !Rsum_cons, IH. reflexivity.
Qed.

Lemma Rsum_derivative {A} (f : A -> R -> R) (d : A -> R) x (l : list A) :
  (forall a, In a l -> derivable_pt_lim (f a) x (d a)) -> derivable_pt_lim (fun t => Rsum (fun a => f a t) l) x (Rsum d l).
Proof.
  induction l as [|a l IH]; intros HD.
  - apply (limit_ext (fct_cte 0)); [reflexivity|]. exact (derivable_pt_lim_const 0 x).
  - apply (limit_ext (plus_fct (f a) (fun t => Rsum (fun b => f b t) l))); [reflexivity|].
    apply (limit_value _ _ (d a + Rsum d l)); [reflexivity|].
    apply derivable_pt_lim_plus; [apply HD; now left|]. apply IH. intros b Hb. apply HD. now right.
Qed.

Lemma loss_derivative n (g : list Z -> C) (lp : R -> list Z -> C) d x c :
  (forall s, In s (spin_configs n) -> Cderive (fun t => lp t s) x (d s)) ->
  derivable_pt_lim (fun t => c * Rsum (fun s => 2 * Re (lp t s * g s)%C) (spin_configs n)) x
    (c * Rsum (fun s => 2 * Re (g s * d s)%C) (spin_configs n)).
Proof.
  intros HD. apply (derivable_pt_lim_scal (fun t => Rsum (fun s => 2 * Re (lp t s * g s)%C) (spin_configs n))).
  apply (Rsum_derivative (fun s t => 2 * Re (lp t s * g s)%C) (fun s => 2 * Re (g s * d s)%C)).
  intros s Hs. destruct (Cderive_scal (g s) _ x _ (HD s Hs)) as [A _].
  apply (derivable_pt_lim_scal (fun t => Re (lp t s * g s)%C)).
  refine (limit_ext _ _ _ _ _ A). intros t. cbv beta. f_equal. ring.
Qed.
