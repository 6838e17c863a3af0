(** Averages along the chains of the Metropolis samplers. *)
From Coq Require Import List ZArith Reals Bool Arith Lia Lra.
From Verif Require Import Base Cplx LatticeSpec AutoregressiveSpec ObservableModel ObservableSpec ObservableProofs
  ExactModel ExactSpec ExactProofs MetropolisModel MetropolisSpec MetropolisProofs MetropolisGlobalProofs MetropolisUniqueProofs MetropolisNextProofs
  MixingSpec MixingProofs MixingSamplerProofs MixingTrajectoryProofs ErgodicSpec ErgodicProofs TrainingProofs MonteCarloProofs.
Import ListNotations.
Local Open Scope R_scope.

Lemma path_length n L p : In p (paths n L) -> length p = L /\ Forall (fun s => In s (spin_configs n)) p.
Proof.
  unfold paths. rewrite choices_in. revert p. induction L as [|L IH]; intros p F; cbn [repeat] in F; inversion F as [|a ? p' ? Ha Hp]; subst; [split; [reflexivity|constructor]|].
  destruct (IH p' Hp) as [A B]. split; [cbn [length]; lia|now constructor].
Qed.
Lemma tuple_paths n L C ps : In ps (choices (repeat (paths n L) C)) -> length ps = C /\ Forall (fun p => In p (paths n L)) ps.
Proof.
  rewrite choices_in. revert ps. induction C as [|C IH]; intros p F; cbn [repeat] in F; inversion F as [|a ? p' ? Ha Hp]; subst; [split; [reflexivity|constructor]|].
  destruct (IH p' Hp) as [A B]. split; [cbn [length]; lia|now constructor].
Qed.
Lemma picked_length {A} mask : forall l : list A, length l = length mask -> length (picked mask l) = recorded mask.
Proof.
  unfold recorded. induction mask as [|m mask IH]; intros [|a l] H; try discriminate; [reflexivity|]. cbn [picked filter length] in *. destruct m; cbn [length]; rewrite IH; lia.
Qed.
Lemma picked_in {A} mask : forall (l : list A) a, In a (picked mask l) -> In a l.
Proof.
  induction mask as [|m mask IH]; intros [|x l] a H; cbn [picked] in H; try contradiction. destruct m; [destruct H as [->|H]; [now left|]|]; right; now apply IH.
Qed.
Lemma rows_length n mask C ps : In ps (choices (repeat (paths n (length mask)) C)) -> length (concat (map (picked mask) ps)) = (C * recorded mask)%nat.
Proof.
  intros H. apply tuple_paths in H. destruct H as [L F]. rewrite (concat_length_const _ (recorded mask)).
  - now rewrite map_length, L.
  - intros x Hx. apply in_map_iff in Hx. destruct Hx as (p & <- & Hp). rewrite Forall_forall in F. apply picked_length. exact (proj1 (path_length n _ p (F p Hp))).
Qed.

Section Real.
  Context (n : nat) (K : list Z -> list Z -> R) (Q : list Z -> bool) (pi f : list Z -> R).
  Context (HS : stochastic n K) (HC : stays n K Q) (Hpi : distribution n pi) (Conv : converges_within n K Q pi).
  Local Notation SS := (spin_configs n).
  Definition mean_f : R := Rsum (fun s => pi s * f s) SS.
  Definition Rmean_of (l : list (list Z)) : R := / INR (length l) * Rsum f l.
  Lemma centred mask C ps : (0 < C)%nat -> (0 < recorded mask)%nat -> In ps (choices (repeat (paths n (length mask)) C)) ->
    Rmean_of (concat (map (picked mask) ps)) - mean_f = / INR (C * recorded mask) * Rsum (fun p => Rsum (fun s => f s - mean_f) (picked mask p)) ps.
  Proof.
    intros HC' HM Hps. unfold Rmean_of. rewrite (rows_length n mask C ps Hps). assert (P : 0 < INR (C * recorded mask)) by (apply lt_0_INR; nia).
    apply (Rmult_eq_reg_l (INR (C * recorded mask))); [|lra]. rewrite Rmult_minus_distr_l, <- !Rmult_assoc, Rinv_r, !Rmult_1_l by lra.
    rewrite <- (rows_length n mask C ps Hps). clear. induction ps as [|p ps IH]; cbn [map concat]; [rewrite !Rsum_nil; cbn [length INR]; ring|].
    rewrite Rsum_cons, Rsum_app, app_length, plus_INR, Rsum_minus, <- IH. rewrite (Rsum_ext (fun _ => mean_f) (fun s => mean_f * 1)) by (intros; ring).
    rewrite Rsum_scal. replace (Rsum (fun _ : list Z => 1) (picked mask p)) with (INR (length (picked mask p))); [ring|].
    induction (picked mask p) as [|x l IHl]; [reflexivity|]. cbn [length]. now rewrite S_INR, Rsum_cons, IHl, Rplus_comm.
  Qed.
  Lemma real_average : exists a d, 0 <= a /\ 0 <= d /\ forall starts mask,
    starts <> [] -> Forall (fun s => In s SS /\ Q s = true) starts -> (0 < recorded mask)%nat ->
    Rabs (over_chains n K starts (length mask) (fun ps => Rmean_of (concat (map (picked mask) ps))) - mean_f) <= d / INR (recorded mask) /\
    over_chains n K starts (length mask) (fun ps => (Rmean_of (concat (map (picked mask) ps)) - mean_f) ^ 2) <=
      a / INR (length starts * recorded mask) + d ^ 2 / INR (recorded mask) ^ 2.
  Proof.
    destruct Conv as (N & e & HN & He & HV). set (g := fun s => f s - mean_f). set (G := Rsum (fun s => Rabs (g s)) SS).
    assert (Hg : forall s, In s SS -> Rabs (g s) <= G) by (intros s Hs; apply (Rsum_in_le (fun s => Rabs (g s)) SS s); [intros; apply Rabs_pos|exact Hs]).
    assert (G0 : 0 <= G) by (apply Rsum_nonneg; intros; apply Rabs_pos).
    assert (Cn : Rsum (fun s => pi s * g s) SS = 0).
    { unfold g. rewrite (Rsum_ext _ (fun s => pi s * f s - pi s * mean_f)) by (intros; ring). rewrite Rsum_minus, Rsum_scal_r, (proj2 Hpi). unfold mean_f. ring. }
    exists (A N e G), (D N e G). pose proof (D_pos N e He G G0) as DP. split; [unfold A; nra|]. split; [exact DP|]. intros starts mask NE F HM.
    assert (HL : (0 < length starts)%nat) by (destruct starts; [congruence|cbn; lia]).
    assert (F' : Forall (fun s => In s SS) starts) by (eapply Forall_impl; [|exact F]; cbn; tauto).
    destruct (joint_bounds n K Q pi HS HC N e HN He HV g G Hg G0 Cn mask starts F) as [B1 B2].
    set (c := INR (length starts * recorded mask)). assert (Pc : 0 < c) by (apply lt_0_INR; nia).
    assert (Pl : 0 < INR (length starts)) by now apply lt_0_INR. assert (Pm : 0 < INR (recorded mask)) by now apply lt_0_INR.
    assert (Ec : c = INR (length starts) * INR (recorded mask)) by apply mult_INR.
    split.
    - rewrite (over_chains_ext n K starts _ _ (fun ps => / c * Rsum (fun p => Rsum g (picked mask p)) ps + mean_f * 1)).
      + rewrite over_chains_plus, !over_chains_scal, (over_chains_total n K HS) by exact F'. fold (joint_first n K g mask starts).
        replace (/ c * joint_first n K g mask starts + mean_f * 1 - mean_f) with (/ c * joint_first n K g mask starts) by ring.
        rewrite Rabs_mult, (Rabs_right (/ c)) by (apply Rle_ge; left; now apply Rinv_0_lt_compat).
        apply Rle_trans with (/ c * (INR (length starts) * D N e G)); [apply Rmult_le_compat_l; [left; now apply Rinv_0_lt_compat|exact B1]|]. right. rewrite Ec. field. lra.
      + intros ps Hps. pose proof (centred mask (length starts) ps HL HM Hps) as E. fold c in E. change (fun s => f s - mean_f) with g in E. lra.
    - rewrite (over_chains_ext n K starts _ _ (fun ps => (/ c) ^ 2 * Rsum (fun p => Rsum g (picked mask p)) ps ^ 2)).
      + rewrite over_chains_scal. fold (joint_second n K g mask starts).
        apply Rle_trans with ((/ c) ^ 2 * (INR (length starts) * (INR (recorded mask) * A N e G) + INR (length starts) ^ 2 * D N e G ^ 2)).
        * apply Rmult_le_compat_l; [apply pow_le; left; now apply Rinv_0_lt_compat|exact B2].
        * right. rewrite Ec. field. lra.
      + intros ps Hps. pose proof (centred mask (length starts) ps HL HM Hps) as E. fold c in E. change (fun s => f s - mean_f) with g in E. rewrite E. ring.
  Qed.
End Real.

Lemma complex_average n K Q pi f : stochastic n K -> stays n K Q -> distribution n pi -> converges_within n K Q pi -> averages_converge n K Q pi f.
Proof.
  intros HS HC Hpi Conv.
  destruct (real_average n K Q pi (fun s => Re (f s)) HS HC Hpi Conv) as (a1 & d1 & A1 & D1 & R1).
  destruct (real_average n K Q pi (fun s => Im (f s)) HS HC Hpi Conv) as (a2 & d2 & A2 & D2 & R2).
  exists (a1 + a2), (d1 ^ 2 + d2 ^ 2). split; [lra|]. split; [nra|]. intros starts mask NE F HM.
  destruct (R1 starts mask NE F HM) as [_ E1]. destruct (R2 starts mask NE F HM) as [_ E2].
  set (m := Csum (fun s => Cscale (pi s) (f s)) (spin_configs n)).
  rewrite (over_chains_ext n K starts _ _ (fun ps => (Rmean_of (fun s => Re (f s)) (concat (map (picked mask) ps)) - mean_f n pi (fun s => Re (f s))) ^ 2 +
    (Rmean_of (fun s => Im (f s)) (concat (map (picked mask) ps)) - mean_f n pi (fun s => Im (f s))) ^ 2)).
  - rewrite over_chains_plus. unfold Rdiv in *. lra.
  - intros ps _. assert (Er : Re m = mean_f n pi (fun s => Re (f s))).
    { unfold m. rewrite Re_Csum. apply Rsum_ext. intros s _. apply Re_scale. }
    assert (Ei : Im m = mean_f n pi (fun s => Im (f s))).
    { unfold m. rewrite Im_Csum. apply Rsum_ext. intros s _. apply Im_scale. }
    rewrite <- Er, <- Ei. unfold Rmean_of. rewrite <- Re_Csum, <- Im_Csum. unfold Cmean_of, Cnorm2. destruct m as [mr mi]. set (z := Csum f _). destruct z as [zr zi].
    unfold Cscale, Cminus, Cplus, Copp, Re, Im. cbn [fst snd]. ring.
Qed.
