(** The batch of a Metropolis sampler as recorded trajectories; Chebyshev's inequality; the samplers. *)
From Coq Require Import List ZArith Reals Bool Arith Lia Lra.
From Verif Require Import Base Cplx LatticeSpec IsingModel IsingProofs HeisenbergModel HeisenbergProofs AutoregressiveSpec ObservableModel ObservableSpec ObservableProofs TopologyProofs
  ExactModel ExactSpec ExactProofs ExactOperatorProofs MetropolisModel MetropolisSpec MetropolisProofs MetropolisOperatorProofs MetropolisGlobalProofs MetropolisUniqueProofs MetropolisNextProofs MetropolisProps
  MixingSpec MixingProofs MixingSamplerProofs MixingExchangeProofs MixingHamiltonianProofs MixingTrajectoryProofs MixingProps MonteCarloSpec MonteCarloProofs ErgodicSpec ErgodicProofs ErgodicSamplerProofs TrainingProofs.
Import ListNotations.
Local Open Scope nat_scope.

(** * The batch *)
Section Code.
  Context {D : Type} (d0 : D) (cand : list Z -> D -> list Z) (lp : list Z -> C) (draws : nat -> list D * list R) (nc : nat).
  Context (Hdraws : forall t, length (fst (draws t)) = nc /\ length (snd (draws t)) = nc).
  Local Notation sweep := (symmetric_sweep cand lp).
  Lemma own_proposals_S c t k : own_proposals d0 draws c t (S k) = nth c (fst (draws t)) d0 :: own_proposals d0 draws c (S t) k.
  Proof. unfold own_proposals. cbn [seq map]. rewrite Nat.add_0_r, <- seq_shift, map_map. f_equal. apply map_ext. intros j. now rewrite Nat.add_succ_r. Qed.
  Lemma own_numbers_S c t k : own_numbers draws c t (S k) = nth c (snd (draws t)) 0%R :: own_numbers draws c (S t) k.
  Proof. unfold own_numbers. cbn [seq map]. rewrite Nat.add_0_r, <- seq_shift, map_map. f_equal. apply map_ext. intros j. now rewrite Nat.add_succ_r. Qed.
  Lemma chain_state k : forall L t st acc st' acc' c, k <= L -> length (sample st) = nc -> cached lp st -> c < nc ->
    run_sweeps sweep draws t k st acc = Ok (st', acc') ->
    nth c (sample st') [] = chain_after sweep lp (own_proposals d0 draws c t L) (own_numbers draws c t L) k (nth c (sample st) []).
  Proof.
    induction k as [|k IH]; intros L t st acc st' acc' c HL Len HC Hc E.
    - injection E as <- <-. reflexivity.
    - destruct L as [|L]; [lia|]. rewrite own_proposals_S, own_numbers_S, chain_after_S. cbn [run_sweeps] in E.
      destruct (sweep (draws t) st) as [[st1 k1]|] eqn:ES; [|discriminate]. cbn [bind fst snd] in E.
      destruct (symmetric_sweep_ok cand lp (draws t) st st1 k1) as (L1 & C1 & _); [rewrite Len; apply Hdraws|exact HC|exact ES|].
      rewrite (IH L (S t) st1 _ _ _ c ltac:(lia) ltac:(lia) C1 Hc E). f_equal. apply nth_error_nth.
      destruct (Hdraws t) as [D1 D2]. rewrite (surjective_pairing (draws t)) in ES.
      apply (symmetric_sweep_chain cand lp _ _ st st1 k1 c _ _ _ HC ES); apply nth_error_nth'; lia.
  Qed.
  Lemma runs k : forall t st acc, exists r, run_sweeps sweep draws t k st acc = Ok r.
  Proof. induction k as [|k IH]; intros t st acc; cbn [run_sweeps]; [eauto|]. unfold symmetric_sweep at 1. cbn [bind]. apply IH. Qed.

  Lemma picked_skip {A} w m : forall l : list A, picked (repeat false w ++ m) l = picked m (skipn w l).
  Proof. induction w as [|w IH]; intros [|a l]; cbn [repeat app picked skipn]; auto. now destruct m. Qed.
  Lemma picked_blocks {A} (f : nat -> A) u s : forall a, picked (concat (repeat (repeat false u ++ [true]) s)) (map f (seq a (s * (u + 1)))) = map (fun j => f (a + j * (u + 1) + u)) (seq 0 s).
  Proof.
    induction s as [|s IH]; intros a; [reflexivity|]. cbn [repeat concat]. rewrite <- app_assoc, picked_skip.
    replace (S s * (u + 1)) with (u + (1 + s * (u + 1))) by lia. rewrite seq_app, map_app, skipn_app, map_length, seq_length, skipn_all2 by (rewrite map_length, seq_length; lia).
    rewrite Nat.sub_diag. cbn [app skipn seq Nat.add map picked]. rewrite IH, <- seq_shift, map_map, Nat.mul_0_l, Nat.add_0_r. f_equal.
    apply map_ext. intros j. f_equal. lia.
  Qed.
  Lemma picked_recording {A} (f : nat -> A) w u s : picked (recording w u s) (map f (seq 0 (w + s * (u + 1)))) = map (fun j => f (w + j * (u + 1) + u)) (seq 0 s).
  Proof.
    unfold recording. rewrite picked_skip, seq_app, map_app, skipn_app, map_length, seq_length, skipn_all2 by (rewrite map_length, seq_length; lia).
    rewrite Nat.sub_diag. cbn [app skipn]. rewrite Nat.add_0_l. apply picked_blocks.
  Qed.
  Lemma recorded_recording w u s : recorded (recording w u s) = s.
  Proof.
    unfold recorded, recording. rewrite filter_app, app_length. replace (length (filter (fun m => m) (repeat false w))) with 0 by (clear; induction w; auto).
    cbn [Nat.add]. induction s as [|s IH]; [reflexivity|]. cbn [repeat concat]. rewrite !filter_app, !app_length, IH.
    replace (length (filter (fun m => m) (repeat false u))) with 0 by (clear; induction u; auto). reflexivity.
  Qed.
  Lemma recording_length w u s : length (recording w u s) = w + s * (u + 1).
  Proof.
    unfold recording. rewrite app_length, repeat_length. f_equal. induction s as [|s IH]; [reflexivity|]. cbn [repeat concat]. rewrite !app_length, repeat_length, IH. cbn [length]. lia.
  Qed.
  Lemma cut (l : list (list Z)) per : forall m, length l = m * per -> l = concat (map (fun c => map (fun j => nth (c * per + j) l []) (seq 0 per)) (seq 0 m)).
  Proof.
    intros m. revert l. induction m as [|m IH]; intros l Hl; [now destruct l|]. cbn [seq map concat]. rewrite <- seq_shift, map_map.
    rewrite <- (firstn_skipn per l) at 1. f_equal.
    - apply (nth_ext _ _ [] []); [rewrite map_length, seq_length, firstn_length; lia|]. intros j Hj. rewrite firstn_length in Hj.
      assert (Hj' : j < per) by lia. rewrite (nth_indep (map _ (seq 0 per)) _ (nth (0 * per + per) l [])) by (rewrite map_length, seq_length; lia).
      rewrite (map_nth (fun j => nth (0 * per + j) l [])), seq_nth by exact Hj'. cbn [Nat.add Nat.mul]. now apply TopologyProofs.nth_firstn.
    - rewrite (IH (skipn per l)) by (rewrite skipn_length; lia). f_equal. apply map_ext. intros c. apply map_ext. intros j.
      rewrite TopologyProofs.nth_skipn. f_equal. lia.
  Qed.

  Lemma batch_is_recorded batch unused discard t st r : length (sample st) = nc ->
    mh_next lp sweep draws batch nc unused discard t st = Ok r ->
    let per := batch / nc in
    let warm := if 0 <? discard then per / discard * unused else 0 in
    next_batch r = concat (map (fun c => picked (recording warm unused per)
      (trajectory sweep lp (own_proposals d0 draws c t (warm + per * (unused + 1))) (own_numbers draws c t (warm + per * (unused + 1))) (warm + per * (unused + 1)) (nth c (sample st) [])))
      (seq 0 nc)).
  Proof.
    intros Len E per warm. set (L := warm + per * (unused + 1)).
    destruct (mh_next_ok lp sweep _ (symmetric_sweep_ok cand lp) draws nc Hdraws batch unused discard t st r Len E) as (N0 & EB & B0 & LB & _ & _ & (st0 & a0 & acc & R0 & _ & _ & RJ) & _).
    fold per in EB, R0, RJ. fold warm in R0, RJ. rewrite (cut (MetropolisModel.next_batch r) per nc) by lia. f_equal. apply map_ext_in. intros c Hc. apply in_seq in Hc.
    unfold trajectory, L. rewrite picked_recording. apply map_ext_in. intros j Hj. apply in_seq in Hj.
    destruct (RJ j ltac:(lia)) as (stj & aj & Rj & Ej). rewrite Ej by lia.
    set (start := {| sample := sample st; sample_machine_values := map lp (sample st) |}) in *.
    assert (Rall : exists a, run_sweeps sweep draws t (warm + (j + 1) * (unused + 1)) start 0 = Ok (stj, a)).
    { rewrite run_sweeps_add, R0. cbn [bind fst snd]. replace a0 with (a0 + 0) by lia. rewrite MetropolisNextProofs.run_sweeps_acc, Rj. cbn [bind fst snd]. eauto. }
    destruct Rall as (a & Rall). replace (S (warm + j * (unused + 1) + unused)) with (warm + (j + 1) * (unused + 1)) by nia.
    refine (chain_state _ (warm + per * (unused + 1)) t start 0 stj a c _ Len eq_refl _ Rall); nia.
  Qed.
End Code.

(** * Chebyshev's inequality *)
Local Open Scope R_scope.
Lemma path_weight_nonneg n K : stochastic n K -> forall p s, In s (spin_configs n) -> Forall (fun t => In t (spin_configs n)) p -> 0 <= path_weight K s p.
Proof.
  intros HS. induction p as [|t p IH]; intros s Hs F; cbn [path_weight]; [lra|]. inversion F; subst. apply Rmult_le_pos; [now apply (proj1 (HS s Hs))|now apply IH].
Qed.
Lemma joint_weight_nonneg n K L : stochastic n K -> forall starts ps, Forall (fun s => In s (spin_configs n)) starts ->
  In ps (choices (repeat (paths n L) (length starts))) -> 0 <= joint_weight K starts ps.
Proof.
  intros HS. induction starts as [|s starts IH]; intros ps F Hps; cbn [joint_weight]; [lra|]. apply tuple_paths in Hps. destruct Hps as [LP FP].
  destruct ps as [|p ps]; [lra|]. inversion F; subst. inversion FP; subst. apply Rmult_le_pos; [apply (path_weight_nonneg n); auto; now apply (path_length n L)|].
  apply IH; [assumption|]. cbn [length] in LP. injection LP as LP. rewrite <- LP. apply choices_in. clear - H4. induction H4; cbn [length repeat]; constructor; auto.
Qed.
Lemma chebyshev n K starts L F d : stochastic n K -> Forall (fun s => In s (spin_configs n)) starts -> 0 < d -> (forall ps, 0 <= F ps) ->
  over_chains n K starts L (fun ps => if Rle_dec d (F ps) then 1 else 0) <= over_chains n K starts L F / d.
Proof.
  intros HS Fs Hd HF. unfold Rdiv. rewrite Rmult_comm, <- over_chains_scal. unfold over_chains. apply Rsum_le. intros ps Hps.
  apply Rmult_le_compat_l; [now apply (joint_weight_nonneg n K L HS)|]. apply (Rmult_le_reg_l d); [exact Hd|]. rewrite <- Rmult_assoc, Rinv_r, Rmult_1_l by lra.
  destruct (Rle_dec d (F ps)); [lra|]. specialize (HF ps). lra.
Qed.
Lemma unbounded x : exists M, x < INR M.
Proof.
  destruct (archimed x) as [A _]. exists (Z.to_nat (up x)). destruct (Z_le_gt_dec 0 (up x)) as [L|L].
  - now rewrite INR_IZR_INZ, Z2Nat.id.
  - apply Rlt_le_trans with 0; [|apply pos_INR]. apply Rlt_trans with (IZR (up x)); [exact A|]. apply IZR_lt. lia.
Qed.
Lemma chance_small n K Q pi f eps delta : stochastic n K -> averages_converge n K Q pi f -> 0 < eps -> 0 < delta ->
  exists M, forall starts mask, starts <> [] -> Forall (fun s => In s (spin_configs n) /\ Q s = true) starts -> (M <= recorded mask)%nat ->
    chance_of_error n K pi f starts mask eps <= delta.
Proof.
  intros HS (a & d & Ha & Hd & B) He Hdel. assert (E2 : 0 < eps ^ 2) by (apply pow_lt; exact He).
  destruct (unbounded ((a + d) / (eps ^ 2 * delta))) as (M & HM). exists (S M). intros starts mask NE F HR.
  specialize (B starts mask NE F ltac:(lia)). unfold chance_of_error.
  assert (F' : Forall (fun s => In s (spin_configs n)) starts) by (eapply Forall_impl; [|exact F]; cbn; tauto).
  eapply Rle_trans; [apply chebyshev; auto; intros; unfold Cnorm2; nra|].
  assert (Lp : (0 < length starts)%nat) by (destruct starts; [congruence|cbn; lia]).
  set (m := INR (recorded mask)) in *. assert (HM1 : INR M + 1 <= m) by (unfold m; rewrite <- S_INR; apply le_INR; lia). pose proof (pos_INR M).
  assert (C1 : m <= INR (length starts * recorded mask)) by (unfold m; apply le_INR; nia).
  assert (T1 : a / INR (length starts * recorded mask) <= a / m) by (unfold Rdiv; apply Rmult_le_compat_l; [exact Ha|]; apply Rinv_le_contravar; lra).
  assert (T2 : d / m ^ 2 <= d / m) by (unfold Rdiv; apply Rmult_le_compat_l; [exact Hd|]; apply Rinv_le_contravar; [lra|nra]).
  apply (Rmult_le_reg_r (eps ^ 2)); [exact E2|]. unfold Rdiv at 1. rewrite Rmult_assoc, Rinv_l, Rmult_1_r by lra.
  apply Rle_trans with ((a + d) / m); [unfold Rdiv in *; lra|]. apply (Rmult_le_reg_r m); [lra|]. unfold Rdiv. rewrite Rmult_assoc, Rinv_l, Rmult_1_r by lra.
  assert (P : 0 < eps ^ 2 * delta) by now apply Rmult_lt_0_compat.
  apply (Rmult_lt_compat_r (eps ^ 2 * delta)) in HM; [|exact P]. unfold Rdiv in HM. rewrite Rmult_assoc, Rinv_l, Rmult_1_r in HM by lra. nra.
Qed.

(** * The samplers *)
Lemma all_stays n K : stays n K (fun _ => true).
Proof. intros s t _ _ _ E. discriminate. Qed.
Lemma local_averages shape lp K f : Forall (fun m => (0 < m)%nat) shape ->
  (exists s t, In s (spin_configs (sites_of shape)) /\ In t (spin_configs (sites_of shape)) /\ born (lp s) <> born (lp t)) ->
  kernel (sites_of shape) (fun _ => sites shape) (fun s d u => one_chain (symmetric_sweep (local_candidate shape) lp) ([d], [u]) lp s) K ->
  stochastic (sites_of shape) K /\ averages_converge (sites_of shape) K (fun _ => true) (probability (sites_of shape) lp) f.
Proof.
  intros F Ne HK. destruct (symmetric_facts (local_candidate shape) lp (sites_of shape) (sites shape) (sites_nonempty shape F) (local_spins shape)) with (K := K) as [HS _]; [|exact HK|].
  - apply involution_symmetric. intros s d _ _. apply local_involution.
  - split; [exact HS|]. apply complex_average; [exact HS|apply all_stays|apply probability_distribution|now apply local_converges].
Qed.
Lemma uniform_averages n lp K f :
  kernel n (fun _ => spin_configs n) (fun s d u => one_chain (symmetric_sweep global_candidate lp) ([d], [u]) lp s) K ->
  stochastic n K /\ averages_converge n K (fun _ => true) (probability n lp) f.
Proof.
  intros HK. destruct (uniform_facts n lp K HK) as [HS _]. split; [exact HS|]. apply complex_average; [exact HS|apply all_stays|apply probability_distribution|].
  assert (HM : forall s, In s (spin_configs n) -> probability n lp s <= 1).
  { intros s Hs. rewrite <- (Rsum_probability_configs n lp). apply Rsum_in_le; [|exact Hs]. intros; left; apply probability_pos. }
  exists 1%nat, (/ (INR (2 ^ n) * 1)). split; [lia|]. split; [now apply (max_probability n lp)|]. intros mu k Hmu _. rewrite Nat.mul_1_r. now apply uniform_converges.
Qed.
Lemma exchange_averages shape lp K m f : Forall (fun m => (0 < m)%nat) shape ->
  (exists s, In s (spin_configs (sites_of shape)) /\ sumZ s = m) ->
  kernel (sites_of shape) (fun _ => sites_and_moves shape) (fun s d u => one_chain (symmetric_sweep (exchange_candidate shape) lp) ([d], [u]) lp s) K ->
  stochastic (sites_of shape) K /\
  averages_converge (sites_of shape) K (fun s => (sumZ s =? m)%Z) (conditioned (sites_of shape) (probability (sites_of shape) lp) (fun s => (sumZ s =? m)%Z)) f.
Proof.
  intros F Hm HK. destruct (symmetric_facts (exchange_candidate shape) lp (sites_of shape) (sites_and_moves shape) (moves_nonempty shape F) (exchange_spins shape)) with (K := K) as [HS _]; [|exact HK|].
  - apply involution_symmetric, exchange_involution.
  - split; [exact HS|]. destruct Hm as (x & Hx & Ex). apply complex_average; [exact HS| | |].
    + intros s t Hs Ht Es Et. apply Z.eqb_eq in Es. apply Z.eqb_neq in Et. apply (C37_exchange_reducible shape lp K s t HK Hs Ht). congruence.
    + apply (conditioned_distribution _ lp _ x Hx). now apply Z.eqb_eq.
    + apply exchange_converges; eauto.
Qed.
Lemma hamiltonian_averages n op g lp K Q f : symmetric_connectivity n op g ->
  kernel n (fun s => range (length (g s))) (fun s d u => one_chain (hamiltonian_sweep op lp) ([d], [u]) lp s) K ->
  (forall s t, In s (spin_configs n) -> In t (g s) -> Q t = Q s) ->
  (forall P : list Z -> Prop, (forall s t, In s (spin_configs n) -> In t (g s) -> P s -> P t) ->
     forall s t, In s (spin_configs n) -> In t (spin_configs n) -> Q s = true -> Q t = true -> P s -> P t) ->
  (exists x, In x (spin_configs n) /\ Q x = true /\ In x (g x)) ->
  stochastic n K /\ averages_converge n K Q (conditioned n (probability n lp) Q) f.
Proof.
  intros G HK HQ HR Hx. destruct (hamiltonian_chain n op g lp G) as (K' & HK' & HS' & HB' & _).
  destruct (kernel_facts n _ _ K K' _ HK HK' HS' HB') as [HS _]. split; [exact HS|]. apply complex_average; [exact HS| | |].
  - intros s t Hs Ht Es Et. rewrite (hamiltonian_kernel n op g lp G K HK) by assumption. unfold general_kernel.
    rewrite (Rsum_ext _ (fun _ => 0)); [rewrite Rsum_zero; unfold Rdiv; ring|]. intros d Id. unfold good_numbers, len.
    destruct (eqd (nth d (g s) []) t) as [E|_].
    + exfalso. enough (Q t = Q s) by congruence. apply (HQ s t Hs). rewrite <- E. apply nth_In. apply in_seq in Id. lia.
    + destruct (eqd s t); [congruence|]. cbn [fst snd]. lra.
  - destruct Hx as (x & Hx & Qx & _). now apply (conditioned_distribution _ lp _ x Hx).
  - now apply (hamiltonian_converges n op g lp Q G K HK).
Qed.
Lemma ising_averages J h pbc shape lp f : good_shape shape pbc ->
  exists g, symmetric_connectivity (sites_of shape) (ising_operator J h pbc shape) g /\
    forall K, kernel (sites_of shape) (fun s => range (length (g s)))
        (fun s d u => one_chain (hamiltonian_sweep (ising_operator J h pbc shape) lp) ([d], [u]) lp s) K ->
      stochastic (sites_of shape) K /\ averages_converge (sites_of shape) K (fun _ => true) (probability (sites_of shape) lp) f.
Proof.
  intros GS. destruct (ising_sampler_converges J h pbc shape lp GS) as (g & G & HC). exists g. split; [exact G|]. intros K HK.
  destruct (hamiltonian_chain _ _ g lp G) as (K' & HK' & HS' & HB' & _). destruct (kernel_facts _ _ _ K K' _ HK HK' HS' HB') as [HS _].
  split; [exact HS|]. apply complex_average; [exact HS|apply all_stays|apply probability_distribution|now apply HC].
Qed.
(** Chains that have settled in another distribution do not give the mean under [pi]. *)
Lemma over_chains_le n K starts L F G : stochastic n K -> Forall (fun s => In s (spin_configs n)) starts -> (forall ps, F ps <= G ps) ->
  over_chains n K starts L F <= over_chains n K starts L G.
Proof. intros HS Fs H. unfold over_chains. apply Rsum_le. intros ps Hps. apply Rmult_le_compat_l; [now apply (joint_weight_nonneg n K L HS)|apply H]. Qed.
Lemma wrong_limit n K Q rho f v : stochastic n K -> averages_converge n K Q rho f -> v <> Csum (fun s => Cscale (rho s) (f s)) (spin_configs n) ->
  exists delta M, 0 < delta /\ forall starts mask, starts <> [] -> Forall (fun s => In s (spin_configs n) /\ Q s = true) starts -> (M <= recorded mask)%nat ->
    delta <= over_chains n K starts (length mask) (fun ps => Cnorm2 (Cmean_of f (concat (map (picked mask) ps)) - v)%C).
Proof.
  intros HS (a & d & Ha & Hd & B) Nv. set (w := Csum (fun s => Cscale (rho s) (f s)) (spin_configs n)) in *.
  assert (P : 0 < Cnorm2 (v - w)%C).
  { destruct (Rle_lt_or_eq_dec 0 (Cnorm2 (v - w)%C)) as [L|E]; [unfold Cnorm2; nra|exact L|]. exfalso. apply Nv. destruct v as [v1 v2], w as [w1 w2].
    unfold Cnorm2, Cminus, Cplus, Copp in E. cbn [fst snd] in E. symmetry in E. apply Rplus_sqr_eq_0 in E. destruct E as [E1 E2]. f_equal; lra. }
  set (q := Cnorm2 (v - w)%C) in *. destruct (unbounded (4 * (a + d) / q)) as (M & HM). exists (q / 4), (S M). split; [lra|]. intros starts mask NE F HR.
  specialize (B starts mask NE F ltac:(lia)).
  assert (F' : Forall (fun s => In s (spin_configs n)) starts) by (eapply Forall_impl; [|exact F]; cbn; tauto).
  apply Rle_trans with (over_chains n K starts (length mask) (fun ps => q / 2 * 1 + (-1) * Cnorm2 (Cmean_of f (concat (map (picked mask) ps)) - w)%C)).
  - rewrite over_chains_plus, !over_chains_scal, (over_chains_total n K HS) by exact F'.
    assert (Lp : (0 < length starts)%nat) by (destruct starts; [congruence|cbn; lia]).
    set (m := INR (recorded mask)) in *. assert (HM1 : INR M + 1 <= m) by (unfold m; rewrite <- S_INR; apply le_INR; lia). pose proof (pos_INR M).
    assert (C1 : m <= INR (length starts * recorded mask)) by (unfold m; apply le_INR; nia).
    assert (T1 : a / INR (length starts * recorded mask) <= a / m) by (unfold Rdiv; apply Rmult_le_compat_l; [exact Ha|]; apply Rinv_le_contravar; lra).
    assert (T2 : d / m ^ 2 <= d / m) by (unfold Rdiv; apply Rmult_le_compat_l; [exact Hd|]; apply Rinv_le_contravar; [lra|nra]).
    assert (T3 : (a + d) / m <= q / 4).
    { apply (Rmult_le_reg_r m); [lra|]. unfold Rdiv. rewrite Rmult_assoc, Rinv_l, Rmult_1_r by lra.
      apply (Rmult_lt_compat_r q) in HM; [|exact P]. unfold Rdiv in HM. rewrite Rmult_assoc, Rinv_l, Rmult_1_r in HM by lra. nra. }
    unfold Rdiv in *. lra.
  - apply (over_chains_le n); auto. intros ps. set (z := Cmean_of f _). unfold q. destruct z as [z1 z2], v as [v1 v2], w as [w1 w2].
    unfold Cnorm2, Cminus, Cplus, Copp. cbn [fst snd].
    pose proof (Rle_0_sqr (2 * z1 - v1 - w1)) as S1. pose proof (Rle_0_sqr (2 * z2 - v2 - w2)) as S2. unfold Rsqr in S1, S2. nra.
Qed.
(** * Energies *)
Lemma mean_local_energy n H lp : Csum (fun s => Cscale (probability n lp s) (local_energy n H lp s)) (spin_configs n) = expectation n H lp.
Proof.
  unfold expectation, braket. rewrite Cscale_RtoC, <- Csum_scal. apply Csum_ext. intros s _. rewrite Cscale_RtoC. unfold probability, Rdiv. rewrite RtoC_mult. unfold local_energy, born, Cdiv. rewrite <- Cmult_conj.
  transitivity (RtoC (/ norm2 n lp) * (Cconj (Cexp (lp s)) * apply_matrix n H (fun t => Cexp (lp t)) s) * (Cexp (lp s) * Cinv (Cexp (lp s))))%C; [ring|]. rewrite Cmult_inv_r by apply Cexp_nonzero. ring.
Qed.
Lemma independent_nonneg n lp b : 0 <= independent n lp b.
Proof. unfold independent. induction b as [|s b IH]; [cbn; lra|]. rewrite Rprod_cons. apply Rmult_le_pos; [left; apply probability_pos|exact IH]. Qed.
Lemma independent_chance n lp B d F : 0 < d -> (forall b, 0 <= F b) ->
  average_over (independent n lp) n B (fun b => if Rle_dec d (F b) then 1 else 0) <= average_over (independent n lp) n B F / d.
Proof.
  intros Hd HF. unfold average_over, Rdiv. rewrite <- Rsum_scal_r. apply Rsum_le. intros b _. rewrite Rmult_assoc. apply Rmult_le_compat_l; [apply independent_nonneg|].
  apply (Rmult_le_reg_r d); [exact Hd|]. rewrite Rmult_assoc, Rinv_l, Rmult_1_r by lra. destruct (Rle_dec d (F b)); [lra|]. specialize (HF b). lra.
Qed.
Lemma heisenberg_averages shape rot pbc batches H lp f : chain_or_grid shape -> run_calls (heisenberg_init shape rot pbc) batches = Ok H ->
  exists g, symmetric_connectivity (sites_of shape) (heisenberg_operator H) g /\
    forall K m, kernel (sites_of shape) (fun s => range (length (g s)))
        (fun s d u => one_chain (hamiltonian_sweep (heisenberg_operator H) lp) ([d], [u]) lp s) K ->
      (exists s, In s (spin_configs (sites_of shape)) /\ sumZ s = m) ->
      stochastic (sites_of shape) K /\
      averages_converge (sites_of shape) K (fun s => (sumZ s =? m)%Z) (conditioned (sites_of shape) (probability (sites_of shape) lp) (fun s => (sumZ s =? m)%Z)) f.
Proof.
  intros GS EH. destruct (heisenberg_sectors shape rot pbc batches H GS EH) as (g & G & HG). exists g. split; [exact G|].
  intros K m HK HX. destruct (HG m HX) as (A & B & X). now apply (hamiltonian_averages _ (heisenberg_operator H) g lp K (fun s => (sumZ s =? m)%Z) f).
Qed.
