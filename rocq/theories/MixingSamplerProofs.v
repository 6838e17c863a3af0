(** Convergence of the Metropolis samplers. *)
From Coq Require Import List ZArith Reals Bool Arith Lia Lra Permutation.
From Verif Require Import Base Cplx LatticeSpec AutoregressiveSpec IsingModel IsingProofs ObservableModel ObservableSpec ObservableProofs TopologyProofs
  ExactModel ExactSpec ExactProofs ExactSamplerProofs MetropolisModel MetropolisSpec MetropolisProofs MetropolisGlobalProofs MetropolisUniqueProofs
  MonteCarloProofs MixingSpec MixingProofs.
Import ListNotations.
Local Open Scope R_scope.

Lemma kernel_facts {D} n (draws : list Z -> list D) step K K' pi : kernel n draws step K -> kernel n draws step K' ->
  stochastic n K' -> detailed_balance n pi K' -> stochastic n K /\ detailed_balance n pi K.
Proof.
  intros HK HK' HS HB.
  assert (E : forall s t, In s (spin_configs n) -> In t (spin_configs n) -> K' s t = K s t).
  { intros s t Hs Ht. eapply transition_unique; [now apply HK'|now apply HK]. }
  split.
  - intros s Hs. destruct (HS s Hs) as [A B]. split; [intros t Ht; rewrite <- E by assumption; now apply A|].
    rewrite <- B. apply Rsum_ext. intros t Ht. symmetry. now apply E.
  - intros s t Hs Ht. rewrite <- !E by assumption. now apply HB.
Qed.

Lemma probability_pos n lp s : 0 < probability n lp s.
Proof. unfold probability. apply Rdiv_lt_0_compat; [rewrite born_exp; apply exp_pos|apply norm2_pos]. Qed.
Lemma probability_distribution n lp : distribution n (probability n lp).
Proof. split; [intros s _; left; apply probability_pos|apply Rsum_probability_configs]. Qed.

Lemma weight_all n pi : weight n pi (fun _ => true) = Rsum pi (spin_configs n).
Proof. reflexivity. Qed.

Section Conditioned.
  Context (n : nat) (lp : list Z -> C) (Q : list Z -> bool).
  Local Notation p := (probability n lp).
  Lemma weight_pos x : In x (spin_configs n) -> Q x = true -> 0 < weight n p Q.
  Proof.
    intros Hx Qx. unfold weight. eapply Rlt_le_trans; [|apply (Rsum_in_le _ _ x)]; [| |exact Hx].
    - cbv beta. rewrite Qx. apply probability_pos.
    - intros y _. destruct (Q y); [left; apply probability_pos|lra].
  Qed.
  Lemma conditioned_distribution x : In x (spin_configs n) -> Q x = true -> distribution n (conditioned n p Q).
  Proof.
    intros Hx Qx. pose proof (weight_pos x Hx Qx) as W. split.
    - intros s _. unfold conditioned. destruct (Q s); [|lra]. left. apply Rdiv_lt_0_compat; [apply probability_pos|exact W].
    - rewrite (Rsum_ext _ (fun s => (if Q s then p s else 0) * / weight n p Q)).
      + rewrite Rsum_scal_r. fold (weight n p Q). field. lra.
      + intros s _. unfold conditioned. destruct (Q s); unfold Rdiv; ring.
  Qed.
  Lemma conditioned_balance K : (forall s t, In s (spin_configs n) -> In t (spin_configs n) -> Q s <> Q t -> K s t = 0) ->
    detailed_balance n (fun s => born (lp s)) K -> detailed_balance n (conditioned n p Q) K.
  Proof.
    intros HC HB s t Hs Ht. unfold conditioned. specialize (HB s t Hs Ht). cbv beta in HB. set (w := weight n p Q). clearbody w. unfold probability, Rdiv.
    destruct (Q s) eqn:Es, (Q t) eqn:Et.
    - replace (born (lp s) * / norm2 n lp * / w * K s t) with (born (lp s) * K s t * (/ norm2 n lp * / w)) by ring.
      rewrite HB. ring.
    - rewrite (HC s t) by congruence || assumption. ring.
    - rewrite (HC t s) by congruence || assumption. ring.
    - ring.
  Qed.
End Conditioned.

Lemma conditioned_all n lp s : conditioned n (probability n lp) (fun _ => true) s = probability n lp s.
Proof. unfold conditioned. rewrite weight_all. rewrite Rsum_probability_configs. field. Qed.

Lemma kernel_converges n lp K Q : stochastic n K -> detailed_balance n (fun s => born (lp s)) K ->
  (forall s t, In s (spin_configs n) -> In t (spin_configs n) -> Q s <> Q t -> K s t = 0) ->
  (forall P : list Z -> Prop, (forall s t, In s (spin_configs n) -> In t (spin_configs n) -> 0 < K s t -> P s -> P t) ->
     forall s t, In s (spin_configs n) -> In t (spin_configs n) -> Q s = true -> Q t = true -> P s -> P t) ->
  (exists x, In x (spin_configs n) /\ Q x = true /\ 0 < K x x) ->
  converges_within n K Q (conditioned n (probability n lp) Q).
Proof.
  intros HS HB HC HR HX. destruct HX as (x & Hx & Qx & Hl).
  apply (converges n K (conditioned n (probability n lp) Q) Q HS); auto.
  - now apply (conditioned_distribution n lp Q x).
  - intros s t Hs Ht A B. apply HC; congruence || assumption.
  - intros s Hs Qs. unfold conditioned. rewrite Qs. apply Rdiv_lt_0_compat; [apply probability_pos|now apply (weight_pos n lp Q x)].
  - intros s Hs Qs. unfold conditioned. now rewrite Qs.
  - now apply conditioned_balance.
  - exists x. auto.
Qed.

Lemma converges_all n lp K : converges_within n K (fun _ => true) (conditioned n (probability n lp) (fun _ => true)) ->
  converges_within n K (fun _ => true) (probability n lp).
Proof.
  intros (N & eps & HN & HE & H). exists N, eps. split; [exact HN|]. split; [exact HE|]. intros mu k HM HW. specialize (H mu k HM HW).
  unfold distance in *. rewrite (Rsum_ext _ (fun s => Rabs (after n K (k * N) mu s - conditioned n (probability n lp) (fun _ => true) s))); [exact H|].
  intros s _. now rewrite conditioned_all.
Qed.

(** * Samplers with symmetric proposals *)
Section Symmetric.
  Context {D : Type} (cand : list Z -> D -> list Z) (lp : list Z -> C) (n : nat) (draws : list D) (Q : list Z -> bool).
  Context (Hd : draws <> []) (Hc : forall s d, In s (spin_configs n) -> In d draws -> In (cand s d) (spin_configs n)).
  Context (Hsym : forall s t, In s (spin_configs n) -> In t (spin_configs n) ->
             occurrences t (map (cand s) draws) = occurrences s (map (cand t) draws)).
  Context (K : list Z -> list Z -> R).
  Context (HK : kernel n (fun _ => draws) (fun s d u => one_chain (symmetric_sweep cand lp) ([d], [u]) lp s) K).

  Lemma symmetric_facts : stochastic n K /\ detailed_balance n (fun s => born (lp s)) K.
  Proof. destruct (symmetric_chain cand lp n draws Hd Hc Hsym) as (K' & HK' & HS & HB & _). now apply (kernel_facts n _ _ K K' _ HK HK'). Qed.
  Lemma symmetric_kernel s t : In s (spin_configs n) -> In t (spin_configs n) ->
    K s t = general_kernel (fun _ => draws) cand (sym_accept lp) s t.
  Proof.
    assert (HK0 : kernel n (fun _ => draws) (fun s d u => one_chain (symmetric_sweep cand lp) ([d], [u]) lp s)
                    (general_kernel (fun _ => draws) cand (sym_accept lp))).
    { apply general_is_kernel; [|intros; apply sym_accept_01]. intros s' d u _ _ _. apply sym_step. }
    intros Hs Ht. eapply transition_unique; [now apply HK|now apply HK0].
  Qed.

  Lemma symmetric_stays x d : In x (spin_configs n) -> In d draws -> cand x d = x \/ born (lp (cand x d)) < born (lp x) -> 0 < K x x.
  Proof.
    intros Hx Id HX. rewrite symmetric_kernel by assumption. unfold general_kernel.
    apply Rmult_lt_0_compat; [|apply Rinv_0_lt_compat, INR_length_pos, Hd].
    eapply Rlt_le_trans; [|apply (Rsum_in_le _ _ d)]; [| |exact Id].
    - cbv beta. unfold good_numbers, len. destruct (eqd x x); [|congruence]. destruct (eqd (cand x d) x) as [E|E]; cbn [fst snd]; [lra|].
      destruct HX as [HX|HX]; [congruence|]. rewrite !born_exp in HX. apply exp_lt_inv in HX. unfold sym_accept.
      assert (L : exp (Rmin ((Re (lp (cand x d)) - Re (lp x)) * 2) 0) < exp 0).
      { apply exp_increasing. eapply Rle_lt_trans; [apply Rmin_l|]. lra. }
      rewrite exp_0 in L. lra.
    - intros d' _. unfold good_numbers, len. pose proof (sym_accept_01 lp x (cand x d')).
      destruct (eqd x x); [|congruence]. destruct (eqd (cand x d') x); cbn [fst snd]; lra.
  Qed.

  Lemma symmetric_converges :
    (forall s d, In s (spin_configs n) -> In d draws -> Q (cand s d) = Q s) ->
    (forall P : list Z -> Prop, (forall s d, In s (spin_configs n) -> In d draws -> P s -> P (cand s d)) ->
       forall s t, In s (spin_configs n) -> In t (spin_configs n) -> Q s = true -> Q t = true -> P s -> P t) ->
    (exists x d, In x (spin_configs n) /\ In d draws /\ Q x = true /\ (cand x d = x \/ born (lp (cand x d)) < born (lp x))) ->
    converges_within n K Q (conditioned n (probability n lp) Q).
  Proof.
    intros HQ HR (x & d & Hx & Id & Qx & HX). destruct symmetric_facts as [HS HB]. apply kernel_converges; auto.
    - intros s t Hs Ht N. rewrite symmetric_kernel by assumption. unfold general_kernel.
      rewrite (Rsum_ext _ (fun _ => 0)); [rewrite Rsum_zero; unfold Rdiv; ring|]. intros d' Id'. unfold good_numbers, len.
      destruct (eqd (cand s d') t) as [E|_]; [exfalso; apply N; rewrite <- E; now rewrite HQ|].
      destruct (eqd s t); [congruence|]. cbn [fst snd]. lra.
    - intros P HP. apply HR. intros s d' Hs Id'. apply HP; auto. rewrite symmetric_kernel by auto. now apply (proposed_pos cand lp n).
    - exists x. split; [exact Hx|]. split; [exact Qx|]. now apply (symmetric_stays x d).
  Qed.
End Symmetric.

(** * Uniform proposals: an explicit rate *)
Lemma spin_configs_length n : length (spin_configs n) = (2 ^ n)%nat.
Proof. rewrite <- (Permutation_length (basis_perm n)). apply basis_length. Qed.

Lemma sym_accept_ge lp M s t : born (lp s) <= M -> born (lp t) <= M -> born (lp t) / M <= sym_accept lp s t.
Proof.
  intros Hs Ht. assert (Ps : 0 < born (lp s)) by (rewrite born_exp; apply exp_pos). assert (Pt : 0 < born (lp t)) by (rewrite born_exp; apply exp_pos).
  unfold sym_accept, Rmin. destruct (Rle_dec _ _).
  - replace ((Re (lp t) - Re (lp s)) * 2) with (Re (lp t) * 2 - Re (lp s) * 2) by ring. unfold Rminus. rewrite exp_plus, exp_Ropp, <- !born_exp.
    apply Rmult_le_compat_l; [lra|]. now apply Rinv_le_contravar.
  - rewrite exp_0. apply Rmult_le_reg_r with M; [lra|]. unfold Rdiv. rewrite Rmult_assoc, Rinv_l by lra. lra.
Qed.

Lemma uniform_minorised n lp M K : (forall s, In s (spin_configs n) -> probability n lp s <= M) ->
  kernel n (fun _ => spin_configs n) (fun s d u => one_chain (symmetric_sweep global_candidate lp) ([d], [u]) lp s) K ->
  forall s t, In s (spin_configs n) -> In t (spin_configs n) -> / (INR (2 ^ n) * M) * probability n lp t <= K s t.
Proof.
  intros HM HK s t Hs Ht. rewrite (symmetric_kernel global_candidate lp n (spin_configs n) K HK s t Hs Ht). unfold general_kernel.
  rewrite spin_configs_length. assert (P2 : 0 < INR (2 ^ n)) by (apply lt_0_INR; pose proof (Nat.pow_nonzero 2 n); lia).
  pose proof (norm2_pos n lp) as PN. pose proof (probability_pos n lp t) as Pt. pose proof (HM t Ht) as HMt.
  assert (L : probability n lp t / M <= Rsum (fun d => len (good_numbers global_candidate (sym_accept lp) s t d)) (spin_configs n)).
  { eapply Rle_trans; [|apply (Rsum_in_le _ _ t)]; [| |exact Ht].
    - cbv beta. unfold good_numbers, len, global_candidate. destruct (eqd t t); [|congruence]. destruct (eqd s t); cbn [fst snd].
      + apply Rmult_le_reg_r with M; [lra|]. unfold Rdiv. rewrite Rmult_assoc, Rinv_l by lra. lra.
      + rewrite Rminus_0_r.
        assert (B : forall x, In x (spin_configs n) -> born (lp x) <= M * norm2 n lp).
        { intros x Hx. specialize (HM x Hx). unfold probability, Rdiv in HM. apply Rmult_le_reg_r with (/ norm2 n lp); [now apply Rinv_0_lt_compat|].
          rewrite Rmult_assoc, Rinv_r by lra. lra. }
        eapply Rle_trans; [|apply (sym_accept_ge lp (M * norm2 n lp) s t (B s Hs) (B t Ht))]. unfold probability. right. field. lra.
    - intros d _. unfold good_numbers, len. pose proof (sym_accept_01 lp s (global_candidate s d)).
      destruct (eqd (global_candidate s d) t) as [E|]; [rewrite E in *|]; destruct (eqd s t); cbn [fst snd]; lra. }
  apply Rmult_le_compat_r with (r := / INR (2 ^ n)) in L; [|left; now apply Rinv_0_lt_compat].
  eapply Rle_trans; [|exact L]. right. field. lra.
Qed.

Lemma max_probability n lp M : (forall s, In s (spin_configs n) -> probability n lp s <= M) -> 0 < / (INR (2 ^ n) * M) <= 1.
Proof.
  intros HM. assert (P2 : 0 < INR (2 ^ n)) by (apply lt_0_INR; pose proof (Nat.pow_nonzero 2 n); lia).
  assert (L : 1 <= INR (2 ^ n) * M).
  { rewrite <- (Rsum_probability_configs n lp). rewrite <- spin_configs_length, <- Rsum_const. now apply Rsum_le. }
  split; [apply Rinv_0_lt_compat; lra|]. rewrite <- Rinv_1. apply Rinv_le_contravar; lra.
Qed.

Lemma uniform_facts n lp K :
  kernel n (fun _ => spin_configs n) (fun s d u => one_chain (symmetric_sweep global_candidate lp) ([d], [u]) lp s) K ->
  stochastic n K /\ stationary n (probability n lp) K.
Proof.
  intros HK. destruct (symmetric_facts global_candidate lp n (spin_configs n) (spin_configs_nonempty n)) with (K := K) as [HS HB]; auto.
  - intros s t Hs Ht. rewrite !map_id'. now rewrite !occurrences_configs.
  - split; [exact HS|]. intros t Ht. unfold probability, Rdiv.
    rewrite (Rsum_ext _ (fun s => (born (lp s) * K s t) * / norm2 n lp)) by (intros; ring). rewrite Rsum_scal_r.
    now rewrite (balance_stationary n _ K HS HB t Ht).
Qed.

Lemma uniform_converges n lp M K mu k : (forall s, In s (spin_configs n) -> probability n lp s <= M) ->
  kernel n (fun _ => spin_configs n) (fun s d u => one_chain (symmetric_sweep global_candidate lp) ([d], [u]) lp s) K ->
  distribution n mu -> distance n (after n K k mu) (probability n lp) <= 2 * (1 - / (INR (2 ^ n) * M)) ^ k.
Proof.
  intros HM HK Hmu. destruct (uniform_facts n lp K HK) as [HS HP].
  apply (doeblin n K (probability n lp) HS (probability_distribution n lp) HP (fun _ => true)); auto; try discriminate.
  - pose proof (max_probability n lp M HM). lra.
  - intros s t Hs Ht _. now apply (uniform_minorised n lp M K HM HK).
Qed.

(** * Local moves *)
Lemma local_converges shape lp K : Forall (fun m => (0 < m)%nat) shape ->
  (exists s t, In s (spin_configs (sites_of shape)) /\ In t (spin_configs (sites_of shape)) /\ born (lp s) <> born (lp t)) ->
  kernel (sites_of shape) (fun _ => sites shape)
    (fun s d u => one_chain (symmetric_sweep (local_candidate shape) lp) ([d], [u]) lp s) K ->
  converges_within (sites_of shape) K (fun _ => true) (probability (sites_of shape) lp).
Proof.
  intros F (s & t & Hs & Ht & Ne) HK. apply converges_all.
  apply (symmetric_converges (local_candidate shape) lp (sites_of shape) (sites shape) (fun _ => true)); auto.
  - now apply sites_nonempty.
  - apply local_spins.
  - apply involution_symmetric. intros s' d _ _. apply local_involution.
  - intros P HP x y Hx Hy _ _. exact (local_reach shape P HP x y Hx Hy).
  - set (L := list_prod (spin_configs (sites_of shape)) (sites shape)).
    destruct (Exists_dec (fun xd => born (lp (local_candidate shape (fst xd) (snd xd))) < born (lp (fst xd))) L) as [E|N].
    + intros [x d]. apply Rlt_dec.
    + apply Exists_exists in E. destruct E as ([x d] & Hxd & E). apply in_prod_iff in Hxd. exists x, d. cbn [fst snd] in E. tauto.
    + exfalso. apply Ne. symmetry.
      assert (G : forall x d, In x (spin_configs (sites_of shape)) -> In d (sites shape) -> born (lp x) <= born (lp (local_candidate shape x d))).
      { intros x d Hx Hd. apply Rnot_lt_le. intros L1. apply N. apply Exists_exists. exists (x, d). split; [now apply in_prod_iff|exact L1]. }
      apply (local_reach shape (fun x => born (lp x) = born (lp s))) with (s := s); auto.
      intros x d Hx Hd Ex. rewrite <- Ex. apply Rle_antisym; [|now apply G].
      rewrite <- (local_involution shape x d) at 2. apply G; [now apply local_spins|exact Hd].
Qed.

(** * Equal amplitudes: local moves alternate for ever *)
Lemma parity_upd (s : list Z) : forall p, (p < length s)%nat -> parity (upd s p (nth p s 0 * -1)%Z) = (- parity s)%Z.
Proof.
  induction s as [|a s IH]; intros [|p] H; cbn [length] in H; try lia; cbn [upd nth].
  - unfold parity. cbn [fold_right]. ring.
  - specialize (IH p ltac:(lia)). unfold parity in *. cbn [fold_right]. rewrite IH. ring.
Qed.
Lemma parity_local shape s d : In s (spin_configs (sites_of shape)) -> In d (sites shape) ->
  parity (local_candidate shape s d) = (- parity s)%Z.
Proof.
  intros Hs Hd. apply spins_in in Hs. destruct Hs as [L _]. unfold local_candidate. apply parity_upd. rewrite L. now apply sites_lt.
Qed.
Lemma parity_spin n s : In s (spin_configs n) -> (parity s = 1 \/ parity s = -1)%Z.
Proof.
  intros H. apply spins_in in H. destruct H as [_ F]. induction F as [|a s Ha F IH]; [now left|]. unfold parity in *. cbn [fold_right].
  destruct Ha as [-> | ->], IH as [-> | ->]; [left|right|right|left]; reflexivity.
Qed.

Definition even (q : Z) (s : list Z) : bool := (parity s =? q)%Z.

Lemma weight_alternates n K mu q : stochastic n K ->
  (forall s t, In s (spin_configs n) -> In t (spin_configs n) -> K s t <> 0 -> parity t = (- parity s)%Z) ->
  weight n (after n K 1 mu) (even q) = weight n mu (even (- q)).
Proof.
  intros HS HP. unfold weight. cbn [after].
  rewrite (Rsum_ext _ (fun t => Rsum (fun s => (if even (- q) s then mu s else 0) * K s t) (spin_configs n))).
  - rewrite Rsum_exchange. apply Rsum_ext. intros s Hs. rewrite Rsum_scal. destruct (HS s Hs) as [_ ->]. ring.
  - intros t Ht. destruct (even q t) eqn:Et.
    + apply Rsum_ext. intros s Hs. destruct (Req_dec (K s t) 0) as [->|Nz]; [ring|]. specialize (HP s t Hs Ht Nz).
      unfold even in *. apply Z.eqb_eq in Et. replace (parity s =? - q)%Z with true; [reflexivity|]. symmetry. apply Z.eqb_eq. lia.
    + symmetry. rewrite (Rsum_ext _ (fun _ => 0)); [apply Rsum_zero|]. intros s Hs. destruct (Req_dec (K s t) 0) as [->|Nz]; [ring|].
      specialize (HP s t Hs Ht Nz). unfold even in *. apply Z.eqb_neq in Et. replace (parity s =? - q)%Z with false; [ring|]. symmetry. apply Z.eqb_neq. lia.
Qed.

Lemma local_kernel_parity shape lp K : Forall (fun m => (0 < m)%nat) shape ->
  (forall s t, In s (spin_configs (sites_of shape)) -> In t (spin_configs (sites_of shape)) -> born (lp s) = born (lp t)) ->
  kernel (sites_of shape) (fun _ => sites shape)
    (fun s d u => one_chain (symmetric_sweep (local_candidate shape) lp) ([d], [u]) lp s) K ->
  stochastic (sites_of shape) K /\ detailed_balance (sites_of shape) (fun s => born (lp s)) K /\
  forall s t, In s (spin_configs (sites_of shape)) -> In t (spin_configs (sites_of shape)) -> K s t <> 0 -> parity t = (- parity s)%Z.
Proof.
  intros F HE HK.
  destruct (symmetric_facts (local_candidate shape) lp (sites_of shape) (sites shape) (sites_nonempty shape F) (local_spins shape)) with (K := K) as [HS HB]; auto.
  { apply involution_symmetric. intros s' d _ _. apply local_involution. }
  split; [exact HS|]. split; [exact HB|]. intros s t Hs Ht Nz. destruct (Z.eq_dec (parity t) (- parity s)) as [E|N]; [exact E|]. exfalso. apply Nz.
  rewrite (symmetric_kernel (local_candidate shape) lp (sites_of shape) (sites shape) K HK s t Hs Ht). unfold general_kernel.
  rewrite (Rsum_ext _ (fun _ => 0)); [rewrite Rsum_zero; unfold Rdiv; ring|]. intros d Hd. unfold good_numbers, len.
  pose proof (parity_local shape s d Hs Hd) as PL.
  destruct (eqd (local_candidate shape s d) t) as [E|_]; [congruence|]. destruct (eqd s t) as [E|_]; cbn [fst snd]; [|lra].
  unfold sym_accept. pose proof (HE s (local_candidate shape s d) Hs (local_spins shape s d Hs Hd)) as Q. rewrite !born_exp in Q. apply exp_inv in Q.
  replace ((Re (lp (local_candidate shape s d)) - Re (lp s)) * 2) with 0 by lra. unfold Rmin. destruct (Rle_dec 0 0); rewrite exp_0; lra.
Qed.

Lemma weight_split n mu q : distribution n mu -> (q = 1 \/ q = -1)%Z -> weight n mu (even q) + weight n mu (even (- q)) = 1.
Proof.
  intros [_ H] Hq. rewrite <- H. unfold weight. rewrite <- Rsum_plus. apply Rsum_ext. intros s Hs. pose proof (parity_spin n s Hs) as P. unfold even.
  destruct (Z.eqb_spec (parity s) q), (Z.eqb_spec (parity s) (- q)); try lra; exfalso; lia.
Qed.

Lemma weight_distance n mu nu P : Rabs (weight n mu P - weight n nu P) <= Rsum (fun s => if P s then Rabs (mu s - nu s) else 0) (spin_configs n).
Proof.
  unfold weight. rewrite <- Rsum_minus. eapply Rle_trans; [apply Rabs_Rsum'|]. apply Rsum_le. intros s _. destruct (P s); [lra|].
  rewrite Rminus_0_r, Rabs_R0. lra.
Qed.

Lemma parity_after n K s k : stochastic n K -> In s (spin_configs n) ->
  (forall s t, In s (spin_configs n) -> In t (spin_configs n) -> K s t <> 0 -> parity t = (- parity s)%Z) ->
  weight n (after n K k (starts_in s)) (even (parity s * (-1) ^ Z.of_nat k)) = 1.
Proof.
  intros HS Hs HP. induction k as [|k IH].
  - cbn [after]. change (Z.of_nat 0) with 0%Z. rewrite Z.pow_0_r, Z.mul_1_r. unfold weight.
    rewrite (Rsum_ext _ (fun t => if eqd s t then (fun _ => 1) t else 0)).
    + now rewrite (Rsum_single eqd (fun _ => 1) s _ (NoDup_spin_configs n) Hs).
    + intros t _. unfold even, starts_in, eqd. destruct (list_eq_dec Z.eq_dec t s) as [->|N], (list_eq_dec Z.eq_dec s _) as [E|N']; try congruence.
      * now rewrite Z.eqb_refl.
      * now destruct (parity t =? parity s)%Z.
  - change (after n K (S k) (starts_in s)) with (after n K 1 (after n K k (starts_in s))).
    rewrite weight_alternates by assumption. rewrite <- IH. f_equal. f_equal. rewrite Nat2Z.inj_succ, Z.pow_succ_r by lia. ring.
Qed.

Lemma stationary_half n K pi : stochastic n K -> distribution n pi -> stationary n pi K ->
  (forall s t, In s (spin_configs n) -> In t (spin_configs n) -> K s t <> 0 -> parity t = (- parity s)%Z) ->
  weight n pi (even 1) = / 2 /\ weight n pi (even (-1)) = / 2.
Proof.
  intros HS HD HP HA. pose proof (weight_split n pi 1 HD (or_introl eq_refl)) as Sp. change (- (1))%Z with (-1)%Z in Sp.
  assert (E : weight n (after n K 1 pi) (even 1) = weight n pi (even 1)).
  { unfold weight. apply Rsum_ext. intros t Ht. cbn [after]. now rewrite (HP t Ht). }
  rewrite (weight_alternates n K pi 1 HS HA) in E. change (- (1))%Z with (-1)%Z in E. lra.
Qed.

Lemma local_periodic shape lp K s k : Forall (fun m => (0 < m)%nat) shape ->
  (forall s t, In s (spin_configs (sites_of shape)) -> In t (spin_configs (sites_of shape)) -> born (lp s) = born (lp t)) ->
  kernel (sites_of shape) (fun _ => sites shape)
    (fun s d u => one_chain (symmetric_sweep (local_candidate shape) lp) ([d], [u]) lp s) K ->
  In s (spin_configs (sites_of shape)) ->
  weight (sites_of shape) (after (sites_of shape) K k (starts_in s)) (fun t => (parity t =? parity s * (-1) ^ Z.of_nat k)%Z) = 1 /\
  1 <= distance (sites_of shape) (after (sites_of shape) K k (starts_in s)) (probability (sites_of shape) lp).
Proof.
  intros F HE HK Hs. destruct (local_kernel_parity shape lp K F HE HK) as (HS & HB & HA). set (n := sites_of shape) in *.
  pose proof (parity_after n K s k HS Hs HA) as W. split; [exact W|].
  assert (HP : stationary n (probability n lp) K).
  { intros t Ht. unfold probability, Rdiv.
    rewrite (Rsum_ext _ (fun s => (born (lp s) * K s t) * / norm2 n lp)) by (intros; ring). rewrite Rsum_scal_r.
    now rewrite (balance_stationary n _ K HS HB t Ht). }
  destruct (stationary_half n K _ HS (probability_distribution n lp) HP HA) as [H1 H2].
  set (mu := after n K k (starts_in s)) in *.
  assert (Dm : distribution n mu) by (apply after_distribution; [exact HS|now apply starts_in_distribution]).
  assert (Q : forall q, (q = 1 \/ q = -1)%Z -> weight n mu (even q) = 1 -> 1 <= distance n mu (probability n lp)).
  { intros q Hq Wq. pose proof (weight_split n mu q Dm Hq) as Sp.
    pose proof (weight_distance n mu (probability n lp) (even q)) as D1. pose proof (weight_distance n mu (probability n lp) (even (- q))) as D2.
    assert (E : distance n mu (probability n lp) = Rsum (fun x => if even q x then Rabs (mu x - probability n lp x) else 0) (spin_configs n) +
                Rsum (fun x => if even (- q) x then Rabs (mu x - probability n lp x) else 0) (spin_configs n)).
    { unfold distance. rewrite <- Rsum_plus. apply Rsum_ext. intros x Hx. pose proof (parity_spin n x Hx). unfold even.
      destruct (Z.eqb_spec (parity x) q), (Z.eqb_spec (parity x) (- q)); try lra; exfalso; lia. }
    assert (P1 : weight n (probability n lp) (even q) = / 2) by (destruct Hq as [-> | ->]; assumption).
    assert (P2 : weight n (probability n lp) (even (- q)) = / 2) by (destruct Hq as [-> | ->]; assumption).
    rewrite P1, Wq in D1. rewrite P2 in D2. replace (weight n mu (even (- q))) with 0 in D2 by lra.
    replace (Rabs (1 - / 2)) with (/ 2) in D1 by (rewrite Rabs_right; lra). replace (Rabs (0 - / 2)) with (/ 2) in D2 by (rewrite Rabs_left; lra). lra. }
  assert (Hq : (parity s * (-1) ^ Z.of_nat k = 1 \/ parity s * (-1) ^ Z.of_nat k = -1)%Z).
  { clear - Hs. pose proof (parity_spin n s Hs) as P. induction k as [|k IH]; [change (Z.of_nat 0) with 0%Z; rewrite Z.pow_0_r; lia|].
    rewrite Nat2Z.inj_succ, Z.pow_succ_r by lia. lia. }
  exact (Q _ Hq W).
Qed.
