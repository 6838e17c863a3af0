(** Proofs about proposals drawn as a whole: the stationary measure depends on the proposal. *)
From Coq Require Import List ZArith Reals Bool Arith Lia Lra Permutation.
From Verif Require Import Base Cplx LatticeSpec AutoregressiveSpec IsingProofs ObservableModel ObservableSpec ObservableProofs
  ExactModel ExactSpec ExactProofs MetropolisModel MetropolisSpec MetropolisProofs.
Import ListNotations.
Local Open Scope R_scope.

Definition global_step (lp : list Z -> C) (s : list Z) (d : list Z) (u : R) : list Z :=
  one_chain (symmetric_sweep global_candidate lp) ([d], [u]) lp s.

Lemma map_id' (l : list (list Z)) s : map (global_candidate s) l = l.
Proof. unfold global_candidate. apply map_id. Qed.

Section Global.
  Context (n : nat) (lp : list Z -> C) (draws : list (list Z)).
  Context (Hd : draws <> []) (Hc : forall d, In d draws -> In d (spin_configs n)).
  Definition weighted (s : list Z) : R := born (lp s) * INR (occurrences s draws).
  Definition global_kernel : list Z -> list Z -> R := general_kernel (fun _ => draws) global_candidate (sym_accept lp).

  Lemma global_is_kernel : kernel n (fun _ => draws) (global_step lp) global_kernel.
  Proof. apply general_is_kernel; [|intros; apply sym_accept_01]. intros s d u _ _ _. apply sym_step. Qed.
  Lemma global_stochastic : stochastic n global_kernel.
  Proof. apply general_stochastic; auto. intros; apply sym_accept_01. Qed.
  Lemma global_balance : detailed_balance n weighted global_kernel.
  Proof.
    apply general_balance. intros s t Hs Ht N. unfold proposals. rewrite !map_id'.
    pose proof (sym_accept_balance lp s t) as Q. unfold weighted, Rdiv.
    replace (born (lp s) * INR (occurrences s draws) * (INR (occurrences t draws) * / INR (length draws) * sym_accept lp s t))
      with (INR (occurrences s draws) * INR (occurrences t draws) * / INR (length draws) * (born (lp s) * sym_accept lp s t)) by ring.
    rewrite Q. ring.
  Qed.
  Lemma global_chain : exists K, kernel n (fun _ => draws) (global_step lp) K /\ stochastic n K /\
    detailed_balance n weighted K /\ stationary n weighted K.
  Proof.
    exists global_kernel. split; [apply global_is_kernel|]. split; [apply global_stochastic|]. split; [apply global_balance|].
    apply balance_stationary; [apply global_stochastic|apply global_balance].
  Qed.

  Lemma sym_accept_pos s c : 0 < sym_accept lp s c. Proof. apply exp_pos. Qed.
  Lemma global_kernel_pos s t : In s (spin_configs n) -> In t draws -> 0 < global_kernel s t.
  Proof.
    intros Hs Ht. unfold global_kernel, general_kernel. apply Rmult_lt_0_compat; [|apply Rinv_0_lt_compat, INR_length_pos, Hd].
    eapply Rlt_le_trans; [|apply (Rsum_in_le _ _ t)]; [| |exact Ht].
    - cbv beta. unfold good_numbers, global_candidate, len. destruct (eqd t t); [|congruence].
      destruct (eqd s t); cbn [fst snd]; [lra|]. pose proof (sym_accept_pos s t). lra.
    - intros d _. unfold good_numbers, global_candidate, len. pose proof (sym_accept_01 lp s d).
      destruct (eqd d t) as [->|]; destruct (eqd s t); cbn [fst snd]; lra.
  Qed.

  (** Maximum principle. *)
  Lemma argmax (f : list Z -> R) l : l <> [] -> exists m, In m l /\ forall x, In x l -> f x <= f m.
  Proof.
    induction l as [|a l IH]; intros H; [congruence|]. destruct l as [|b l].
    - exists a. split; [now left|]. intros x [<-|[]]. lra.
    - destruct IH as (m & Hm & HM); [discriminate|]. destruct (Rle_lt_dec (f a) (f m)) as [L|L].
      + exists m. split; [now right|]. intros x [<-|Hx]; auto.
      + exists a. split; [now left|]. intros x [<-|Hx]; [lra|]. specialize (HM x Hx). lra.
  Qed.
  Lemma harmonic_constant (K : list Z -> list Z -> R) (f : list Z -> R) : stochastic n K ->
    (forall s t, In s (spin_configs n) -> In t (spin_configs n) -> 0 < K s t) ->
    (forall s, In s (spin_configs n) -> Rsum (fun t => K s t * f t) (spin_configs n) = f s) ->
    forall s t, In s (spin_configs n) -> In t (spin_configs n) -> f s = f t.
  Proof.
    intros HS HP HH. destruct (argmax f (spin_configs n) (spin_configs_nonempty n)) as (m & Hm & HM).
    assert (Z0 : Rsum (fun t => K m t * (f m - f t)) (spin_configs n) = 0).
    { rewrite (Rsum_ext _ (fun t => K m t * f m - K m t * f t)) by (intros; ring). rewrite Rsum_minus, Rsum_scal_r, HH by exact Hm.
      destruct (HS m Hm) as [_ ->]. ring. }
    assert (All : forall s, In s (spin_configs n) -> f s = f m).
    { intros s Hs. assert (Q : K m s * (f m - f s) = 0).
      { apply (Rsum_zero_all (fun t => K m t * (f m - f t)) (spin_configs n)); [|exact Z0|exact Hs].
        intros t Ht. pose proof (HP m t Hm Ht). pose proof (HM t Ht). apply Rmult_le_pos; lra. }
      pose proof (HP m s Hm Hs). apply Rmult_integral in Q. destruct Q; lra. }
    intros s t Hs Ht. now rewrite All, (All t).
  Qed.

  Lemma global_only_uniform K : (forall s, In s (spin_configs n) -> In s draws) ->
    kernel n (fun _ => draws) (global_step lp) K -> stationary n (fun s => born (lp s)) K ->
    forall s t, In s (spin_configs n) -> In t (spin_configs n) -> occurrences s draws = occurrences t draws.
  Proof.
    intros Hall HK HST.
    assert (EK : forall s t, In s (spin_configs n) -> In t (spin_configs n) -> K s t = global_kernel s t).
    { intros s t Hs Ht. eapply transition_unique; [now apply HK|]. now apply global_is_kernel. }
    assert (Pos : forall s, In s (spin_configs n) -> 0 < INR (occurrences s draws)).
    { intros s Hs. apply lt_0_INR. apply count_occ_In. now apply Hall. }
    assert (Hconst : forall s t, In s (spin_configs n) -> In t (spin_configs n) -> / INR (occurrences s draws) = / INR (occurrences t draws)).
    { apply (harmonic_constant global_kernel (fun s => / INR (occurrences s draws))).
      - apply global_stochastic.
      - intros s t Hs Ht. apply global_kernel_pos; auto.
      - intros s Hs. assert (B : 0 < weighted s) by (unfold weighted; apply Rmult_lt_0_compat; [rewrite born_exp; apply exp_pos|now apply Pos]).
        apply (Rmult_eq_reg_l (weighted s)); [|lra]. rewrite <- Rsum_scal.
        rewrite (Rsum_ext _ (fun t => born (lp t) * K t s)).
        + rewrite (HST s Hs). unfold weighted. field. pose proof (Pos s Hs). lra.
        + intros t Ht. rewrite (EK t s Ht Hs). pose proof (global_balance s t Hs Ht) as Q. rewrite <- Rmult_assoc, Q. unfold weighted.
          field. pose proof (Pos t Ht). lra. }
    intros s t Hs Ht. apply INR_eq. pose proof (Hconst s t Hs Ht) as Q. apply (f_equal Rinv) in Q.
    pose proof (Pos s Hs). pose proof (Pos t Ht). rewrite !Rinv_inv in Q. exact Q.
  Qed.

  Lemma global_uniform k K : (0 < k)%nat -> (forall s, In s (spin_configs n) -> occurrences s draws = k) ->
    kernel n (fun _ => draws) (global_step lp) K -> stationary n (fun s => born (lp s)) K.
  Proof.
    intros Hk Hu HK t Ht.
    assert (EK : forall s t, In s (spin_configs n) -> In t (spin_configs n) -> K s t = global_kernel s t).
    { intros s t' Hs Ht'. eapply transition_unique; [now apply HK|]. now apply global_is_kernel. }
    pose proof (balance_stationary n weighted global_kernel global_stochastic global_balance t Ht) as Q.
    assert (P : 0 < INR k) by now apply lt_0_INR.
    apply (Rmult_eq_reg_r (INR k)); [|lra]. rewrite <- Rsum_scal_r.
    rewrite (Rsum_ext _ (fun s => weighted s * global_kernel s t)).
    - rewrite Q. unfold weighted. now rewrite Hu.
    - intros s Hs. rewrite EK by assumption. unfold weighted. rewrite Hu by assumption. ring.
  Qed.
End Global.

Lemma global_refuted :
  exists (n : nat) (lp : list Z -> C) (draws : list (list Z)),
    (forall d, In d draws <-> In d (spin_configs n)) /\
    forall K, kernel n (fun _ => draws) (global_step lp) K -> ~ stationary n (fun s => born (lp s)) K.
Proof.
  exists 1%nat, (fun _ => C0), [[1]; [1]; [-1]]%Z. split.
  - intros d. change (spin_configs 1) with [[1]; [-1]]%Z. cbn [In]. tauto.
  - intros K HK HS. assert (E : occurrences [1]%Z [[1]; [1]; [-1]]%Z = occurrences [-1]%Z [[1]; [1]; [-1]]%Z).
    { apply (global_only_uniform 1 (fun _ => C0) _) with (K := K); auto; change (spin_configs 1) with [[1]; [-1]]%Z; cbn [In];
        try discriminate; try tauto; intros; tauto. }
    vm_compute in E. discriminate.
Qed.

(** Any number of chains with Hamiltonian moves. *)
Lemma hamiltonian_sweep_chain n op g lp ds us st : symmetric_connectivity n op g ->
  sample_machine_values st = map lp (sample st) -> sample st <> [] ->
  (forall s, In s (sample st) -> In s (spin_configs n)) ->
  Forall2 (fun s d => (d < length (g s))%nat) (sample st) ds -> length us = length (sample st) ->
  exists st' k, hamiltonian_sweep op lp (ds, us) st = Ok (st', k) /\
    forall i s d u, nth_error (sample st) i = Some s -> nth_error ds i = Some d -> nth_error us i = Some u -> 0 <= u < 1 ->
      nth_error (sample st') i = Some (one_chain (hamiltonian_sweep op lp) ([d], [u]) lp s).
Proof.
  intros G HV NE HS HF HU. pose proof G as (G1 & G2 & G3). destruct (G1 (sample st) NE HS) as (c & Ec & Hc).
  set (cs := map2 (fun s d => nth d (g s) []) (sample st) ds).
  assert (EC : forall l ds' i, Forall2 (fun s d => (d < length (g s))%nat) l ds' ->
            (forall j s, nth_error l j = Some s -> used_connections c (i + j) = g s /\ In s (spin_configs n)) ->
            candidates_loop c i ds' = Ok (map2 (fun s d => nth d (g s) []) l ds')).
  { intros l ds' i F. revert i. induction F as [|s d l ds' Hsd F IH]; intros i Hl; [reflexivity|]. cbn [candidates_loop map2].
    destruct (Hl 0%nat s eq_refl) as [U0 I0]. rewrite Nat.add_0_r in U0. unfold hamiltonian_candidate. rewrite U0.
    destruct (g s) as [|x gs] eqn:Eg; [cbn in Hsd; lia|]. rewrite (nth_error_nth' (x :: gs) []) by exact Hsd. cbn [bind].
    rewrite IH; [reflexivity|]. intros j s' Hj. replace (S i + j)%nat with (i + S j)%nat by lia. now apply Hl. }
  assert (EC0 : candidates_loop c 0 ds = Ok cs).
  { apply EC; [exact HF|]. intros j s Hj. split; [now apply Hc|]. apply HS. eapply nth_error_In; eauto. }
  assert (HCS : forall i s d, nth_error (sample st) i = Some s -> nth_error ds i = Some d ->
            nth_error cs i = Some (nth d (g s) []) /\ (d < length (g s))%nat).
  { intros i s d H1 H2. split; [unfold cs; rewrite nth_error_map2, H1, H2; reflexivity|].
    clear - HF H1 H2. revert i H1 H2. induction HF as [|s' d' l ds' Hsd F IH]; intros [|i] H1 H2; cbn [nth_error] in *; try discriminate.
    - injection H1 as <-. injection H2 as <-. exact Hsd.
    - eapply IH; eauto. }
  destruct (G1 cs) as (c' & Ec' & Hc').
  { unfold cs. destruct HF; [congruence|discriminate]. }
  { intros y Hy. apply In_nth_error in Hy. destruct Hy as (i & Hi). unfold cs in Hi. rewrite nth_error_map2 in Hi.
    destruct (nth_error (sample st) i) as [s|] eqn:Es; [|discriminate]. destruct (nth_error ds i) as [d|] eqn:Ed; [|discriminate]. injection Hi as <-.
    apply (proj2 (G2 s (HS s (nth_error_In _ _ Es)))). apply nth_In. now apply (HCS i s d). }
  eexists _, _. split.
  { unfold hamiltonian_sweep. cbn [fst snd]. rewrite Ec. cbn [bind]. rewrite EC0. cbn [bind]. rewrite Ec'. cbn [bind]. reflexivity. }
  intros i s d u Hs Hd Hu H01. destruct (HCS i s d Hs Hd) as [Hy Hlt].
  rewrite (ham_step n op g lp G s d u); [|apply HS; eapply nth_error_In; eauto|apply in_seq; lia|exact H01].
  set (y := nth d (g s) []) in *. cbn [sample].
  destruct (Hc i s Hs) as [_ N1]. destruct (Hc' i y Hy) as [_ N2].
  assert (Hcomb : forall {A B} (l1 : list A) (l2 : list B) a b, nth_error l1 i = Some a -> nth_error l2 i = Some b -> nth_error (combine l1 l2) i = Some (a, b)).
  { clear. intros A B. induction i as [|i IH]; intros [|x l1] [|z l2] a b H1 H2; cbn [nth_error combine] in *; try discriminate; [congruence|]. now apply IH. }
  assert (Hrange : nth_error (range (length (sample st))) i = Some i).
  { unfold range. rewrite (nth_error_nth' _ 0%nat) by (rewrite seq_length; apply nth_error_Some; congruence). rewrite seq_nth; [reflexivity|]. apply nth_error_Some. congruence. }
  assert (Hacc : nth_error (map2 (fun x u => hamiltonian_accepts (fst (fst x)) (snd (fst x)) (fst (snd x)) (snd (snd x)) u)
     (combine (combine (map (fun i => count_true (at_sample i false (uses c))) (range (length (sample st))))
                 (map (fun i => count_true (at_sample i false (uses c'))) (range (length (sample st)))))
        (combine (map lp cs) (sample_machine_values st))) us) i =
     Some (hamiltonian_accepts (length (g s)) (length (g y)) (lp y) (lp s) u)).
  { rewrite nth_error_map2. rewrite HV.
    rewrite (Hcomb _ _ _ _ (length (g s), length (g y)) (lp y, lp s)).
    - rewrite Hu. reflexivity.
    - apply Hcomb; rewrite (map_nth_error _ _ _ Hrange); congruence.
    - apply Hcomb; now apply map_nth_error. }
  assert (MA : forall m (new old : list (list Z)) i a b v, nth_error m i = Some v -> nth_error new i = Some a -> nth_error old i = Some b ->
            nth_error (masked_assign m new old) i = Some (if v then a else b)).
  { clear. induction m as [|x m IH]; intros [|y new] [|z old] [|i] a b v Hm Hn Ho; cbn [nth_error masked_assign] in *; try discriminate.
    - injection Hm as ->. injection Hn as ->. injection Ho as ->. destruct v; reflexivity.
    - eapply IH; eauto. }
  rewrite (MA _ _ _ _ _ _ _ Hacc Hy Hs). f_equal.
  unfold hamiltonian_accepts. assert (Hy' : In y (spin_configs n)).
  { apply (proj2 (G2 s (HS s (nth_error_In _ _ Hs)))). now apply nth_In. }
  pose proof (g_pos n op g G y Hy') as Py. destruct (Nat.eqb_spec (length (g y)) 0) as [E|_]; [rewrite E in Py; cbn in Py; lra|].
  unfold ham_accept, ham_ratio, Rmin. set (r := exp _). clearbody r.
  destruct (Rle_dec r 1); destruct (Rlt_dec u r); auto; [destruct (Rlt_dec u 1); [reflexivity|lra]|lra].
Qed.
