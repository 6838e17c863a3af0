(** The local and the uniform sampler have no other stationary measure than multiples of |psi|^2. *)
From Coq Require Import List ZArith Reals Bool Arith Lia Lra Permutation.
From Verif Require Import Base Cplx LatticeSpec AutoregressiveSpec IsingProofs ObservableModel ObservableSpec ObservableProofs TopologyProofs
  ExactModel ExactSpec ExactProofs MetropolisModel MetropolisSpec MetropolisProofs MetropolisGlobalProofs.
Import ListNotations.
Local Open Scope R_scope.

Section Unique.
  Context {D : Type} (cand : list Z -> D -> list Z) (lp : list Z -> C) (n : nat) (draws : list D).
  Context (Hd : draws <> []) (Hc : forall s d, In s (spin_configs n) -> In d draws -> In (cand s d) (spin_configs n)).
  Context (Hsym : forall s t, In s (spin_configs n) -> In t (spin_configs n) ->
             occurrences t (map (cand s) draws) = occurrences s (map (cand t) draws)).
  (** Every configuration is reached from every other. *)
  Context (Hreach : forall P : list Z -> Prop, (forall s d, In s (spin_configs n) -> In d draws -> P s -> P (cand s d)) ->
             forall s t, In s (spin_configs n) -> In t (spin_configs n) -> P s -> P t).

  Lemma proposed_pos s d : In s (spin_configs n) -> In d draws ->
    0 < general_kernel (fun _ => draws) cand (sym_accept lp) s (cand s d).
  Proof.
    intros Hs Id. unfold general_kernel. apply Rmult_lt_0_compat; [|apply Rinv_0_lt_compat, INR_length_pos, Hd].
    eapply Rlt_le_trans; [|apply (Rsum_in_le _ _ d)]; [| |exact Id].
    - cbv beta. unfold good_numbers, len. destruct (eqd (cand s d) (cand s d)); [|congruence].
      destruct (eqd s (cand s d)); cbn [fst snd]; [lra|]. pose proof (exp_pos (Rmin ((Re (lp (cand s d)) - Re (lp s)) * 2) 0)). unfold sym_accept. lra.
    - intros d' _. unfold good_numbers, len. pose proof (sym_accept_01 lp s (cand s d')).
      destruct (eqd (cand s d') (cand s d)) as [E|]; [rewrite E in *|]; destruct (eqd s (cand s d)); cbn [fst snd]; lra.
  Qed.

  Lemma unique_stationary K rho :
    kernel n (fun _ => draws) (fun s d u => one_chain (symmetric_sweep cand lp) ([d], [u]) lp s) K ->
    stationary n rho K -> exists c, forall s, In s (spin_configs n) -> rho s = c * born (lp s).
  Proof.
    intros HK HR. set (K0 := general_kernel (fun _ => draws) cand (sym_accept lp)).
    destruct (symmetric_chain cand lp n draws Hd Hc Hsym) as (K' & Hk' & HS' & HB' & _).
    assert (EK' : forall s t, In s (spin_configs n) -> In t (spin_configs n) -> K' s t = K s t).
    { intros s t Hs Ht. eapply transition_unique; [now apply Hk'|now apply HK]. }
    assert (HK0 : kernel n (fun _ => draws) (fun s d u => one_chain (symmetric_sweep cand lp) ([d], [u]) lp s) K0).
    { apply general_is_kernel; [|intros; apply sym_accept_01]. intros s' d u _ _ _. apply sym_step. }
    assert (EK0 : forall s t, In s (spin_configs n) -> In t (spin_configs n) -> K0 s t = K s t).
    { intros s t Hs Ht. eapply transition_unique; [now apply HK0|now apply HK]. }
    assert (HS : stochastic n K).
    { intros s Hs. destruct (HS' s Hs) as [A B]. split; [intros t Ht; rewrite <- EK' by assumption; now apply A|].
      rewrite <- B. apply Rsum_ext. intros t Ht. symmetry. now apply EK'. }
    assert (HB : detailed_balance n (fun s => born (lp s)) K).
    { intros s t Hs Ht. rewrite <- !EK' by assumption. now apply HB'. }
    assert (P : forall s, 0 < born (lp s)) by (intros s; rewrite born_exp; apply exp_pos).
    set (f := fun s => rho s / born (lp s)).
    assert (HH : forall s, In s (spin_configs n) -> Rsum (fun t => K s t * f t) (spin_configs n) = f s).
    { intros s Hs. apply (Rmult_eq_reg_l (born (lp s))); [|pose proof (P s); lra]. rewrite <- Rsum_scal.
      rewrite (Rsum_ext _ (fun t => rho t * K t s)).
      - rewrite (HR s Hs). unfold f. field. pose proof (P s). lra.
      - intros t Ht. rewrite <- Rmult_assoc, (HB s t Hs Ht). unfold f. field. pose proof (P t). lra. }
    destruct (argmax f (spin_configs n) (spin_configs_nonempty n)) as (m & Hm & HM).
    exists (f m). intros s Hs. assert (E : f s = f m).
    { apply (Hreach (fun x => f x = f m)) with (s := m); auto. intros x d Hx Id Ex.
      assert (Q : K x (cand x d) * (f x - f (cand x d)) = 0).
      { apply (Rsum_zero_all (fun t => K x t * (f x - f t)) (spin_configs n)).
        - intros t Ht. rewrite Ex. pose proof (HM t Ht). pose proof (proj1 (HS x Hx) t Ht). apply Rmult_le_pos; lra.
        - rewrite (Rsum_ext _ (fun t => K x t * f x - K x t * f t)) by (intros; ring). rewrite Rsum_minus, Rsum_scal_r, HH by exact Hx.
          destruct (HS x Hx) as [_ ->]. ring.
        - now apply Hc. }
      apply Rmult_integral in Q. rewrite <- EK0 in Q by (auto; now apply Hc).
      pose proof (proposed_pos x d Hx Id) as Pp. fold K0 in Pp. destruct Q; lra. }
    rewrite <- E. unfold f. field. pose proof (P s). lra.
  Qed.
End Unique.

Lemma ravel_onto shape : forall p, (p < sites_of shape)%nat -> exists d, In d (sites shape) /\ ravel shape d = p.
Proof.
  induction shape as [|m shape IH]; intros p Hp.
  - exists []. split; [now left|]. cbn in *. lia.
  - change (sites_of (m :: shape)) with (m * sites_of shape)%nat in Hp. assert (Nz : sites_of shape <> 0%nat) by nia.
    destruct (IH (p mod sites_of shape)%nat) as (d & Hd & Ed); [now apply Nat.mod_upper_bound|].
    exists (p / sites_of shape :: d)%nat. split.
    + unfold sites in *. cbn [map choices]. apply in_flat_map. exists (p / sites_of shape)%nat. split; [|now apply in_map].
      apply in_seq. split; [lia|]. apply Nat.div_lt_upper_bound; lia.
    + cbn [ravel]. fold (sites_of shape). rewrite Ed. pose proof (Nat.div_mod p (sites_of shape) Nz). lia.
Qed.

Lemma local_reach shape (P : list Z -> Prop) :
  (forall s d, In s (spin_configs (sites_of shape)) -> In d (sites shape) -> P s -> P (local_candidate shape s d)) ->
  forall s t, In s (spin_configs (sites_of shape)) -> In t (spin_configs (sites_of shape)) -> P s -> P t.
Proof.
  intros H s t Hs Ht HP. set (n := sites_of shape) in *.
  assert (Hybrid : forall k, (k <= n)%nat -> In (firstn k t ++ skipn k s) (spin_configs n) /\ P (firstn k t ++ skipn k s)).
  { apply spins_in in Hs. apply spins_in in Ht. destruct Hs as [Ls Fs]. destruct Ht as [Lt Ft].
    induction k as [|k IH]; intros Hk.
    - cbn [firstn skipn app]. split; [apply spins_in; now split|exact HP].
    - destruct IH as [I1 I2]; [lia|]. set (x := firstn k t ++ skipn k s) in *.
      assert (Lx : length x = n) by (unfold x; rewrite app_length, firstn_length, skipn_length; lia).
      assert (E : firstn (S k) t ++ skipn (S k) s = upd x k (nth k t 0%Z)).
      { apply (nth_ext _ _ 0%Z 0%Z). { rewrite upd_length, Lx, app_length, firstn_length, skipn_length. lia. }
        intros i _. destruct (Nat.lt_trichotomy i k) as [L|[->|L]].
        - rewrite nth_upd_other by lia. unfold x. rewrite !app_nth1 by (rewrite firstn_length; lia). rewrite !nth_firstn by lia. reflexivity.
        - rewrite nth_upd_same by lia. rewrite app_nth1 by (rewrite firstn_length; lia). rewrite nth_firstn by lia. reflexivity.
        - rewrite nth_upd_other by lia. unfold x. rewrite !app_nth2 by (rewrite firstn_length; lia). rewrite !firstn_length, !nth_skipn. f_equal. lia. }
      destruct (ravel_onto shape k) as (d & Id & Ed); [fold n; lia|].
      assert (Sx : is_spin (nth k x 0%Z)) by (apply (spins_nth n); [now apply spins_in|lia]).
      assert (St : is_spin (nth k t 0%Z)) by (apply (spins_nth n); [now split|lia]).
      assert (Cases : upd x k (nth k t 0%Z) = x \/ upd x k (nth k t 0%Z) = local_candidate shape x d).
      { destruct (Z.eq_dec (nth k t 0%Z) (nth k x 0%Z)) as [Eq|Ne].
        - left. rewrite Eq. apply (nth_ext _ _ 0%Z 0%Z); [apply upd_length|]. intros i _. destruct (Nat.eq_dec i k) as [->|N].
          + rewrite nth_upd_same; [reflexivity|lia].
          + now rewrite nth_upd_other by auto.
        - right. unfold local_candidate. rewrite Ed. f_equal. unfold is_spin in *. lia. }
      rewrite E. destruct Cases as [-> | ->]; [split; assumption|]. split; [now apply local_spins|now apply H]. }
  destruct (Hybrid n (le_n n)) as [_ Q]. apply spins_in in Ht. destruct Ht as [Lt _]. apply spins_in in Hs. destruct Hs as [Ls _].
  rewrite firstn_all2, skipn_all2, app_nil_r in Q by lia. exact Q.
Qed.
