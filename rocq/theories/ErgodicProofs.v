(** Averages along Markov chains. *)
From Coq Require Import List ZArith Reals Bool Arith Lia Lra.
From Verif Require Import Base Cplx LatticeSpec AutoregressiveSpec ObservableModel ObservableSpec ObservableProofs
  ExactModel ExactSpec ExactProofs MetropolisModel MetropolisSpec MetropolisProofs MetropolisGlobalProofs MetropolisUniqueProofs
  MixingSpec MixingProofs MixingSamplerProofs ErgodicSpec.
Import ListNotations.
Local Open Scope R_scope.

Lemma Rsum_seq_S (f : nat -> R) a k : Rsum f (seq (S a) k) = Rsum (fun i => f (S i)) (seq a k).
Proof. rewrite <- seq_shift, Rsum_map. reflexivity. Qed.
Lemma Rsum_seq_shift (f : nat -> R) b : forall a k, Rsum f (seq (b + a) k) = Rsum (fun i => f (b + i)%nat) (seq a k).
Proof.
  intros a k. revert a. induction k as [|k IH]; intros a; [reflexivity|]. cbn [seq]. rewrite !Rsum_cons. f_equal. rewrite <- IH. now rewrite Nat.add_succ_r.
Qed.

Lemma geometric N e : (0 < N)%nat -> 0 < e <= 1 -> forall L, Rsum (fun m => (1 - e) ^ (m / N)) (seq 0 L) <= INR N / e.
Proof.
  intros HN He. assert (PN : 0 < INR N) by now apply lt_0_INR. assert (G : INR N <= INR N / e).
  { unfold Rdiv. rewrite <- (Rmult_1_r (INR N)) at 1. apply Rmult_le_compat_l; [lra|]. rewrite <- Rinv_1 at 1. apply Rinv_le_contravar; lra. }
  assert (Short : forall L, (L <= N)%nat -> Rsum (fun m => (1 - e) ^ (m / N)) (seq 0 L) <= INR L).
  { intros L HL. apply Rle_trans with (Rsum (fun _ => 1) (seq 0 L)).
    - apply Rsum_le. intros m Hm. apply in_seq in Hm. assert (A : 0 <= 1 - e <= 1) by lra.
      assert (P : forall k, (1 - e) ^ k <= 1). { induction k as [|k IH]; [cbn; lra|]. cbn [pow]. assert (0 <= (1 - e) ^ k) by (apply pow_le; lra). nra. }
      apply P.
    - right. clear. assert (Q : forall a, Rsum (fun _ => 1) (seq a L) = INR L). { induction L as [|L IH]; intros a; [reflexivity|]. cbn [seq]. rewrite Rsum_cons, IH, S_INR. ring. } apply Q. }
  induction L as [L IH] using lt_wf_ind. destruct (Nat.le_gt_cases L N) as [S|S].
  - eapply Rle_trans; [now apply Short|]. eapply Rle_trans; [apply le_INR; exact S|exact G].
  - replace L with (N + (L - N))%nat at 1 by lia. rewrite seq_app, Rsum_app. cbn [Nat.add].
    pose proof (Rsum_seq_shift (fun m => (1 - e) ^ (m / N)) N 0 (L - N)) as Sh. rewrite Nat.add_0_r in Sh. rewrite Sh. clear Sh.
    rewrite (Rsum_ext (fun i => (1 - e) ^ ((N + i) / N)) (fun i => (1 - e) * (1 - e) ^ (i / N))).
    + rewrite Rsum_scal. specialize (IH (L - N)%nat ltac:(lia)). specialize (Short N (Nat.le_refl N)).
      apply Rle_trans with (INR N + (1 - e) * (INR N / e)); [apply Rplus_le_compat; [exact Short|apply Rmult_le_compat_l; [lra|exact IH]]|]. right. field. lra.
    + intros i _. replace (N + i)%nat with (i + 1 * N)%nat by lia. rewrite Nat.div_add by lia. rewrite Nat.add_1_r. reflexivity.
Qed.

Section Average.
  Context (n : nat) (K : list Z -> list Z -> R) (Q : list Z -> bool) (pi : list Z -> R).
  Context (HS : stochastic n K) (HC : closed n Q K).
  Context (N : nat) (e : R) (HN : (0 < N)%nat) (He : 0 < e <= 1).
  Context (Conv : forall mu k, distribution n mu -> within n Q mu -> distance n (after n K (k * N) mu) pi <= 2 * (1 - e) ^ k).
  Context (g : list Z -> R) (G : R) (Hg : forall s, In s (spin_configs n) -> Rabs (g s) <= G) (G0 : 0 <= G) (Center : Rsum (fun s => pi s * g s) (spin_configs n) = 0).
  Local Notation SS := (spin_configs n).

  Lemma distance_after mu m : distribution n mu -> within n Q mu -> distance n (after n K m mu) pi <= 2 * (1 - e) ^ (m / N).
  Proof.
    intros HM HW. pose proof (Nat.div_mod m N ltac:(lia)) as E. replace (after n K m mu) with (after n K (m / N * N) (after n K (m mod N) mu)).
    - apply Conv; [now apply after_distribution|now apply after_within].
    - rewrite <- after_add. f_equal. lia.
  Qed.
  Definition pairing (mu : list Z -> R) : R := Rsum (fun s => mu s * g s) SS.
  Lemma pairing_after mu m : distribution n mu -> within n Q mu -> Rabs (pairing (after n K m mu)) <= G * 2 * (1 - e) ^ (m / N).
  Proof.
    intros HM HW. unfold pairing. replace (Rsum _ SS) with (Rsum (fun s => (after n K m mu s - pi s) * g s) SS).
    2: { rewrite (Rsum_ext _ (fun s => after n K m mu s * g s - pi s * g s)) by (intros; ring). rewrite Rsum_minus, Center. ring. }
    eapply Rle_trans; [apply Rabs_Rsum'|]. apply Rle_trans with (G * distance n (after n K m mu) pi).
    - unfold distance. rewrite <- Rsum_scal. apply Rsum_le. intros s Hs. rewrite Rabs_mult, Rmult_comm. apply Rmult_le_compat_r; [apply Rabs_pos|now apply Hg].
    - rewrite Rmult_assoc. apply Rmult_le_compat_l; [exact G0|]. now apply distance_after.
  Qed.

  Fixpoint means (mask : list bool) (mu : list Z -> R) : R :=
    match mask with [] => 0 | m :: mask' => (if m then pairing (after n K 1 mu) else 0) + means mask' (after n K 1 mu) end.
  Lemma means_bound mask : forall j mu, distribution n mu -> within n Q mu ->
    Rabs (means mask (after n K j mu)) <= Rsum (fun i => G * 2 * (1 - e) ^ (i / N)) (seq (S j) (length mask)).
  Proof.
    induction mask as [|m mask IH]; intros j mu HM HW; cbn [means length seq]; [rewrite Rabs_R0, Rsum_nil; lra|]. rewrite Rsum_cons.
    replace (after n K 1 (after n K j mu)) with (after n K (S j) mu) by (rewrite <- after_add; f_equal; lia).
    eapply Rle_trans; [apply Rabs_triang|]. apply Rplus_le_compat; [|now apply IH]. destruct m; [now apply pairing_after|].
    rewrite Rabs_R0. apply Rmult_le_pos; [lra|apply pow_le; lra].
  Qed.
  Definition D : R := G * 2 * (INR N / e).
  Lemma means_D mask mu : distribution n mu -> within n Q mu -> Rabs (means mask mu) <= D.
  Proof.
    intros HM HW. eapply Rle_trans; [exact (means_bound mask 0 mu HM HW)|]. unfold D. rewrite Rsum_scal. apply Rmult_le_compat_l; [lra|].
    eapply Rle_trans; [|apply (geometric N e HN He (S (length mask)))]. cbn [seq]. rewrite Rsum_cons. assert (0 <= (1 - e) ^ (0 / N)) by (apply pow_le; lra). lra.
  Qed.

  (** Sums over paths. *)
  Lemma paths_S k (F : list (list Z) -> R) : Rsum F (paths n (S k)) = Rsum (fun t => Rsum (fun p => F (t :: p)) (paths n k)) SS.
  Proof. unfold paths. cbn [repeat choices]. rewrite Rsum_flat_map. apply Rsum_ext. intros t _. now rewrite Rsum_map. Qed.
  Lemma total k : forall s, In s SS -> Rsum (path_weight K s) (paths n k) = 1.
  Proof.
    induction k as [|k IH]; intros s Hs; [unfold paths; cbn [repeat choices]; rewrite Rsum_cons, Rsum_nil; cbn; ring|]. rewrite paths_S.
    rewrite (Rsum_ext _ (fun t => K s t)); [apply HS; exact Hs|]. intros t Ht. cbn [path_weight]. rewrite Rsum_scal, IH by exact Ht. ring.
  Qed.
  Definition first (mask : list bool) (s : list Z) : R := Rsum (fun p => path_weight K s p * Rsum g (picked mask p)) (paths n (length mask)).
  Definition second (mask : list bool) (s : list Z) : R := Rsum (fun p => path_weight K s p * Rsum g (picked mask p) ^ 2) (paths n (length mask)).
  Lemma first_S m mask s : first (m :: mask) s = Rsum (fun t => K s t * ((if m then g t else 0) + first mask t)) SS.
  Proof.
    unfold first. cbn [length]. rewrite paths_S. apply Rsum_ext. intros t Ht. cbn [path_weight picked].
    rewrite (Rsum_ext _ (fun p => K s t * ((if m then g t else 0) * path_weight K t p + path_weight K t p * Rsum g (picked mask p)))).
    - rewrite Rsum_scal, Rsum_plus, Rsum_scal, total by exact Ht. ring.
    - intros p _. destruct m; [rewrite Rsum_cons|]; ring.
  Qed.
  Lemma second_S m mask s : second (m :: mask) s = Rsum (fun t => K s t * ((if m then g t else 0) ^ 2 + 2 * (if m then g t else 0) * first mask t + second mask t)) SS.
  Proof.
    unfold second, first. cbn [length]. rewrite paths_S. apply Rsum_ext. intros t Ht. cbn [path_weight picked].
    rewrite (Rsum_ext _ (fun p => K s t * ((if m then g t else 0) ^ 2 * path_weight K t p + 2 * (if m then g t else 0) * (path_weight K t p * Rsum g (picked mask p)) +
      path_weight K t p * Rsum g (picked mask p) ^ 2))).
    - rewrite Rsum_scal, !Rsum_plus, !Rsum_scal, total by exact Ht. ring.
    - intros p _. destruct m; [rewrite Rsum_cons|]; ring.
  Qed.
  Lemma first_means mask : forall mu, Rsum (fun s => mu s * first mask s) SS = means mask mu.
  Proof.
    induction mask as [|m mask IH]; intros mu; cbn [means].
    - rewrite (Rsum_ext _ (fun _ => 0)); [apply Rsum_zero|]. intros s _. unfold first, paths. cbn [length repeat choices picked]. rewrite Rsum_cons, !Rsum_nil. ring.
    - rewrite (Rsum_ext _ (fun s => Rsum (fun t => mu s * K s t * ((if m then g t else 0) + first mask t)) SS)).
      + rewrite Rsum_exchange. rewrite (Rsum_ext _ (fun t => (if m then after n K 1 mu t * g t else 0) + after n K 1 mu t * first mask t)).
        * rewrite Rsum_plus, IH. f_equal. destruct m; [reflexivity|apply Rsum_zero].
        * intros t Ht. rewrite Rsum_scal_r. cbn [after]. destruct m; ring.
      + intros s Hs. rewrite first_S, <- Rsum_scal. apply Rsum_ext. intros; ring.
  Qed.
  Lemma starts_within s : Q s = true -> within n Q (starts_in s).
  Proof. intros Hq x Hx Ex. unfold starts_in. destruct (list_eq_dec Z.eq_dec x s) as [->|]; [congruence|reflexivity]. Qed.
  Lemma first_bound mask s : In s SS -> Q s = true -> Rabs (first mask s) <= D.
  Proof.
    intros Hs Hq. eapply Rle_trans; [|apply (means_D mask (starts_in s)); [now apply starts_in_distribution|now apply starts_within]]. right. f_equal. rewrite <- first_means.
    rewrite (Rsum_ext _ (fun x => if eqd s x then first mask x else 0)).
    - now rewrite (Rsum_single eqd (first mask) s SS (NoDup_spin_configs n) Hs).
    - intros x _. unfold starts_in, eqd. destruct (list_eq_dec Z.eq_dec x s), (list_eq_dec Z.eq_dec s x); try congruence; ring.
  Qed.
  Definition A : R := G ^ 2 + 2 * G * D.
  Lemma D_pos : 0 <= D.
  Proof. unfold D. apply Rmult_le_pos; [lra|]. apply Rmult_le_pos; [apply pos_INR|]. left. apply Rinv_0_lt_compat. lra. Qed.
  Lemma second_bound mask : forall s, In s SS -> Q s = true -> second mask s <= INR (recorded mask) * A.
  Proof.
    pose proof D_pos as DP. assert (AP : 0 <= A) by (unfold A; nra).
    induction mask as [|m mask IH]; intros s Hs Hq.
    - unfold second, paths, recorded. cbn [length repeat choices picked filter]. rewrite Rsum_cons, !Rsum_nil. cbn [INR path_weight]. lra.
    - rewrite second_S. set (c := INR (recorded (m :: mask)) * A).
      apply Rle_trans with (Rsum (fun t => K s t * c) SS); [|right; rewrite Rsum_scal_r; rewrite (proj2 (HS s Hs)); ring].
      apply Rsum_le. intros t Ht. destruct (Q t) eqn:Et; [|rewrite (HC s t Hs Ht Hq Et); lra]. apply Rmult_le_compat_l; [now apply (proj1 (HS s Hs))|].
      specialize (IH t Ht Et). pose proof (first_bound mask t Ht Et) as F. specialize (Hg t Ht). unfold c, recorded in *. cbn [filter]. destruct m.
      + cbn [length]. rewrite S_INR. apply Rle_trans with (A + INR (length (filter (fun b => b) mask)) * A); [|lra].
        apply Rplus_le_compat; [|exact IH]. unfold A. apply Rplus_le_compat.
        * rewrite <- (pow2_abs (g t)). apply pow_incr. split; [apply Rabs_pos|exact Hg].
        * rewrite !Rmult_assoc. apply Rmult_le_compat_l; [lra|]. eapply Rle_trans; [apply Rle_abs|]. rewrite Rabs_mult. apply Rmult_le_compat; auto using Rabs_pos.
      + rewrite Rmult_0_r, Rmult_0_l. rewrite pow_i by lia. lra.
  Qed.

  (** Several chains. *)
  Definition joint_first (mask : list bool) (starts : list (list Z)) : R :=
    over_chains n K starts (length mask) (Rsum (fun p => Rsum g (picked mask p))).
  Definition joint_second (mask : list bool) (starts : list (list Z)) : R :=
    over_chains n K starts (length mask) (fun ps => Rsum (fun p => Rsum g (picked mask p)) ps ^ 2).
  Lemma over_chains_cons s starts L F : over_chains n K (s :: starts) L F = Rsum (fun p => path_weight K s p * over_chains n K starts L (fun ps => F (p :: ps))) (paths n L).
  Proof.
    unfold over_chains. cbn [length repeat choices]. rewrite Rsum_flat_map. apply Rsum_ext. intros p _. rewrite Rsum_map, <- Rsum_scal. apply Rsum_ext. intros ps _.
    cbn [joint_weight]. ring.
  Qed.
  Lemma over_chains_total starts L : Forall (fun s => In s SS) starts -> over_chains n K starts L (fun _ => 1) = 1.
  Proof.
    induction 1 as [|s starts Hs F IH]; [unfold over_chains; cbn [length repeat choices joint_weight]; rewrite Rsum_cons, Rsum_nil; ring|].
    rewrite over_chains_cons, (Rsum_ext _ (path_weight K s)); [now apply total|]. intros p _. rewrite IH. ring.
  Qed.
  Lemma over_chains_plus starts L F F' : over_chains n K starts L (fun ps => F ps + F' ps) = over_chains n K starts L F + over_chains n K starts L F'.
  Proof. unfold over_chains. rewrite <- Rsum_plus. apply Rsum_ext. intros; ring. Qed.
  Lemma over_chains_scal starts L c F : over_chains n K starts L (fun ps => c * F ps) = c * over_chains n K starts L F.
  Proof. unfold over_chains. rewrite <- Rsum_scal. apply Rsum_ext. intros; ring. Qed.
  Lemma over_chains_ext starts L F F' : (forall ps, In ps (choices (repeat (paths n L) (length starts))) -> F ps = F' ps) -> over_chains n K starts L F = over_chains n K starts L F'.
  Proof. intros E. unfold over_chains. apply Rsum_ext. intros ps Hp. now rewrite E. Qed.
  Lemma joint_first_cons mask s starts : In s SS -> Forall (fun s => In s SS) starts -> joint_first mask (s :: starts) = first mask s + joint_first mask starts.
  Proof.
    intros Hs F. unfold joint_first at 1. rewrite over_chains_cons.
    rewrite (Rsum_ext _ (fun p => path_weight K s p * Rsum g (picked mask p) + path_weight K s p * joint_first mask starts)).
    - rewrite Rsum_plus, Rsum_scal_r, total by exact Hs. unfold first. ring.
    - intros p _. rewrite (over_chains_ext _ _ _ (fun ps => Rsum g (picked mask p) * 1 + Rsum (fun p => Rsum g (picked mask p)) ps)) by (intros; rewrite Rsum_cons; ring).
      rewrite over_chains_plus, over_chains_scal, over_chains_total by exact F. unfold joint_first. ring.
  Qed.
  Lemma joint_second_cons mask s starts : In s SS -> Forall (fun s => In s SS) starts ->
    joint_second mask (s :: starts) = second mask s + 2 * first mask s * joint_first mask starts + joint_second mask starts.
  Proof.
    intros Hs F. unfold joint_second at 1. rewrite over_chains_cons.
    rewrite (Rsum_ext _ (fun p => path_weight K s p * Rsum g (picked mask p) ^ 2 + 2 * joint_first mask starts * (path_weight K s p * Rsum g (picked mask p)) + path_weight K s p * joint_second mask starts)).
    - rewrite !Rsum_plus, Rsum_scal, Rsum_scal_r, total by exact Hs. unfold first, second. ring.
    - intros p _. rewrite (over_chains_ext _ _ _ (fun ps => (Rsum g (picked mask p) ^ 2 * 1 + (2 * Rsum g (picked mask p)) * Rsum (fun p => Rsum g (picked mask p)) ps) +
        Rsum (fun p => Rsum g (picked mask p)) ps ^ 2)) by (intros; rewrite Rsum_cons; ring).
      rewrite !over_chains_plus, !over_chains_scal, over_chains_total by exact F. unfold joint_first, joint_second. ring.
  Qed.
  Lemma joint_bounds mask starts : Forall (fun s => In s SS /\ Q s = true) starts ->
    Rabs (joint_first mask starts) <= INR (length starts) * D /\
    joint_second mask starts <= INR (length starts) * (INR (recorded mask) * A) + INR (length starts) ^ 2 * D ^ 2.
  Proof.
    pose proof D_pos as DP. induction 1 as [|s starts [Hs Hq] F IH].
    - unfold joint_first, joint_second, over_chains. cbn [length repeat choices INR joint_weight]. rewrite !Rsum_cons, !Rsum_nil. split; [rewrite Rmult_0_r, Rplus_0_r, Rabs_R0; lra|lra].
    - destruct IH as [I1 I2]. assert (F' : Forall (fun s => In s SS) starts) by (eapply Forall_impl; [|exact F]; cbn; tauto).
      rewrite joint_first_cons, joint_second_cons by assumption. cbn [length]. rewrite S_INR. pose proof (first_bound mask s Hs Hq) as B1. pose proof (second_bound mask s Hs Hq) as B2. split.
      + eapply Rle_trans; [apply Rabs_triang|]. lra.
      + assert (X : first mask s * joint_first mask starts <= D * (INR (length starts) * D)).
        { eapply Rle_trans; [apply Rle_abs|]. rewrite Rabs_mult. apply Rmult_le_compat; auto using Rabs_pos. }
        nra.
  Qed.
End Average.
