(** Proofs about the Metropolis samplers: transition matrices, detailed balance, stationarity. *)
From Coq Require Import List ZArith Reals Bool Arith Lia Lra Permutation.
From Verif Require Import Base Cplx LatticeSpec AutoregressiveSpec IsingProofs ObservableModel ObservableSpec ObservableProofs
  ExactModel ExactSpec ExactProofs MetropolisModel MetropolisSpec.
Import ListNotations.
Local Open Scope R_scope.

Definition eqd := list_eq_dec Z.eq_dec.

Lemma Rsum_swap {A B} (f : A -> B -> R) l1 l2 :
  Rsum (fun a => Rsum (f a) l2) l1 = Rsum (fun b => Rsum (fun a => f a b) l1) l2.
Proof.
  induction l1 as [|a l1 IH]; [cbn; now rewrite Rsum_zero|]. rewrite Rsum_cons, IH, <- Rsum_plus.
  apply Rsum_ext. intros b _. now rewrite Rsum_cons.
Qed.
Lemma Rsum_single {A} (dec : forall x y : A, {x = y} + {x <> y}) (f : A -> R) a l : NoDup l -> In a l ->
  Rsum (fun t => if dec a t then f t else 0) l = f a.
Proof.
  intros N. induction N as [|x l Hx N IH]; intros H; [destruct H|]. rewrite Rsum_cons. destruct (dec a x) as [->|Ne].
  - rewrite (Rsum_ext _ (fun _ => 0)).
    + rewrite Rsum_zero. ring.
    + intros t Ht. destruct (dec x t); [subst; contradiction|reflexivity].
  - destruct H as [->|H]; [congruence|]. rewrite IH by exact H. ring.
Qed.
Lemma Rsum_count {D} (g : D -> list Z) t (x : R) l :
  Rsum (fun d => if eqd (g d) t then x else 0) l = INR (occurrences t (map g l)) * x.
Proof.
  unfold occurrences. induction l as [|d l IH]; [cbn; ring|]. rewrite Rsum_cons, IH. cbn [map count_occ]. unfold eqd.
  destruct (list_eq_dec Z.eq_dec (g d) t); [rewrite S_INR|]; ring.
Qed.

(** * A proposal followed by an acceptance test *)
Section General.
  Context {D : Type} (n : nat) (draws : list Z -> list D) (cand : list Z -> D -> list Z) (a : list Z -> list Z -> R)
    (step : list Z -> D -> R -> list Z) (pi : list Z -> R).
  Context (Hstep : forall s d u, In s (spin_configs n) -> In d (draws s) -> 0 <= u < 1 ->
            step s d u = if Rlt_dec u (a s (cand s d)) then cand s d else s).
  Context (Ha : forall s d, In s (spin_configs n) -> In d (draws s) -> 0 <= a s (cand s d) <= 1).
  Context (Hd : forall s, In s (spin_configs n) -> draws s <> []).
  Context (Hc : forall s d, In s (spin_configs n) -> In d (draws s) -> In (cand s d) (spin_configs n)).
  Definition proposals s t : R := INR (occurrences t (map (cand s) (draws s))).
  Context (Hb : forall s t, In s (spin_configs n) -> In t (spin_configs n) -> s <> t ->
            pi s * (proposals s t / INR (length (draws s)) * a s t) = pi t * (proposals t s / INR (length (draws t)) * a t s)).

  Definition good_numbers (s t : list Z) (d : D) : R * R :=
    if eqd (cand s d) t then (if eqd s t then (0, 1) else (0, a s t))
    else if eqd s t then (a s (cand s d), 1) else (0, 0).
  Definition general_kernel (s t : list Z) : R := Rsum (fun d => len (good_numbers s t d)) (draws s) / INR (length (draws s)).

  Lemma general_is_kernel : kernel n draws step general_kernel.
  Proof.
    intros s t Hs Ht. exists (good_numbers s t). split; [|reflexivity]. intros d Id. pose proof (Ha s d Hs Id) as H01.
    unfold good_numbers. destruct (eqd (cand s d) t) as [E|E], (eqd s t) as [E'|E']; cbn [fst snd];
      (split; [try rewrite <- E; lra|]; split; [try rewrite <- E; lra|]; split; [try rewrite <- E; lra|]);
      intros u Hu; rewrite (Hstep s d u Hs Id Hu); unfold inside; cbn [fst snd].
    - destruct (Rlt_dec u _); split; intros; try lra; congruence.
    - rewrite E. destruct (Rlt_dec u _); split; intros; try lra; congruence.
    - destruct (Rlt_dec u _); split; intros; try lra; congruence.
    - destruct (Rlt_dec u _); split; intros; try lra; congruence.
  Qed.

  Lemma len_pos_draws s : In s (spin_configs n) -> 0 < INR (length (draws s)).
  Proof. intros H. apply INR_length_pos. now apply Hd. Qed.

  Lemma good_numbers_off s t : s <> t ->
    Rsum (fun d => len (good_numbers s t d)) (draws s) = proposals s t * a s t.
  Proof.
    intros N. unfold proposals. rewrite <- Rsum_count. apply Rsum_ext. intros d _. unfold good_numbers, len.
    destruct (eqd (cand s d) t), (eqd s t); try congruence; cbn [fst snd]; lra.
  Qed.

  Lemma general_balance : detailed_balance n pi general_kernel.
  Proof.
    intros s t Hs Ht. destruct (eqd s t) as [->|N]; [reflexivity|]. unfold general_kernel.
    rewrite !good_numbers_off by auto. pose proof (Hb s t Hs Ht N) as Q. unfold Rdiv in *. lra.
  Qed.

  Lemma good_total s d : In s (spin_configs n) -> In d (draws s) ->
    Rsum (fun t => len (good_numbers s t d)) (spin_configs n) = 1.
  Proof.
    intros Hs Id. pose proof (Ha s d Hs Id) as H01.
    rewrite (Rsum_ext _ (fun t => (if eqd (cand s d) t then a s (cand s d) else 0) + (if eqd s t then 1 - a s (cand s d) else 0))).
    - rewrite Rsum_plus.
      rewrite (Rsum_single eqd (fun _ => a s (cand s d)) (cand s d)) by (try apply NoDup_spin_configs; now apply Hc).
      rewrite (Rsum_single eqd (fun _ => 1 - a s (cand s d)) s) by (try apply NoDup_spin_configs; assumption). ring.
    - intros t _. unfold good_numbers, len. destruct (eqd (cand s d) t) as [E|E]; [rewrite E in *|]; destruct (eqd s t); cbn [fst snd]; try lra. 
  Qed.

  Lemma general_stochastic : stochastic n general_kernel.
  Proof.
    intros s Hs. pose proof (len_pos_draws s Hs) as P. split.
    - intros t Ht. unfold general_kernel. apply Rmult_le_pos; [|left; now apply Rinv_0_lt_compat].
      apply Rsum_nonneg. intros d Id. pose proof (Ha s d Hs Id). unfold good_numbers, len.
      destruct (eqd (cand s d) t) as [E|E]; [rewrite E in *|]; destruct (eqd s t); cbn [fst snd]; lra.
    - unfold general_kernel, Rdiv. rewrite Rsum_scal_r, Rsum_swap.
      rewrite (Rsum_ext _ (fun _ => 1)) by (intros d Id; now apply good_total). rewrite Rsum_const. field. lra.
  Qed.
End General.

Lemma balance_stationary n pi K : stochastic n K -> detailed_balance n pi K -> stationary n pi K.
Proof.
  intros HS HB t Ht. rewrite (Rsum_ext _ (fun s => pi t * K t s)) by (intros s Hs; now apply HB).
  rewrite Rsum_scal. destruct (HS t Ht) as [_ ->]. ring.
Qed.

(** The transition matrix is determined by the step. *)
Lemma interval_length_unique a b c d : 0 <= a <= b -> b <= 1 -> 0 <= c <= d -> d <= 1 ->
  (forall u, 0 <= u < 1 -> (a <= u < b <-> c <= u < d)) -> b - a = d - c.
Proof.
  intros H1 H2 H3 H4 H. destruct (Rlt_le_dec a b) as [L|L].
  - assert (A : c <= a < d) by (apply H; lra).
    assert (C : a <= c). { apply H; [lra|]. lra. }
    assert (a = c) by lra. subst c. destruct (Rtotal_order b d) as [B|[B|B]]; [|lra|].
    + assert (a <= b < b) by (apply H; lra). lra.
    + assert (a <= d < d) by (apply H; lra). lra.
  - destruct (Rlt_le_dec c d) as [L'|L']; [|lra]. assert (a <= c < b) by (apply H; lra). lra.
Qed.
Lemma transition_unique {D} (draws : list D) step t p q : transition draws step t p -> transition draws step t q -> p = q.
Proof.
  intros (g & Hg & ->) (h & Hh & ->). f_equal. apply Rsum_ext. intros d Id.
  destruct (Hg d Id) as (A1 & A2 & A3 & A4). destruct (Hh d Id) as (B1 & B2 & B3 & B4). unfold len.
  apply interval_length_unique; [lra|lra|lra|lra|]. intros u Hu. specialize (A4 u Hu). specialize (B4 u Hu). unfold inside in *. tauto.
Qed.

(** * Symmetric proposals *)
Section Symmetric.
  Context {D : Type} (cand : list Z -> D -> list Z) (lp : list Z -> C).
  Definition sym_accept (s c : list Z) : R := exp (Rmin ((Re (lp c) - Re (lp s)) * 2) 0).

  Lemma sym_accept_01 s c : 0 <= sym_accept s c <= 1.
  Proof.
    unfold sym_accept. split; [left; apply exp_pos|]. rewrite <- exp_0.
    destruct (Rle_lt_or_eq_dec _ _ (Rmin_r ((Re (lp c) - Re (lp s)) * 2) 0)) as [H|H]; [left; now apply exp_increasing|now rewrite H; right].
  Qed.
  Lemma sym_step s d u : one_chain (symmetric_sweep cand lp) ([d], [u]) lp s =
    if Rlt_dec u (sym_accept s (cand s d)) then cand s d else s.
  Proof.
    unfold one_chain, symmetric_sweep. cbn [sample sample_machine_values fst snd map2 map combine masked_assign nth].
    unfold symmetric_accepts, sym_accept. destruct (Rlt_dec u _); reflexivity.
  Qed.
  Lemma born_exp z : born z = exp (Re z * 2).
  Proof. unfold born. rewrite Cnorm2_exp. f_equal. ring. Qed.
  Lemma sym_accept_balance s t : born (lp s) * sym_accept s t = born (lp t) * sym_accept t s.
  Proof.
    rewrite !born_exp. unfold sym_accept. rewrite <- !exp_plus. f_equal. unfold Rmin. destruct (Rle_dec _ _), (Rle_dec _ _); lra.
  Qed.

  Context (n : nat) (draws : list D).
  Context (Hd : draws <> []) (Hc : forall s d, In s (spin_configs n) -> In d draws -> In (cand s d) (spin_configs n)).
  Context (Hsym : forall s t, In s (spin_configs n) -> In t (spin_configs n) ->
             occurrences t (map (cand s) draws) = occurrences s (map (cand t) draws)).
  Lemma symmetric_chain : exists K,
    kernel n (fun _ => draws) (fun s d u => one_chain (symmetric_sweep cand lp) ([d], [u]) lp s) K /\
    stochastic n K /\ detailed_balance n (fun s => born (lp s)) K /\ stationary n (fun s => born (lp s)) K.
  Proof.
    exists (general_kernel (fun _ => draws) cand sym_accept).
    assert (K1 : stochastic n (general_kernel (fun _ => draws) cand sym_accept)).
    { apply general_stochastic; auto. intros; apply sym_accept_01. }
    assert (K2 : detailed_balance n (fun s => born (lp s)) (general_kernel (fun _ => draws) cand sym_accept)).
    { apply general_balance. intros s t Hs Ht N. unfold proposals. rewrite (Hsym s t Hs Ht).
      pose proof (sym_accept_balance s t) as Q. unfold Rdiv.
      replace (born (lp s) * (INR (occurrences s (map (cand t) draws)) * / INR (length draws) * sym_accept s t))
        with (INR (occurrences s (map (cand t) draws)) * / INR (length draws) * (born (lp s) * sym_accept s t)) by ring.
      rewrite Q. ring. }
    split; [|split; [exact K1|split; [exact K2|now apply balance_stationary]]].
    apply general_is_kernel; [|intros; apply sym_accept_01]. intros s d u _ _ _. apply sym_step.
  Qed.
End Symmetric.

(** An involution for each draw proposes symmetrically. *)
Lemma involution_symmetric {D} n (cand : list Z -> D -> list Z) draws :
  (forall s d, In s (spin_configs n) -> In d draws -> cand (cand s d) d = s) ->
  forall s t, In s (spin_configs n) -> In t (spin_configs n) ->
    occurrences t (map (cand s) draws) = occurrences s (map (cand t) draws).
Proof.
  intros H s t Hs Ht. unfold occurrences. induction draws as [|d l IH]; [reflexivity|]. cbn [map count_occ].
  rewrite IH by (intros; apply H; auto; now right).
  destruct (list_eq_dec Z.eq_dec (cand s d) t) as [E1|N1], (list_eq_dec Z.eq_dec (cand t d) s) as [E2|N2]; try reflexivity; exfalso.
  - apply N2. rewrite <- E1. apply H; auto. now left.
  - apply N1. rewrite <- E2. apply H; auto. now left.
Qed.

(** * The proposals *)
Lemma choices_in {A} (ls : list (list A)) : forall x, In x (choices ls) <-> Forall2 (fun a l => In a l) x ls.
Proof.
  induction ls as [|l ls IH]; intros x; cbn [choices].
  - split; [intros [<-|[]]; constructor|inversion 1; now left].
  - rewrite in_flat_map. split.
    + intros (a & Ha & Hx). apply in_map_iff in Hx. destruct Hx as (y & <- & Hy). constructor; auto. now apply IH.
    + inversion 1 as [|a ? y ? Ha Hy]; subst. exists a. split; auto. apply in_map. now apply IH.
Qed.
Lemma choices_nonempty {A} (ls : list (list A)) : Forall (fun l => l <> []) ls -> choices ls <> [].
Proof.
  induction 1 as [|l ls Hl F IH]; cbn [choices]; [discriminate|]. destruct l as [|a l]; [congruence|]. cbn [flat_map].
  destruct (choices ls); [congruence|discriminate].
Qed.

Lemma ravel_lt shape : forall idx, Forall2 (fun i n => (i < n)%nat) idx shape -> (ravel shape idx < sites_of shape)%nat.
Proof.
  induction shape as [|m shape IH]; intros idx F; inversion F as [|i ? idx' ? Hi Hx]; subst; cbn [ravel]; [cbn; lia|].
  change (sites_of (m :: shape)) with (m * sites_of shape)%nat. fold (sites_of shape). specialize (IH _ Hx). nia.
Qed.

Lemma spins_upd n s p v : spins n s -> is_spin v -> spins n (upd s p v).
Proof.
  intros [L F] H. split; [now rewrite upd_length|]. apply Forall_forall. intros x Hx. apply (In_nth _ _ 0%Z) in Hx.
  destruct Hx as (i & Hi & <-). rewrite upd_length in Hi. destruct (Nat.eq_dec i p) as [->|N].
  - now rewrite nth_upd_same.
  - rewrite nth_upd_other by auto. rewrite Forall_forall in F. apply F. now apply nth_In.
Qed.
Lemma spins_nth n s p : spins n s -> (p < n)%nat -> is_spin (nth p s 0%Z).
Proof. intros [L F] H. rewrite Forall_forall in F. apply F. apply nth_In. lia. Qed.

Lemma sites_lt shape d : In d (sites shape) -> (ravel shape d < sites_of shape)%nat.
Proof.
  intros H. apply ravel_lt. unfold sites in H. apply choices_in in H. revert H. generalize d. clear d.
  induction shape as [|m shape IH]; intros d H; inversion H; subst; constructor; auto. now match goal with h : In _ (seq _ _) |- _ => apply in_seq in h end.
Qed.
Definition exchange_sites (shape : list nat) (draw : list (nat * Z)) : nat * nat :=
  (ravel shape (map fst draw),
   ravel shape (map2 (fun dim_size im => Z.to_nat ((Z.of_nat (fst im) + snd im) mod Z.of_nat dim_size)) shape draw)).
Lemma moves_lt shape d : In d (sites_and_moves shape) ->
  (fst (exchange_sites shape d) < sites_of shape)%nat /\ (snd (exchange_sites shape d) < sites_of shape)%nat.
Proof.
  intros H. unfold exchange_sites. cbn [fst snd]. unfold sites_and_moves in H. apply choices_in in H.
  split; apply ravel_lt; revert d H; induction shape as [|m shape IH]; intros d H; inversion H as [|[i z] ? d' ? Hi Hx]; subst;
    cbn [map map2]; constructor; auto; apply in_prod_iff in Hi; destruct Hi as [Hi _]; apply in_seq in Hi; cbn [fst snd]; [lia|].
  pose proof (Z.mod_pos_bound (Z.of_nat i + z) (Z.of_nat m)). lia.
Qed.

Lemma local_spins shape s d : In s (spin_configs (sites_of shape)) -> In d (sites shape) ->
  In (local_candidate shape s d) (spin_configs (sites_of shape)).
Proof.
  intros Hs Hd. apply spins_in. apply spins_in in Hs. unfold local_candidate. apply spins_upd; auto.
  destruct (spins_nth _ _ _ Hs (sites_lt _ _ Hd)) as [-> | ->]; [right|left]; reflexivity.
Qed.
Lemma local_involution shape s d : local_candidate shape (local_candidate shape s d) d = s.
Proof.
  unfold local_candidate. set (p := ravel shape d). destruct (Nat.lt_ge_cases p (length s)) as [L|L].
  - rewrite nth_upd_same by exact L. apply (nth_ext _ _ 0%Z 0%Z); [now rewrite !upd_length|]. intros i _.
    destruct (Nat.eq_dec i p) as [->|N].
    + rewrite nth_upd_same by now rewrite upd_length. lia.
    + now rewrite !nth_upd_other by auto.
  - apply (nth_ext _ _ 0%Z 0%Z); [now rewrite !upd_length|]. intros i Hi. rewrite !upd_length in Hi. rewrite !nth_upd_other by lia. reflexivity.
Qed.

Lemma exchange_unfold shape s d : exchange_candidate shape s d =
  upd (upd s (fst (exchange_sites shape d)) (nth (snd (exchange_sites shape d)) s 0%Z)) (snd (exchange_sites shape d))
    (nth (fst (exchange_sites shape d)) s 0%Z).
Proof. reflexivity. Qed.
Lemma swap_nth (s : list Z) p q i : (p < length s)%nat -> (q < length s)%nat ->
  nth i (upd (upd s p (nth q s 0%Z)) q (nth p s 0%Z)) 0%Z =
  if i =? q then nth p s 0%Z else if i =? p then nth q s 0%Z else nth i s 0%Z.
Proof.
  intros Hp Hq. destruct (Nat.eqb_spec i q) as [->|N]; [rewrite nth_upd_same by (now rewrite upd_length); reflexivity|].
  rewrite nth_upd_other by auto. destruct (Nat.eqb_spec i p) as [->|N']; [now rewrite nth_upd_same|now rewrite nth_upd_other by auto].
Qed.
Lemma swap_involution (s : list Z) p q : (p < length s)%nat -> (q < length s)%nat ->
  let t := upd (upd s p (nth q s 0%Z)) q (nth p s 0%Z) in upd (upd t p (nth q t 0%Z)) q (nth p t 0%Z) = s.
Proof.
  intros Hp Hq t. assert (Lt : length t = length s) by (unfold t; now rewrite !upd_length).
  apply (nth_ext _ _ 0%Z 0%Z); [now rewrite !upd_length, Lt|]. intros i _. rewrite swap_nth by (rewrite Lt; auto).
  unfold t. rewrite !swap_nth by auto. rewrite !Nat.eqb_refl.
  destruct (Nat.eqb_spec i q) as [->|N].
  - destruct (Nat.eqb_spec p q) as [->|]; reflexivity.
  - destruct (Nat.eqb_spec i p) as [->|N']; [|reflexivity]. reflexivity.
Qed.
Lemma exchange_spins shape s d : In s (spin_configs (sites_of shape)) -> In d (sites_and_moves shape) ->
  In (exchange_candidate shape s d) (spin_configs (sites_of shape)).
Proof.
  intros Hs Hd. apply spins_in. apply spins_in in Hs. destruct (moves_lt _ _ Hd) as [A B]. rewrite exchange_unfold.
  apply spins_upd; [apply spins_upd; auto|]; eapply spins_nth; eauto.
Qed.
Lemma exchange_involution shape s d : In s (spin_configs (sites_of shape)) -> In d (sites_and_moves shape) ->
  exchange_candidate shape (exchange_candidate shape s d) d = s.
Proof.
  intros Hs Hd. apply spins_in in Hs. destruct Hs as [L _]. destruct (moves_lt _ _ Hd) as [A B]. rewrite !exchange_unfold.
  apply swap_involution; lia.
Qed.

Lemma sumZ_upd s : forall p v, (p < length s)%nat -> (sumZ (upd s p v) = sumZ s - nth p s 0 + v)%Z.
Proof.
  induction s as [|a s IH]; intros [|p] v H; cbn [length] in H; try lia; cbn [upd nth sumZ fold_right] in *.
  - unfold sumZ. cbn [fold_right]. lia.
  - unfold sumZ in *. cbn [fold_right]. rewrite IH by lia. lia.
Qed.
Lemma exchange_sum shape s d : In s (spin_configs (sites_of shape)) -> In d (sites_and_moves shape) ->
  sumZ (exchange_candidate shape s d) = sumZ s.
Proof.
  intros Hs Hd. apply spins_in in Hs. destruct Hs as [L _]. destruct (moves_lt _ _ Hd) as [A B]. rewrite exchange_unfold.
  set (p := fst _) in *. set (q := snd _) in *. rewrite sumZ_upd by (rewrite upd_length; lia). rewrite sumZ_upd by lia.
  destruct (Nat.eq_dec p q) as [E|N]; [rewrite E, nth_upd_same by lia; lia|]. rewrite nth_upd_other by auto. lia.
Qed.

Lemma sites_nonempty shape : Forall (fun n => (0 < n)%nat) shape -> sites shape <> [].
Proof.
  intros F. apply choices_nonempty. apply Forall_forall. intros l Hl. apply in_map_iff in Hl. destruct Hl as (m & <- & Hm).
  rewrite Forall_forall in F. specialize (F m Hm). destruct m; [lia|discriminate].
Qed.
Lemma moves_nonempty shape : Forall (fun n => (0 < n)%nat) shape -> sites_and_moves shape <> [].
Proof.
  intros F. apply choices_nonempty. apply Forall_forall. intros l Hl. apply in_map_iff in Hl. destruct Hl as (m & <- & Hm).
  rewrite Forall_forall in F. specialize (F m Hm). destruct m; [lia|discriminate].
Qed.

Lemma spin_configs_nonempty n : spin_configs n <> [].
Proof.
  intros E. assert (H : In (repeat 1%Z n) (spin_configs n)).
  { apply spins_in. split; [apply repeat_length|]. apply Forall_forall. intros x Hx. apply repeat_spec in Hx. now left. }
  rewrite E in H. destruct H.
Qed.
Lemma occurrences_configs n t : In t (spin_configs n) -> occurrences t (spin_configs n) = 1%nat.
Proof.
  intros H. pose proof (NoDup_spin_configs n) as N. unfold occurrences.
  rewrite (NoDup_count_occ' (list_eq_dec Z.eq_dec)) in N. now apply N.
Qed.

(** * Hamiltonian proposals *)
Section Hamiltonian.
  Context (n : nat) (op : operator) (g : list Z -> list (list Z)) (lp : list Z -> C).
  Context (G : symmetric_connectivity n op g).
  Definition ham_ratio (s c : list Z) : R := exp ((Re (lp c) - Re (lp s)) * 2 + ln (INR (length (g s)) / INR (length (g c)))).
  Definition ham_accept (s c : list Z) : R := Rmin (ham_ratio s c) 1.

  Lemma g_pos s : In s (spin_configs n) -> 0 < INR (length (g s)).
  Proof. intros H. apply INR_length_pos. now apply (proj1 (proj2 G)). Qed.

  Lemma ham_step s d u : In s (spin_configs n) -> In d (range (length (g s))) -> 0 <= u < 1 ->
    one_chain (hamiltonian_sweep op lp) ([d], [u]) lp s =
    if Rlt_dec u (ham_accept s (nth d (g s) [])) then nth d (g s) [] else s.
  Proof.
    intros Hs Hd Hu. apply in_seq in Hd. destruct G as (G1 & G2 & G3).
    destruct (G1 [s]) as (c & Ec & Hc); [discriminate|..]. { intros x [<-|[]]. exact Hs. }
    destruct (Hc 0%nat s eq_refl) as [U1 U2]. pose proof (proj2 (G2 s Hs) _ (nth_In (g s) [] (proj2 Hd))) as Hy.
    set (y := nth d (g s) []) in *.
    destruct (G1 [y]) as (c' & Ec' & Hc'); [discriminate|..]. { intros x [<-|[]]. exact Hy. }
    destruct (Hc' 0%nat y eq_refl) as [V1 V2].
    unfold one_chain, hamiltonian_sweep. cbn [sample sample_machine_values fst snd length]. rewrite Ec. cbn [bind].
    assert (EC : candidates_loop c 0 [d] = Ok [y]).
    { cbn [candidates_loop]. unfold hamiltonian_candidate. rewrite U1. destruct (g s) as [|x l] eqn:Eg.
      - exfalso. now apply (proj1 (G2 s Hs)).
      - rewrite (nth_error_nth' (x :: l) []) by exact (proj2 Hd). reflexivity. }
    rewrite EC. cbn [bind]. rewrite Ec'. cbn [bind].
    change (range 1) with [0%nat]. cbn [map combine map2 fst snd masked_assign sample nth]. rewrite U2, V2.
    unfold hamiltonian_accepts. pose proof (g_pos y Hy) as Py. destruct (Nat.eqb_spec (length (g y)) 0) as [E|_].
    { rewrite E in Py. cbn in Py. lra. }
    unfold ham_accept, ham_ratio, Rmin.
    set (r := exp _). clearbody r. destruct (Rle_dec r 1); destruct (Rlt_dec u r); auto.
    - destruct (Rlt_dec u 1); [reflexivity|lra].
    - lra.
  Qed.
  Lemma ham_accept_01 s c : 0 <= ham_accept s c <= 1.
  Proof.
    unfold ham_accept. pose proof (exp_pos ((Re (lp c) - Re (lp s)) * 2 + ln (INR (length (g s)) / INR (length (g c))))) as P.
    unfold ham_ratio, Rmin. destruct (Rle_dec _ _); lra.
  Qed.
  Lemma ham_ratio_val s c : In s (spin_configs n) -> In c (spin_configs n) ->
    ham_ratio s c = born (lp c) / born (lp s) * (INR (length (g s)) / INR (length (g c))).
  Proof.
    intros Hs Hc. pose proof (g_pos s Hs). pose proof (g_pos c Hc). unfold ham_ratio. rewrite exp_plus, exp_ln by now apply Rdiv_lt_0_compat.
    f_equal. rewrite !born_exp. unfold Rdiv. rewrite <- exp_Ropp, <- exp_plus. f_equal. ring.
  Qed.
  Lemma ham_balance s t : In s (spin_configs n) -> In t (spin_configs n) ->
    born (lp s) / INR (length (g s)) * ham_accept s t = born (lp t) / INR (length (g t)) * ham_accept t s.
  Proof.
    intros Hs Ht. unfold ham_accept. rewrite !ham_ratio_val by assumption.
    pose proof (g_pos s Hs) as Ps. pose proof (g_pos t Ht) as Pt.
    assert (Bs : 0 < born (lp s)) by (rewrite born_exp; apply exp_pos). assert (Bt : 0 < born (lp t)) by (rewrite born_exp; apply exp_pos).
    set (A := INR (length (g s))) in *. set (B := INR (length (g t))) in *. set (x := born (lp s)) in *. set (y := born (lp t)) in *.
    assert (M : forall k a b, 0 < k -> k * Rmin a b = Rmin (k * a) (k * b)).
    { intros k a b Hk. unfold Rmin. destruct (Rle_dec a b), (Rle_dec (k * a) (k * b)); auto; exfalso; nra. }
    rewrite !M by (apply Rdiv_lt_0_compat; assumption). rewrite Rmin_comm.
    f_equal; field; repeat split; lra.
  Qed.

  Lemma nth_range (l : list (list Z)) : map (fun d => nth d l []) (range (length l)) = l.
  Proof.
    apply (nth_ext _ _ [] []); [now rewrite map_length, range_length|]. intros i Hi. rewrite map_length, range_length in Hi.
    rewrite (nth_map_in _ _ _ _ 0%nat) by now rewrite range_length. unfold range. now rewrite seq_nth.
  Qed.

  Lemma hamiltonian_chain : exists K,
    kernel n (fun s => range (length (g s))) (fun s d u => one_chain (hamiltonian_sweep op lp) ([d], [u]) lp s) K /\
    stochastic n K /\ detailed_balance n (fun s => born (lp s)) K /\ stationary n (fun s => born (lp s)) K.
  Proof.
    set (draws := fun s => range (length (g s))). set (cand := fun s d => nth d (g s) []).
    exists (general_kernel draws cand ham_accept).
    assert (Hd : forall s, In s (spin_configs n) -> draws s <> []).
    { intros s Hs E. apply (proj1 (proj1 (proj2 G) s Hs)). unfold draws in E. apply length_zero_iff_nil.
      rewrite <- (range_length (length (g s))), E. reflexivity. }
    assert (Hc : forall s d, In s (spin_configs n) -> In d (draws s) -> In (cand s d) (spin_configs n)).
    { intros s d Hs Id. apply in_seq in Id. apply (proj2 (proj1 (proj2 G) s Hs)). apply nth_In. lia. }
    assert (K1 : stochastic n (general_kernel draws cand ham_accept)).
    { apply general_stochastic; auto. intros; apply ham_accept_01. }
    assert (K2 : detailed_balance n (fun s => born (lp s)) (general_kernel draws cand ham_accept)).
    { apply general_balance. intros s t Hs Ht N. unfold proposals, draws, cand. rewrite !nth_range, !range_length.
      rewrite (proj2 (proj2 G) s t Hs Ht). pose proof (ham_balance s t Hs Ht) as Q. unfold Rdiv in *.
      replace (born (lp s) * (INR (occurrences s (g t)) * / INR (length (g s)) * ham_accept s t))
        with (INR (occurrences s (g t)) * (born (lp s) * / INR (length (g s)) * ham_accept s t)) by ring.
      rewrite Q. ring. }
    split; [|split; [exact K1|split; [exact K2|now apply balance_stationary]]].
    apply general_is_kernel; [|intros; apply ham_accept_01]. intros s d u Hs Id Hu. now apply ham_step.
  Qed.
End Hamiltonian.
