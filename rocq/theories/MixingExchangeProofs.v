(** Exchange moves connect all configurations with the same total spin. *)
From Coq Require Import List ZArith Reals Bool Arith Lia Lra Permutation.
From Verif Require Import Base Cplx LatticeSpec AutoregressiveSpec IsingProofs ObservableModel ObservableSpec ObservableProofs TopologyProofs
  ExactModel ExactSpec ExactProofs MetropolisModel MetropolisSpec MetropolisProofs MetropolisGlobalProofs MetropolisUniqueProofs
  MixingSpec MixingProofs MixingSamplerProofs.
Import ListNotations.
Local Open Scope nat_scope.

Definition swap (s : list Z) (p q : nat) : list Z := upd (upd s p (nth q s 0%Z)) q (nth p s 0%Z).

Lemma swap_length s p q : length (swap s p q) = length s.
Proof. unfold swap. now rewrite !upd_length. Qed.
Lemma nth_swap s p q i : p < length s -> q < length s ->
  nth i (swap s p q) 0%Z = if i =? q then nth p s 0%Z else if i =? p then nth q s 0%Z else nth i s 0%Z.
Proof. exact (swap_nth s p q i). Qed.
Lemma swap_same s p : p < length s -> swap s p p = s.
Proof.
  intros H. apply (nth_ext _ _ 0%Z 0%Z); [apply swap_length|]. intros i _. rewrite nth_swap by assumption.
  destruct (Nat.eqb_spec i p) as [->|]; reflexivity.
Qed.
Lemma swap_spins n s p q : spins n s -> p < n -> q < n -> spins n (swap s p q).
Proof. intros H Hp Hq. unfold swap. apply spins_upd; [apply spins_upd; auto|]; eapply spins_nth; eauto. Qed.
Lemma swap_sum s p q : p < length s -> q < length s -> sumZ (swap s p q) = sumZ s.
Proof.
  intros Hp Hq. unfold swap. rewrite sumZ_upd by (rewrite upd_length; lia). rewrite sumZ_upd by lia.
  destruct (Nat.eq_dec p q) as [->|N]; [rewrite nth_upd_same by lia; lia|]. rewrite nth_upd_other by auto. lia.
Qed.
Lemma swap_conjugate s p r q : p < length s -> r < length s -> q < length s -> p <> r -> r <> q -> p <> q ->
  swap (swap (swap s p r) r q) p r = swap s p q.
Proof.
  intros Hp Hr Hq N1 N2 N3. apply (nth_ext _ _ 0%Z 0%Z); [now rewrite !swap_length|]. intros i _.
  rewrite !nth_swap by (rewrite ?swap_length; auto).
  repeat match goal with |- context [?a =? ?b] => destruct (Nat.eqb_spec a b); subst end; try congruence; try lia; reflexivity.
Qed.

(** Sets closed under the exchanges of two sites. *)
Section Closed.
  Context (n : nat) (P : list Z -> Prop).
  Definition exchanges (p q : nat) : Prop := forall x, In x (spin_configs n) -> P x -> P (swap x p q).

  Lemma exchanges_same p : p < n -> exchanges p p.
  Proof. intros H x Hx HP. apply spins_in in Hx. destruct Hx as [L _]. now rewrite swap_same by lia. Qed.
  Lemma exchanges_trans p r q : p < n -> r < n -> q < n -> exchanges p r -> exchanges r q -> exchanges p q.
  Proof.
    intros Hp Hr Hq E1 E2. destruct (Nat.eq_dec p r) as [->|N1]; [exact E2|]. destruct (Nat.eq_dec r q) as [->|N2]; [exact E1|].
    destruct (Nat.eq_dec p q) as [->|N3]; [now apply exchanges_same|]. intros x Hx HP. pose proof Hx as Hx'. apply spins_in in Hx'.
    assert (L : length x = n) by apply Hx'. rewrite <- (swap_conjugate x p r q) by (lia || assumption).
    assert (H1 : In (swap x p r) (spin_configs n)) by (apply spins_in; now apply swap_spins).
    assert (H2 : In (swap (swap x p r) r q) (spin_configs n)) by (apply spins_in; apply swap_spins; auto; now apply spins_in).
    apply E1; [exact H2|]. apply E2; [exact H1|]. now apply E1.
  Qed.

  (** If all sites may be exchanged, all configurations with the same sum are reached. *)
  Lemma sum_bound l : Forall is_spin l -> (- Z.of_nat (length l) <= sumZ l <= Z.of_nat (length l))%Z.
  Proof. induction 1 as [|a l Ha F IH]; [cbn; lia|]. unfold sumZ in *. cbn [fold_right length]. destruct Ha; lia. Qed.
  Lemma sum_const v l : Forall is_spin l -> (v = 1 \/ v = -1)%Z -> ~ In v l -> (sumZ l = - v * Z.of_nat (length l))%Z.
  Proof.
    intros F Hv. induction F as [|a l Ha F IH]; intros NI; [cbn; lia|]. cbn [In] in NI.
    assert (Ea : a = (- v)%Z) by (destruct Ha, Hv; subst; try lia; exfalso; apply NI; now left).
    unfold sumZ in *. cbn [fold_right length]. rewrite IH by tauto. lia.
  Qed.
  Lemma finds_other x xs t ts : is_spin x -> is_spin t -> Forall is_spin xs -> Forall is_spin ts -> length xs = length ts ->
    x <> t -> sumZ (x :: xs) = sumZ (t :: ts) -> In t xs.
  Proof.
    intros Hx Ht Fx Ft L N E. destruct (in_dec Z.eq_dec t xs) as [I|NI]; [exact I|]. exfalso.
    pose proof (sum_const t xs Fx Ht NI) as S1. pose proof (sum_bound ts Ft) as S2.
    unfold sumZ in *. cbn [fold_right] in E. rewrite S1, L in E. destruct Hx, Ht; subst; lia.
  Qed.

  Lemma sumZ_app a b : (sumZ (a ++ b) = sumZ a + sumZ b)%Z.
  Proof. unfold sumZ. induction a as [|x a IH]; [reflexivity|]. cbn [app fold_right]. rewrite IH. lia. Qed.

  Lemma same_sum_reached : (forall p q, p < n -> q < n -> exchanges p q) ->
    forall s t, In s (spin_configs n) -> In t (spin_configs n) -> sumZ s = sumZ t -> P s -> P t.
  Proof.
    intros HE s t Hs Ht HS HP.
    assert (Hyb : forall k, k <= n -> exists x, In x (spin_configs n) /\ P x /\ sumZ x = sumZ t /\ firstn k x = firstn k t).
    { induction k as [|k IH]; intros Hk; [exists s; auto|]. destruct IH as (x & Hx & Px & Sx & Fx); [lia|].
      pose proof Hx as Hx'. pose proof Ht as Ht'. apply spins_in in Hx'. apply spins_in in Ht'. destruct Hx' as [Lx Fox]. destruct Ht' as [Lt Fot].
      assert (Split : forall l : list Z, length l = n -> l = firstn k l ++ nth k l 0%Z :: skipn (S k) l).
      { intros l Ll. rewrite <- (firstn_skipn k l) at 1. f_equal. clear - Ll Hk. revert l Ll. generalize n Hk. clear. induction k as [|k IH]; intros n Hk [|a l] L; cbn [length] in L; try lia; [reflexivity|].
        cbn [skipn nth]. apply (IH (n - 1)); lia. }
      destruct (Z.eq_dec (nth k x 0%Z) (nth k t 0%Z)) as [E|N].
      - exists x. split; [exact Hx|]. split; [exact Px|]. split; [exact Sx|].
        rewrite (Split x Lx), (Split t Lt). rewrite Fx, E. rewrite !firstn_app, !firstn_firstn, !firstn_length, Lt.
        replace (S k - Nat.min k n) with 1 by lia. reflexivity.
      - assert (I : In (nth k t 0%Z) (skipn (S k) x)).
        { apply (finds_other (nth k x 0%Z) (skipn (S k) x) (nth k t 0%Z) (skipn (S k) t)).
          - apply (spins_nth n); [now split|lia].
          - apply (spins_nth n); [now split|lia].
          - rewrite Forall_forall in *. intros z Hz. apply Fox. rewrite <- (firstn_skipn (S k) x). apply in_or_app. now right.
          - rewrite Forall_forall in *. intros z Hz. apply Fot. rewrite <- (firstn_skipn (S k) t). apply in_or_app. now right.
          - rewrite !skipn_length. lia.
          - exact N.
          - rewrite (Split x Lx), (Split t Lt), !sumZ_app, Fx in Sx. lia. }
        apply (In_nth _ _ 0%Z) in I. destruct I as (j & Hj & Ej). rewrite skipn_length in Hj. rewrite nth_skipn in Ej. set (q := S k + j) in *.
        assert (Hq : q < n) by (unfold q; lia). exists (swap x k q).
        split; [apply spins_in; apply swap_spins; [now split|lia|lia]|]. split; [now apply HE; [lia| | |]|].
        split; [rewrite swap_sum by lia; exact Sx|].
        apply (nth_ext _ _ 0%Z 0%Z); [rewrite !firstn_length, swap_length; lia|]. intros i Hi. rewrite firstn_length, swap_length in Hi.
        rewrite !nth_firstn by lia. rewrite nth_swap by lia. destruct (Nat.eqb_spec i q); [unfold q in *; lia|].
        destruct (Nat.eqb_spec i k) as [->|Ni]; [exact Ej|].
        rewrite <- (nth_firstn x k i 0%Z), <- (nth_firstn t k i 0%Z) by lia. now rewrite Fx. }
    destruct (Hyb n (le_n n)) as (x & Hx & Px & _ & Fx). apply spins_in in Hx. apply spins_in in Ht. destruct Hx as [Lx _]. destruct Ht as [Lt _].
    rewrite !firstn_all2 in Fx by lia. now subst x.
  Qed.
End Closed.

(** * The moves of the exchange sampler *)
Definition near (i j : nat) : Prop := i <= j + 1 /\ j <= i + 1.
Definition toward (i j : nat) : nat := if i <? j then i + 1 else if j <? i then i - 1 else i.

Lemma move_exists shape : forall a b, Forall2 lt a shape -> Forall2 lt b shape -> Forall2 near a b ->
  exists d, In d (sites_and_moves shape) /\ exchange_sites shape d = (ravel shape a, ravel shape b).
Proof.
  intros a b Ha Hb Hn. exists (map2 (fun i j => (i, (Z.of_nat j - Z.of_nat i)%Z)) a b). split.
  - unfold sites_and_moves. apply choices_in. revert a b Ha Hb Hn. induction shape as [|m shape IH]; intros a b Ha Hb Hn;
      inversion Ha as [|i ? a' ? Hi Ha']; inversion Hb as [|j ? b' ? Hj Hb']; subst; inversion Hn as [|? ? ? ? Hij Hn']; subst; cbn [map2 map]; constructor.
    + apply in_prod; [apply in_seq; lia|]. destruct Hij as [A B]. cbn [In].
      assert (C : (Z.of_nat j - Z.of_nat i = -1 \/ Z.of_nat j - Z.of_nat i = 0 \/ Z.of_nat j - Z.of_nat i = 1)%Z) by lia.
      destruct C as [C|[C|C]]; rewrite C; tauto.
    + now apply IH.
  - unfold exchange_sites. f_equal.
    + f_equal. revert a b Ha Hb Hn. induction shape as [|m shape IH]; intros a b Ha Hb Hn;
      inversion Ha as [|i ? a' ? Hi Ha']; inversion Hb as [|j ? b' ? Hj Hb']; subst; inversion Hn as [|? ? ? ? Hij Hn']; subst; cbn [map2 map fst]; [reflexivity|].
      f_equal. now apply IH.
    + f_equal. revert a b Ha Hb Hn. induction shape as [|m shape IH]; intros a b Ha Hb Hn;
      inversion Ha as [|i ? a' ? Hi Ha']; inversion Hb as [|j ? b' ? Hj Hb']; subst; inversion Hn as [|? ? ? ? Hij Hn']; subst; cbn [map2 map fst snd]; [reflexivity|].
      f_equal; [|now apply IH]. replace (Z.of_nat i + (Z.of_nat j - Z.of_nat i))%Z with (Z.of_nat j) by lia. rewrite Z.mod_small by lia. lia.
Qed.

Lemma toward_facts m shape : forall a b, Forall2 lt a shape -> Forall2 lt b shape -> Forall2 (fun i j => i <= j + S m /\ j <= i + S m) a b ->
  Forall2 lt (map2 toward a b) shape /\ Forall2 near a (map2 toward a b) /\ Forall2 (fun i j => i <= j + m /\ j <= i + m) (map2 toward a b) b.
Proof.
  induction shape as [|k shape IH]; intros a b Ha Hb Hn;
    inversion Ha as [|i ? a' ? Hi Ha']; inversion Hb as [|j ? b' ? Hj Hb']; subst; inversion Hn as [|? ? ? ? Hij Hn']; subst; cbn [map2].
  - split; [constructor|]. split; constructor.
  - destruct (IH a' b' Ha' Hb' Hn') as (A & B & C).
    assert (T : toward i j < k /\ near i (toward i j) /\ toward i j <= j + m /\ j <= toward i j + m).
    { unfold toward, near. destruct (Nat.ltb_spec i j); [lia|]. destruct (Nat.ltb_spec j i); lia. }
    split; [constructor; tauto|]. split; constructor; tauto.
Qed.

Lemma exchange_all shape (P : list Z -> Prop) :
  (forall s d, In s (spin_configs (sites_of shape)) -> In d (sites_and_moves shape) -> P s -> P (exchange_candidate shape s d)) ->
  forall p q, p < sites_of shape -> q < sites_of shape -> exchanges (sites_of shape) P p q.
Proof.
  intros HP.
  assert (Step : forall m a b, Forall2 lt a shape -> Forall2 lt b shape -> Forall2 (fun i j => i <= j + m /\ j <= i + m) a b ->
            exchanges (sites_of shape) P (ravel shape a) (ravel shape b)).
  { induction m as [|m IH]; intros a b Ha Hb Hn.
    - assert (a = b) as ->. { clear - Hn. induction Hn; [reflexivity|]. f_equal; [lia|assumption]. }
      apply exchanges_same. now apply ravel_lt.
    - destruct (toward_facts m shape a b Ha Hb Hn) as (A & B & C).
      apply (exchanges_trans _ _ _ (ravel shape (map2 toward a b))); try (now apply ravel_lt); [|now apply IH].
      destruct (move_exists shape a _ Ha A B) as (d & Id & Ed). intros x Hx Px. pose proof (HP x d Hx Id Px) as Q.
      rewrite exchange_unfold, Ed in Q. exact Q. }
  intros p q Hp Hq. destruct (ravel_onto shape p Hp) as (a & Ia & <-). destruct (ravel_onto shape q Hq) as (b & Ib & <-).
  assert (Lt : forall d, In d (sites shape) -> Forall2 lt d shape).
  { clear. intros d H. unfold sites in H. apply choices_in in H. revert d H. induction shape as [|m shape IH]; intros d H; inversion H; subst; constructor; auto.
    match goal with h : In _ (seq _ _) |- _ => apply in_seq in h end. lia. }
  pose proof (Lt a Ia) as La. pose proof (Lt b Ib) as Lb.
  assert (M : exists m, Forall2 (fun i j => i <= j + m /\ j <= i + m) a b).
  { clear - La Lb. revert a b La Lb. induction shape as [|k shape IH]; intros a b La Lb; inversion La; inversion Lb; subst; [exists 0; constructor|].
    match goal with h1 : Forall2 lt ?u shape, h2 : Forall2 lt ?v shape |- _ => destruct (IH u v h1 h2) as (m & Hm) end.
    exists (m + k). constructor; [lia|]. clear - Hm. induction Hm; constructor; [lia|assumption]. }
  destruct M as (m & Hm). now apply (Step m).
Qed.

Local Open Scope R_scope.
Lemma exchange_converges shape lp K m : Forall (fun m => (0 < m)%nat) shape ->
  (exists s, In s (spin_configs (sites_of shape)) /\ sumZ s = m) ->
  kernel (sites_of shape) (fun _ => sites_and_moves shape)
    (fun s d u => one_chain (symmetric_sweep (exchange_candidate shape) lp) ([d], [u]) lp s) K ->
  converges_within (sites_of shape) K (fun s => (sumZ s =? m)%Z)
    (conditioned (sites_of shape) (probability (sites_of shape) lp) (fun s => (sumZ s =? m)%Z)).
Proof.
  intros F (x & Hx & Ex) HK.
  apply (symmetric_converges (exchange_candidate shape) lp (sites_of shape) (sites_and_moves shape) (fun s => (sumZ s =? m)%Z)); auto.
  - now apply moves_nonempty.
  - apply exchange_spins.
  - apply involution_symmetric, exchange_involution.
  - intros s d Hs Hd. now rewrite exchange_sum.
  - intros P HP s t Hs Ht Es Et. apply Z.eqb_eq in Es. apply Z.eqb_eq in Et.
    apply (same_sum_reached (sites_of shape) P); auto; [|congruence]. now apply exchange_all.
  - assert (S0 : exists a, Forall2 lt a shape).
    { clear - F. induction F as [|k shape Hk F IH]; [exists []; constructor|]. destruct IH as (a & Ha). exists (0%nat :: a). now constructor. }
    destruct S0 as (a & Ha). destruct (move_exists shape a a Ha Ha) as (d & Id & Ed).
    { clear. induction a; constructor; [unfold near; lia|assumption]. }
    exists x, d. split; [exact Hx|]. split; [exact Id|]. split; [now apply Z.eqb_eq|]. left. rewrite exchange_unfold, Ed. cbn [fst snd].
    apply spins_in in Hx. destruct Hx as [L _]. apply (swap_same x). rewrite L. now apply ravel_lt.
Qed.
