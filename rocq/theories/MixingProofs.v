(** Convergence of Markov chains on configurations. *)
From Coq Require Import List ZArith Reals Bool Arith Lia Lra Permutation.
From Verif Require Import Base Cplx LatticeSpec AutoregressiveSpec ObservableModel ObservableSpec ObservableProofs
  ExactModel ExactSpec ExactProofs ExactSamplerProofs MetropolisModel MetropolisSpec MetropolisProofs MetropolisGlobalProofs MetropolisUniqueProofs MixingSpec.
Import ListNotations.
Local Open Scope R_scope.

Lemma Rabs_Rsum' {A} (f : A -> R) l : Rabs (Rsum f l) <= Rsum (fun a => Rabs (f a)) l.
Proof.
  induction l as [|a l IH]; [rewrite !Rsum_nil, Rabs_R0; lra|]. rewrite !Rsum_cons. eapply Rle_trans; [apply Rabs_triang|]. lra.
Qed.

Section Chain.
  Context (n : nat) (K : list Z -> list Z -> R) (pi : list Z -> R).
  Context (HS : stochastic n K) (Hpi : distribution n pi) (HP : stationary n pi K).
  Local Notation S := (spin_configs n).
  Local Notation act K mu := (fun t => Rsum (fun s => mu s * K s t) S).

  Lemma act_sum K' mu : stochastic n K' -> Rsum (act K' mu) S = Rsum mu S.
  Proof.
    intros HS'. rewrite Rsum_exchange. apply Rsum_ext. intros s Hs. rewrite Rsum_scal. destruct (HS' s Hs) as [_ ->]. ring.
  Qed.

  Lemma after_distribution mu k : distribution n mu -> distribution n (after n K k mu).
  Proof.
    intros HM. induction k as [|k IH]; [exact HM|]. cbn [after]. destruct IH as [A B]. split.
    - intros t Ht. apply Rsum_nonneg. intros s Hs. apply Rmult_le_pos; [now apply A|]. now apply (proj1 (HS s Hs)).
    - rewrite act_sum by assumption. exact B.
  Qed.

  (** A minorisation on a closed set contracts differences on that set. *)
  Context (Q : list Z -> bool) (Hpq : forall s, In s S -> Q s = false -> pi s = 0).
  Definition within (mu : list Z -> R) : Prop := forall s, In s S -> Q s = false -> mu s = 0.
  Definition closed (K : list Z -> list Z -> R) : Prop := forall s t, In s S -> In t S -> Q s = true -> Q t = false -> K s t = 0.

  Lemma contraction K' eps nu : stochastic n K' -> 0 <= eps -> within nu ->
    (forall s t, In s S -> In t S -> Q s = true -> eps * pi t <= K' s t) -> Rsum nu S = 0 ->
    Rsum (fun t => Rabs (act K' nu t)) S <= (1 - eps) * Rsum (fun s => Rabs (nu s)) S.
  Proof.
    intros HS' He HW HM H0.
    apply Rle_trans with (Rsum (fun t => Rsum (fun s => Rabs (nu s) * (K' s t - eps * pi t)) S) S).
    - apply Rsum_le. intros t Ht. cbv beta.
      replace (Rsum (fun s => nu s * K' s t) S) with (Rsum (fun s => nu s * (K' s t - eps * pi t)) S).
      2: { rewrite (Rsum_ext _ (fun s => nu s * K' s t - nu s * (eps * pi t))) by (intros; ring). rewrite Rsum_minus, Rsum_scal_r, H0. ring. }
      eapply Rle_trans; [apply Rabs_Rsum'|]. apply Rsum_le. intros s Hs. rewrite Rabs_mult. destruct (Q s) eqn:Eq.
      + apply Rmult_le_compat_l; [apply Rabs_pos|]. rewrite Rabs_right; [lra|]. specialize (HM s t Hs Ht Eq). lra.
      + rewrite (HW s Hs Eq), Rabs_R0. lra.
    - rewrite Rsum_exchange, <- Rsum_scal. apply Rsum_le. intros s Hs. rewrite Rsum_scal. rewrite Rsum_minus, Rsum_scal.
      destruct (HS' s Hs) as [_ ->]. destruct Hpi as [_ ->]. lra.
  Qed.

  Lemma after_within mu k : closed K -> within mu -> within (after n K k mu).
  Proof.
    intros HC HW. induction k as [|k IH]; [exact HW|]. intros t Ht Eq. cbn [after]. rewrite (Rsum_ext _ (fun _ => 0)); [apply Rsum_zero|].
    intros s Hs. destruct (Q s) eqn:Es; [rewrite (HC s t Hs Ht Es Eq); ring|rewrite (IH s Hs Es); ring].
  Qed.

  Lemma after_diff mu k t : In t S -> after n K (Datatypes.S k) mu t - pi t = act K (fun s => after n K k mu s - pi s) t.
  Proof.
    intros Ht. cbn [after]. rewrite <- (HP t Ht) at 1. rewrite <- Rsum_minus. apply Rsum_ext. intros; ring.
  Qed.

  Lemma diff_sum mu k : distribution n mu -> Rsum (fun s => after n K k mu s - pi s) S = 0.
  Proof. intros HM. rewrite Rsum_minus. destruct (after_distribution mu k HM) as [_ ->]. destruct Hpi as [_ ->]. ring. Qed.

  Lemma distance_step mu eps k : distribution n mu -> closed K -> within mu -> 0 <= eps ->
    (forall s t, In s S -> In t S -> Q s = true -> eps * pi t <= K s t) ->
    distance n (after n K (Datatypes.S k) mu) pi <= (1 - eps) * distance n (after n K k mu) pi.
  Proof.
    intros HM HC HW He HE. unfold distance. rewrite (Rsum_ext _ (fun t => Rabs (act K (fun s => after n K k mu s - pi s) t))).
    - apply contraction; auto; [|now apply diff_sum]. intros s Hs Eq. rewrite (after_within mu k HC HW s Hs Eq), (Hpq s Hs Eq). ring.
    - intros t Ht. now rewrite after_diff.
  Qed.

  Lemma distance_decreases mu k : distribution n mu -> distance n (after n K (Datatypes.S k) mu) pi <= distance n (after n K k mu) pi.
  Proof.
    intros HM. unfold distance. rewrite (Rsum_ext _ (fun t => Rabs (act K (fun s => after n K k mu s - pi s) t))) by (intros t Ht; now rewrite after_diff).
    apply Rle_trans with (Rsum (fun t => Rsum (fun s => Rabs (after n K k mu s - pi s) * K s t) S) S).
    - apply Rsum_le. intros t Ht. eapply Rle_trans; [apply Rabs_Rsum'|]. apply Rsum_le. intros s Hs. rewrite Rabs_mult.
      rewrite (Rabs_right (K s t)); [lra|]. apply Rle_ge. now apply (proj1 (HS s Hs)).
    - rewrite Rsum_exchange. right. apply Rsum_ext. intros s Hs. rewrite Rsum_scal. destruct (HS s Hs) as [_ ->]. ring.
  Qed.

  Lemma distance_2 mu : distribution n mu -> distance n mu pi <= 2.
  Proof.
    intros [A B]. unfold distance. apply Rle_trans with (Rsum (fun s => mu s + pi s) S).
    - apply Rsum_le. intros s Hs. specialize (A s Hs). destruct Hpi as [C _]. specialize (C s Hs).
      apply Rabs_le. lra.
    - rewrite Rsum_plus, B. destruct Hpi as [_ ->]. lra.
  Qed.

  Lemma doeblin mu eps k : distribution n mu -> closed K -> within mu -> 0 <= eps <= 1 ->
    (forall s t, In s S -> In t S -> Q s = true -> eps * pi t <= K s t) ->
    distance n (after n K k mu) pi <= 2 * (1 - eps) ^ k.
  Proof.
    intros HM HC HW [He1 He2] HE. induction k as [|k IH].
    - rewrite pow_O, Rmult_1_r. now apply distance_2.
    - eapply Rle_trans; [apply (distance_step mu eps k); auto|]. cbn [pow]. 
      apply Rle_trans with ((1 - eps) * (2 * (1 - eps) ^ k)); [apply Rmult_le_compat_l; [lra|exact IH]|lra].
  Qed.

  (** * Several steps at once *)
  Lemma after_ext k mu mu' : (forall s, In s S -> mu s = mu' s) -> forall t, In t S -> after n K k mu t = after n K k mu' t.
  Proof.
    intros E. induction k as [|k IH]; intros t Ht; [now apply E|]. cbn [after]. apply Rsum_ext. intros s Hs. now rewrite IH.
  Qed.
  Lemma after_add a b mu : after n K (a + b) mu = after n K b (after n K a mu).
  Proof. rewrite Nat.add_comm. induction b as [|b IH]; [reflexivity|]. cbn [Nat.add after]. now rewrite IH. Qed.

  Definition power (k : nat) (s t : list Z) : R := after n K k (starts_in s) t.

  Lemma starts_in_distribution s : In s S -> distribution n (starts_in s).
  Proof.
    intros Hs. split.
    - intros t _. unfold starts_in. destruct (list_eq_dec Z.eq_dec t s); lra.
    - rewrite (Rsum_ext _ (fun t => if eqd s t then (fun _ => 1) t else 0)).
      + now rewrite (Rsum_single eqd (fun _ => 1) s S (NoDup_spin_configs n) Hs).
      + intros t _. unfold starts_in, eqd. destruct (list_eq_dec Z.eq_dec t s), (list_eq_dec Z.eq_dec s t); congruence.
  Qed.

  Lemma after_power k mu t : In t S -> after n K k mu t = act (power k) mu t.
  Proof.
    revert t. induction k as [|k IH]; intros t Ht.
    - cbn [after]. unfold power. cbn [after].
      rewrite (Rsum_ext _ (fun s => if eqd t s then mu s else 0)).
      + now rewrite (Rsum_single eqd mu t S (NoDup_spin_configs n) Ht).
      + intros s _. unfold starts_in, eqd. destruct (list_eq_dec Z.eq_dec t s); ring.
    - cbn [after]. rewrite (Rsum_ext _ (fun s => Rsum (fun u => mu u * power k u s * K s t) S)).
      + rewrite Rsum_exchange. apply Rsum_ext. intros u Hu. unfold power at 2. cbn [after]. rewrite <- Rsum_scal. apply Rsum_ext. intros s Hs.
        unfold power. ring.
      + intros s Hs. rewrite IH by assumption. rewrite Rsum_scal_r. reflexivity.
  Qed.

  Lemma power_stochastic k : stochastic n (power k).
  Proof. intros s Hs. destruct (after_distribution (starts_in s) k (starts_in_distribution s Hs)) as [A B]. split; assumption. Qed.
  Lemma power_stationary k : stationary n pi (power k).
  Proof.
    intros t Ht. rewrite <- (after_power k pi t Ht). revert t Ht. induction k as [|k IH]; intros t Ht; [reflexivity|]. cbn [after].
    rewrite (Rsum_ext _ (fun s => pi s * K s t)) by (intros s Hs; now rewrite IH). now apply HP.
  Qed.

  Lemma power_add a b s x t : In s S -> In x S -> In t S -> power a s x * power b x t <= power (a + b) s t.
  Proof.
    intros Hs Hx Ht. unfold power at 3. rewrite after_add. rewrite after_power by assumption.
    apply (Rsum_in_le (fun y => after n K a (starts_in s) y * power b y t) S x).
    - intros y Hy. apply Rmult_le_pos; [|now apply (proj1 (power_stochastic b y Hy))]. now apply (proj1 (power_stochastic a s Hs)).
    - exact Hx.
  Qed.
  Lemma power_1 s t : In s S -> In t S -> power 1 s t = K s t.
  Proof.
    intros Hs Ht. unfold power. cbn [after]. rewrite (Rsum_ext _ (fun y => if eqd s y then K y t else 0)).
    - apply (Rsum_single eqd (fun y => K y t) s S (NoDup_spin_configs n) Hs).
    - intros y _. unfold starts_in, eqd. destruct (list_eq_dec Z.eq_dec y s), (list_eq_dec Z.eq_dec s y); try congruence; ring.
  Qed.
  Lemma power_0 s : power 0 s s = 1.
  Proof. unfold power, starts_in. cbn [after]. destruct (list_eq_dec Z.eq_dec s s); congruence. Qed.

  Lemma power_loop x j : In x S -> 0 < K x x -> 0 < power j x x.
  Proof.
    intros Hx Hl. induction j as [|j IH]; [rewrite power_0; lra|]. rewrite <- Nat.add_1_r.
    eapply Rlt_le_trans; [|apply (power_add j 1 x x x); auto]. rewrite power_1 by assumption. now apply Rmult_lt_0_compat.
  Qed.
End Chain.

Lemma after_iterate n K N k mu t : In t (spin_configs n) -> after n K (k * N) mu t = after n (power n K N) k mu t.
Proof.
  revert t. induction k as [|k IH]; intros t Ht; [reflexivity|].
  replace (S k * N)%nat with (k * N + N)%nat by lia. rewrite after_add, after_power by assumption. cbn [after]. apply Rsum_ext. intros s Hs.
  now rewrite IH.
Qed.

Lemma finite_bound {A} (P : A -> nat -> Prop) l : (forall a, In a l -> exists k, P a k) -> exists M, forall a, In a l -> exists k, P a k /\ (k <= M)%nat.
Proof.
  induction l as [|a l IH]; intros E; [exists 0%nat; intros a []|]. destruct IH as (M & HM); [intros; apply E; now right|].
  destruct (E a ltac:(now left)) as (k & Hk). exists (Nat.max k M). intros b [<-|Hb]; [exists k; split; [assumption|lia]|].
  destruct (HM b Hb) as (j & Hj & L). exists j. split; [assumption|lia].
Qed.
Lemma finite_min {A} (f : A -> R) l : (forall a, In a l -> 0 < f a) -> exists m, 0 < m /\ forall a, In a l -> m <= f a.
Proof.
  induction l as [|a l IH]; intros E; [exists 1; split; [lra|intros a []]|]. destruct IH as (m & Hm & HM); [intros; apply E; now right|].
  pose proof (E a ltac:(now left)). exists (Rmin (f a) m). split; [now apply Rmin_pos|]. intros b [<-|Hb]; [apply Rmin_l|].
  eapply Rle_trans; [apply Rmin_r|now apply HM].
Qed.

Lemma power_closed n K Q k : stochastic n K -> closed n Q K -> closed n Q (power n K k).
Proof.
  intros HS HC s t Hs Ht Es Et. unfold power. apply (after_within n K Q (starts_in s) k HC); auto.
  intros x Hx Ex. unfold starts_in. destruct (list_eq_dec Z.eq_dec x s); [congruence|reflexivity].
Qed.

(** On a closed set irreducible, reversible and with one configuration in which the chain can stay: convergence. *)
Lemma converges n K pi Q : stochastic n K -> distribution n pi -> closed n Q K ->
  (forall s, In s (spin_configs n) -> Q s = true -> 0 < pi s) -> (forall s, In s (spin_configs n) -> Q s = false -> pi s = 0) ->
  detailed_balance n pi K ->
  (forall P : list Z -> Prop, (forall s t, In s (spin_configs n) -> In t (spin_configs n) -> 0 < K s t -> P s -> P t) ->
     forall s t, In s (spin_configs n) -> In t (spin_configs n) -> Q s = true -> Q t = true -> P s -> P t) ->
  (exists x, In x (spin_configs n) /\ Q x = true /\ 0 < K x x) ->
  exists N eps, (0 < N)%nat /\ 0 < eps <= 1 /\
    forall mu k, distribution n mu -> within n Q mu -> distance n (after n K (k * N) mu) pi <= 2 * (1 - eps) ^ k.
Proof.
  intros HS Hpi HC Pos Zero HB HR (x & Hx & Qx & Hl).
  pose proof (balance_stationary n pi K HS HB) as HP.
  assert (Out : forall t, In t (filter Q (spin_configs n)) -> exists k, 0 < power n K k x t).
  { intros t Ht. apply filter_In in Ht. destruct Ht as [Ht Qt]. apply (HR (fun y => In y (spin_configs n) /\ exists k, 0 < power n K k x y)) with (s := x); auto.
    - intros y z Hy Hz P [_ (k & Hk)]. split; [assumption|]. exists (k + 1)%nat. eapply Rlt_le_trans; [|apply (power_add n K HS k 1 x y z); auto].
      rewrite power_1 by assumption. now apply Rmult_lt_0_compat.
    - split; [assumption|]. exists 0%nat. rewrite power_0. lra. }
  assert (In_ : forall s, In s (filter Q (spin_configs n)) -> exists k, 0 < power n K k s x).
  { intros s Hs. apply filter_In in Hs. destruct Hs as [Hs Qs].
    apply (HR (fun y => In y (spin_configs n) /\ Q y = true /\ exists k, 0 < power n K k y x)) with (s := x); auto.
    - intros y z Hy Hz P [_ (Qy & k & Hk)]. assert (Qz : Q z = true).
      { destruct (Q z) eqn:E; [reflexivity|]. exfalso. rewrite (HC y z Hy Hz Qy E) in P. lra. }
      split; [assumption|]. split; [assumption|]. exists (1 + k)%nat. eapply Rlt_le_trans; [|apply (power_add n K HS 1 k z y x); auto].
      rewrite power_1 by assumption. apply Rmult_lt_0_compat; [|exact Hk].
      specialize (HB y z Hy Hz). pose proof (Pos y Hy Qy). pose proof (Pos z Hz Qz).
      apply (Rmult_lt_reg_l (pi z)); [assumption|]. rewrite Rmult_0_r, <- HB. now apply Rmult_lt_0_compat.
    - split; [assumption|]. split; [assumption|]. exists 0%nat. rewrite power_0. lra. }
  destruct (finite_bound _ _ Out) as (Mo & HMo). destruct (finite_bound _ _ In_) as (Mi & HMi).
  set (N := (Mi + Mo + 1)%nat).
  assert (All : forall s t, In s (filter Q (spin_configs n)) -> In t (filter Q (spin_configs n)) -> 0 < power n K N s t).
  { intros s t Hs' Ht'. destruct (HMi s Hs') as (a & Ha & La). destruct (HMo t Ht') as (b & Hb & Lb).
    apply filter_In in Hs'. apply filter_In in Ht'. destruct Hs' as [Hs _]. destruct Ht' as [Ht _].
    replace N with ((a + (N - a - b)) + b)%nat by (unfold N; lia).
    eapply Rlt_le_trans; [|apply (power_add n K HS (a + (N - a - b)) b s x t); auto]. apply Rmult_lt_0_compat; [|exact Hb].
    eapply Rlt_le_trans; [|apply (power_add n K HS a (N - a - b) s x x); auto]. apply Rmult_lt_0_compat; [exact Ha|].
    now apply power_loop. }
  destruct (finite_min (fun st => power n K N (fst st) (snd st)) (list_prod (filter Q (spin_configs n)) (filter Q (spin_configs n)))) as (m & Hm & HM).
  { intros [s t] Hst. apply in_prod_iff in Hst. now apply All. }
  assert (M : forall s t, In s (filter Q (spin_configs n)) -> In t (filter Q (spin_configs n)) -> m <= power n K N s t).
  { intros s t Hs Ht. apply (HM (s, t)). now apply in_prod_iff. }
  assert (Pi1 : forall t, In t (spin_configs n) -> pi t <= 1).
  { intros t Ht. destruct Hpi as [A B]. rewrite <- B. now apply Rsum_in_le. }
  exists N, (Rmin m 1). split; [unfold N; lia|]. assert (E1 : 0 < Rmin m 1 <= 1) by (split; [apply Rmin_pos; lra|apply Rmin_r]). split; [exact E1|].
  intros mu k HMu HW. unfold distance.
  rewrite (Rsum_ext _ (fun s => Rabs (after n (power n K N) k mu s - pi s))) by (intros s Hs; now rewrite after_iterate).
  apply (doeblin n (power n K N) pi (power_stochastic n K HS N) Hpi (power_stationary n K pi HP N) Q Zero mu (Rmin m 1) k HMu).
  - now apply power_closed.
  - exact HW.
  - lra.
  - intros s t Hs Ht Qs. destruct (Q t) eqn:Qt.
    + eapply Rle_trans; [|apply M; apply filter_In; now split]. apply Rle_trans with (Rmin m 1 * 1); [|rewrite Rmult_1_r; apply Rmin_l].
      apply Rmult_le_compat_l; [lra|now apply Pi1].
    + rewrite (Zero t Ht Qt), Rmult_0_r. now apply (proj1 (power_stochastic n K HS N s Hs)).
Qed.
