(** Convergence of the Hamiltonian sampler. *)
From Coq Require Import List ZArith Reals Bool Arith Lia Lra Permutation.
From Verif Require Import Base Cplx LatticeSpec IsingModel IsingProofs HeisenbergModel HeisenbergProofs AutoregressiveSpec
  ObservableModel ObservableSpec ObservableProofs TopologyProofs ExactModel ExactSpec ExactProofs ExactOperatorProofs
  MetropolisModel MetropolisSpec MetropolisProofs MetropolisOperatorProofs MetropolisUniqueProofs
  MixingSpec MixingProofs MixingSamplerProofs MixingExchangeProofs.
Import ListNotations.
Local Open Scope R_scope.

Section Hamiltonian.
  Context (n : nat) (op : operator) (g : list Z -> list (list Z)) (lp : list Z -> C) (Q : list Z -> bool).
  Context (G : symmetric_connectivity n op g) (K : list Z -> list Z -> R).
  Context (HK : kernel n (fun s => range (length (g s))) (fun s d u => one_chain (hamiltonian_sweep op lp) ([d], [u]) lp s) K).
  Local Notation draws := (fun s => range (length (g s))).
  Local Notation cand := (fun s d => nth d (g s) []).

  Lemma hamiltonian_kernel s t : In s (spin_configs n) -> In t (spin_configs n) ->
    K s t = general_kernel draws cand (ham_accept g lp) s t.
  Proof.
    assert (HK0 : kernel n draws (fun s d u => one_chain (hamiltonian_sweep op lp) ([d], [u]) lp s) (general_kernel draws cand (ham_accept g lp))).
    { apply general_is_kernel; [|intros; apply ham_accept_01]. intros s' d u Hs Id Hu. now apply (ham_step n). }
    intros Hs Ht. eapply transition_unique; [now apply HK|now apply HK0].
  Qed.

  Lemma hamiltonian_pos s t : In s (spin_configs n) -> In t (g s) -> 0 < K s t.
  Proof.
    intros Hs It. assert (Ht : In t (spin_configs n)) by now apply (proj2 (proj1 (proj2 G) s Hs)).
    rewrite hamiltonian_kernel by assumption. unfold general_kernel.
    apply Rmult_lt_0_compat; [|rewrite range_length; apply Rinv_0_lt_compat; now apply (g_pos n op)].
    apply (In_nth _ _ []) in It. destruct It as (d & Hd & Ed).
    assert (AP : forall a b, 0 < ham_accept g lp a b).
    { intros a b. unfold ham_accept, ham_ratio. apply Rmin_pos; [apply exp_pos|lra]. }
    eapply Rlt_le_trans; [|apply (Rsum_in_le _ _ d)]; [| |unfold range; apply in_seq; lia].
    - cbv beta. unfold good_numbers, len. rewrite Ed. destruct (eqd t t); [|congruence]. pose proof (AP s t). destruct (eqd s t); cbn [fst snd]; lra.
    - intros d' _. unfold good_numbers, len. pose proof (ham_accept_01 g lp s (nth d' (g s) [])). pose proof (ham_accept_01 g lp s t).
      destruct (eqd (nth d' (g s) []) t); destruct (eqd s t); cbn [fst snd]; lra.
  Qed.

  Lemma hamiltonian_converges :
    (forall s t, In s (spin_configs n) -> In t (g s) -> Q t = Q s) ->
    (forall P : list Z -> Prop, (forall s t, In s (spin_configs n) -> In t (g s) -> P s -> P t) ->
       forall s t, In s (spin_configs n) -> In t (spin_configs n) -> Q s = true -> Q t = true -> P s -> P t) ->
    (exists x, In x (spin_configs n) /\ Q x = true /\ In x (g x)) ->
    converges_within n K Q (conditioned n (probability n lp) Q).
  Proof.
    intros HQ HR (x & Hx & Qx & Ix). destruct (hamiltonian_chain n op g lp G) as (K' & HK' & HS' & HB' & _).
    destruct (kernel_facts n _ _ K K' _ HK HK' HS' HB') as [HS HB]. apply kernel_converges; auto.
    - intros s t Hs Ht N. rewrite hamiltonian_kernel by assumption. unfold general_kernel.
      rewrite (Rsum_ext _ (fun _ => 0)); [rewrite Rsum_zero; unfold Rdiv; ring|]. intros d Id. unfold good_numbers, len.
      destruct (eqd (nth d (g s) []) t) as [E|_].
      + exfalso. apply N. symmetry. apply (HQ s t Hs). rewrite <- E. apply nth_In. apply in_seq in Id. lia.
      + destruct (eqd s t); [congruence|]. cbn [fst snd]. lra.
    - intros P HP. apply HR. intros s t Hs It. apply HP; auto; [|now apply hamiltonian_pos]. now apply (proj2 (proj1 (proj2 G) s Hs)).
    - exists x. split; [exact Hx|]. split; [exact Qx|]. now apply hamiltonian_pos.
  Qed.
End Hamiltonian.

Lemma ising_sampler_converges J h pbc shape lp : good_shape shape pbc ->
  exists g, symmetric_connectivity (sites_of shape) (ising_operator J h pbc shape) g /\
    forall K, kernel (sites_of shape) (fun s => range (length (g s)))
        (fun s d u => one_chain (hamiltonian_sweep (ising_operator J h pbc shape) lp) ([d], [u]) lp s) K ->
      converges_within (sites_of shape) K (fun _ => true) (probability (sites_of shape) lp).
Proof.
  intros GS. pose proof (ising_connectivity J h pbc shape GS) as G. eexists. split; [exact G|]. intros K HK. apply converges_all.
  apply (hamiltonian_converges _ _ _ lp (fun _ => true) G K HK); auto.
  - intros P HP s t Hs Ht _ _. apply (local_reach shape P); auto. intros x d Hx Hd. apply HP; [exact Hx|]. right.
    apply in_map_iff. exists (ravel shape d). split; [|unfold range; apply in_seq; pose proof (sites_lt shape d Hd); lia].
    unfold flip_site, local_candidate. reflexivity.
  - exists (repeat 1%Z (sites_of shape)). split; [|split; [reflexivity|now left]].
    apply spins_in. split; [apply repeat_length|]. apply Forall_forall. intros x Hx. apply repeat_spec in Hx. now left.
Qed.

(** * The Heisenberg operator *)
Local Open Scope nat_scope.
Lemma swap_sym s p q : p < length s -> q < length s -> swap s p q = swap s q p.
Proof.
  intros Hp Hq. apply (nth_ext _ _ 0%Z 0%Z); [now rewrite !swap_length|]. intros i _. rewrite !nth_swap by assumption.
  destruct (Nat.eqb_spec i q), (Nat.eqb_spec i p); subst; reflexivity.
Qed.
Lemma exchanges_sym n P p q : p < n -> q < n -> exchanges n P p q -> exchanges n P q p.
Proof. intros Hp Hq E x Hx Px. pose proof (E x Hx Px) as R. apply spins_in in Hx. destruct Hx as [L _]. rewrite swap_sym by lia. exact R. Qed.

Lemma exchanges_line n P (f : nat -> nat) m : (forall i, i < m -> f i < n) -> (forall i, S i < m -> exchanges n P (f i) (f (S i))) ->
  forall i j, i < m -> j < m -> exchanges n P (f i) (f j).
Proof.
  intros Hf HE. assert (Up : forall k i, i + k < m -> exchanges n P (f i) (f (i + k))).
  { induction k as [|k IH]; intros i H; [rewrite Nat.add_0_r; apply exchanges_same, Hf; lia|].
    apply (exchanges_trans n P _ (f (i + k))); try (apply Hf; lia); [apply IH; lia|]. replace (i + S k) with (S (i + k)) by lia. apply HE. lia. }
  intros i j Hi Hj. destruct (Nat.le_ge_cases i j) as [L|L].
  - replace j with (i + (j - i)) by lia. apply Up. lia.
  - apply exchanges_sym; try (now apply Hf). replace i with (j + (i - j)) by lia. apply Up. lia.
Qed.

Lemma grid_connected L1 L2 pbc P : (forall a b, In (a, b) (grid_bonds L1 L2 pbc) -> exchanges (L1 * L2) P a b) ->
  forall p q, p < L1 * L2 -> q < L1 * L2 -> exchanges (L1 * L2) P p q.
Proof.
  intros HB.
  assert (Row : forall i j j', i < L1 -> j < L2 -> j' < L2 -> exchanges (L1 * L2) P (i * L2 + j) (i * L2 + j')).
  { intros i j j' Hi Hj Hj'. apply (exchanges_line _ P (fun j => i * L2 + j) L2); auto; [intros; nia|]. intros k Hk. apply HB.
    unfold grid_bonds. apply in_or_app. right. apply in_flat_map. exists i. split; [apply in_seq; lia|]. apply in_map_iff.
    exists (k, S k). split; [reflexivity|]. unfold chain_bonds. apply in_or_app. left. apply in_map_iff. exists k. split; [reflexivity|]. apply in_seq. lia. }
  assert (Col : forall i i' j, i < L1 -> i' < L1 -> j < L2 -> exchanges (L1 * L2) P (i * L2 + j) (i' * L2 + j)).
  { intros i i' j Hi Hi' Hj. apply (exchanges_line _ P (fun i => i * L2 + j) L1); auto; [intros; nia|]. intros k Hk. apply HB.
    unfold grid_bonds. apply in_or_app. left. apply in_flat_map. exists j. split; [apply in_seq; lia|]. apply in_map_iff.
    exists (k, S k). split; [reflexivity|]. unfold chain_bonds. apply in_or_app. left. apply in_map_iff. exists k. split; [reflexivity|]. apply in_seq. lia. }
  intros p q Hp Hq. assert (N : L2 <> 0) by nia.
  pose proof (Nat.div_mod p L2 N) as Ep. pose proof (Nat.div_mod q L2 N) as Eq.
  pose proof (Nat.mod_upper_bound p L2 N). pose proof (Nat.mod_upper_bound q L2 N).
  assert (Dp : p / L2 < L1) by (apply Nat.div_lt_upper_bound; nia). assert (Dq : q / L2 < L1) by (apply Nat.div_lt_upper_bound; nia).
  set (i := p / L2) in *. set (j := p mod L2) in *. set (i' := q / L2) in *. set (j' := q mod L2) in *. clearbody i j i' j'.
  replace p with (i * L2 + j) by lia. replace q with (i' * L2 + j') by lia.
  apply (exchanges_trans _ P _ (i * L2 + j')); try nia; auto.
Qed.

Lemma exchanged_swap n a b s t : spins n s -> a < n -> b < n -> exchanged a b s t = true -> t = swap s a b.
Proof.
  intros [L F] Ha Hb E. unfold exchanged in E. apply andb_prop in E. destruct E as [E1 E2]. apply Nat.eqb_eq in E1. rewrite forallb_forall in E2.
  apply (nth_ext _ _ 0%Z 0%Z); [now rewrite swap_length|]. intros i Hi. specialize (E2 i). rewrite in_seq in E2. specialize (E2 ltac:(lia)).
  apply Z.eqb_eq in E2. unfold spin in E2. rewrite E2, nth_swap by lia.
  destruct (Nat.eqb_spec i a), (Nat.eqb_spec i b); subst; reflexivity.
Qed.
Lemma swap_exchanged n a b s : spins n s -> a < n -> b < n -> exchanged a b s (swap s a b) = true.
Proof.
  intros [L F] Ha Hb. unfold exchanged. rewrite swap_length, Nat.eqb_refl. cbn [andb]. apply forallb_forall. intros i Hi. apply Z.eqb_eq.
  unfold spin. rewrite nth_swap by lia. destruct (Nat.eqb_spec i a), (Nat.eqb_spec i b); subst; reflexivity.
Qed.
Lemma Zsum_same_sign {A} (c : Z) (u : A -> bool) l : c <> 0%Z ->
  (Zsum (fun a => if u a then c else 0%Z) l <> 0%Z <-> exists a, In a l /\ u a = true).
Proof.
  intros Hc. assert (E : Zsum (fun a => if u a then c else 0%Z) l = (c * Z.of_nat (length (filter u l)))%Z).
  { induction l as [|a l IH]; [cbn; lia|]. rewrite Zsum_cons, IH. cbn [filter]. destruct (u a); cbn [length]; lia. }
  rewrite E. split.
  - intros N. destruct (filter u l) as [|a r] eqn:Ef; [cbn [length] in N; lia|]. exists a. apply filter_In. rewrite Ef. now left.
  - intros (a & Ha). apply filter_In in Ha. destruct (filter u l); [destruct Ha|]. cbn [length]. nia.
Qed.

Lemma heisenberg_sectors shape rot pbc batches H : chain_or_grid shape ->
  run_calls (heisenberg_init shape rot pbc) batches = Ok H ->
  exists g, symmetric_connectivity (sites_of shape) (heisenberg_operator H) g /\
    forall m, (exists s, In s (spin_configs (sites_of shape)) /\ sumZ s = m) ->
      (forall s t, In s (spin_configs (sites_of shape)) -> In t (g s) -> (sumZ t =? m)%Z = (sumZ s =? m)%Z) /\
      (forall P : list Z -> Prop, (forall s t, In s (spin_configs (sites_of shape)) -> In t (g s) -> P s -> P t) ->
         forall s t, In s (spin_configs (sites_of shape)) -> In t (spin_configs (sites_of shape)) -> (sumZ s =? m)%Z = true -> (sumZ t =? m)%Z = true -> P s -> P t) /\
      (exists x, In x (spin_configs (sites_of shape)) /\ (sumZ x =? m)%Z = true /\ In x (g x)).
Proof.
  intros GS EH. destruct (heisenberg_connections shape rot pbc batches H GS EH) as (g & G & Self & Occ). exists g. split; [exact G|].
  intros m (x & Hx & Ex). pose proof (shape_bonds_ok shape pbc GS) as OK. unfold bonds_ok in OK. rewrite Forall_forall in OK.
  assert (Off : off_diag rot <> 0%Z) by (unfold off_diag; destruct rot; lia).
  assert (Elem : forall s t, In s (spin_configs (sites_of shape)) -> s <> t ->
    (In t (g s) <-> exists b, In b (shape_bonds shape pbc) /\ negb (spin s (fst b) =? spin s (snd b))%Z && exchanged (fst b) (snd b) s t = true)).
  { intros s t Hs N. specialize (Occ s t Hs N). unfold heisenberg_element in Occ. destruct (list_eq_dec Z.eq_dec s t); [congruence|].
    rewrite Z.add_0_l in Occ. rewrite <- (Zsum_same_sign (off_diag rot) _ _ Off), <- Occ. rewrite (count_occ_In (list_eq_dec Z.eq_dec)).
    fold (occurrences t (g s)). nia. }
  split; [|split].
  - intros s t Hs It. f_equal. destruct (list_eq_dec Z.eq_dec s t) as [->|N]; [reflexivity|]. apply (Elem s t Hs N) in It. destruct It as (b & Ib & Eb).
    apply andb_prop in Eb. destruct Eb as [_ Eb]. destruct (OK b Ib) as (A & B & _). apply spins_in in Hs.
    rewrite (exchanged_swap _ _ _ s t Hs A B Eb). destruct Hs as [L _]. apply swap_sum; lia.
  - intros P HP s t Hs Ht Es Et. apply Z.eqb_eq in Es. apply Z.eqb_eq in Et.
    apply (same_sum_reached (sites_of shape) P); auto; [|congruence].
    assert (HB : forall a b, In (a, b) (shape_bonds shape pbc) -> exchanges (sites_of shape) P a b).
    { intros a b Ib y Hy Py. destruct (OK _ Ib) as (A & B & _). cbn [fst snd] in A, B. pose proof Hy as Hy'. apply spins_in in Hy'.
      destruct (list_eq_dec Z.eq_dec y (swap y a b)) as [E|N]; [now rewrite <- E|]. apply (HP y); auto. apply (Elem y _ Hy N). exists (a, b). split; [exact Ib|].
      cbn [fst snd]. rewrite (swap_exchanged _ a b y Hy' A B), andb_true_r. destruct (Z.eqb_spec (spin y a) (spin y b)) as [E|]; [|reflexivity].
      exfalso. apply N. unfold spin in E. destruct Hy' as [L _]. apply (nth_ext _ _ 0%Z 0%Z); [now rewrite swap_length|]. intros i _. rewrite nth_swap by lia.
      destruct (Nat.eqb_spec i b), (Nat.eqb_spec i a); subst; congruence. }
    destruct (shape_bonds_grid shape pbc GS) as [EB ES]. rewrite EB in HB. rewrite ES in *. now apply grid_connected with (pbc := pbc).
  - exists x. split; [exact Hx|]. split; [now apply Z.eqb_eq|now apply Self].
Qed.
Lemma heisenberg_sampler_converges shape rot pbc batches H lp : chain_or_grid shape ->
  run_calls (heisenberg_init shape rot pbc) batches = Ok H ->
  exists g, symmetric_connectivity (sites_of shape) (heisenberg_operator H) g /\
    forall K m, kernel (sites_of shape) (fun s => range (length (g s)))
        (fun s d u => one_chain (hamiltonian_sweep (heisenberg_operator H) lp) ([d], [u]) lp s) K ->
      (exists s, In s (spin_configs (sites_of shape)) /\ sumZ s = m) ->
      converges_within (sites_of shape) K (fun s => (sumZ s =? m)%Z)
        (conditioned (sites_of shape) (probability (sites_of shape) lp) (fun s => (sumZ s =? m)%Z)).
Proof.
  intros GS EH. destruct (heisenberg_sectors shape rot pbc batches H GS EH) as (g & G & HG). exists g. split; [exact G|].
  intros K m HK HX. destruct (HG m HX) as (A & B & X). exact (hamiltonian_converges _ _ g lp (fun s => (sumZ s =? m)%Z) G K HK A B X).
Qed.
