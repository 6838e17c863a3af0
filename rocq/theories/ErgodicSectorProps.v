(** C86, continued: averages with the Hamiltonian sampler and the J1-J2 operator, and the energy that samples of fixed total spin estimate. *)
From Coq Require Import List ZArith Reals Bool Arith Lia Lra.
From Verif Require Import Base Cplx LatticeSpec IsingProofs AutoregressiveSpec ObservableModel ObservableSpec ObservableProofs ExactModel ExactSpec ExactProofs
  NetketModel NetketProofs MetropolisModel MetropolisSpec MetropolisProofs MixingSpec J1J2Model J1J2Spec J1J2Proofs J1J2OperatorModel J1J2OperatorProofs
  NetketSamplerModel NetketSamplerSpec NetketSamplerProofs J1J2SamplerProofs ErgodicSpec ErgodicCodeProofs.
From Verif Require MonteCarloProofs.
Import ListNotations.
Local Open Scope nat_scope.

(** With the J1-J2 operator the averages of every observable converge, within the total spin of the start, for every j2. *)
Theorem C86_j1j2 : forall (L1 L2 : nat) (j2 : R) (pbc : bool) log_psi K m g W (f : list Z -> C), j1j2_grid L1 L2 pbc -> new_j1j2 [L1; L2] j2 pbc = Ok (g, W) ->
  kernel (L1 * L2) (fun s => range (length (moves g s)))
    (fun s d u => one_chain (hamiltonian_sweep (j1j2_operator [L1; L2] g W) log_psi) ([d], [u]) log_psi s) K ->
  (exists s, In s (spin_configs (L1 * L2)) /\ sumZ s = m) ->
  stochastic (L1 * L2) K /\
  averages_converge (L1 * L2) K (fun s => (sumZ s =? m)%Z) (conditioned (L1 * L2) (probability (L1 * L2) log_psi) (fun s => (sumZ s =? m)%Z)) f.
Proof.
  intros L1 L2 j2 pbc lp K m g W f G EN HK HX. destruct (new_j1j2_ok L1 L2 j2 pbc G) as (k & E & L & N). rewrite N in EN. injection EN as <- <-.
  unfold j1j2_operator in HK. edestruct (j1j2_sectors L1 L2 j2 pbc) as (A & B & D & X); [exact G| |exact HX|].
  2: { eapply hamiltonian_averages; [exact A|exact HK|exact B|exact D|exact X]. }
  reflexivity.
Qed.
Print Assumptions C86_j1j2.
Example C86_j1j2_ex : j1j2_grid 4 4 true /\ (exists s, In s (spin_configs (2 * 2)) /\ sumZ s = 0%Z).
Proof. split; [split; lia|]. exists [1; -1; 1; -1]%Z. split; [|reflexivity]. apply spins_in. split; [reflexivity|]. repeat constructor; (left; reflexivity) || (right; reflexivity). Qed.

(** The wave function of total spin m that is left when the other amplitudes are set to 0. *)
Definition projected (log_psi : list Z -> C) (m : Z) (s : list Z) : C := if (sumZ s =? m)%Z then Cexp (log_psi s) else C0.

(** For a Hamiltonian that conserves the total spin, the energy that averages over configurations of total spin m converge to is that of the projected wave function, not of
    the wave function. *)
Theorem C86_sector_energy : forall (n : nat) (H : list Z -> list Z -> C) (log_psi : list Z -> C) (m : Z),
  (forall s t, In s (spin_configs n) -> In t (spin_configs n) -> sumZ s <> sumZ t -> H s t = C0) ->
  (exists s, In s (spin_configs n) /\ sumZ s = m) ->
  let norm := Rsum (fun s => Cnorm2 (projected log_psi m s)) (spin_configs n) in
  (0 < norm)%R /\
  Csum (fun s => Cscale (conditioned n (probability n log_psi) (fun s => (sumZ s =? m)%Z) s) (local_energy n H log_psi s)) (spin_configs n) =
    Cscale (/ norm) (braket n H (projected log_psi m)).
Proof.
  intros n H lp m HC (x & Hx & Ex) norm. pose proof (norm2_pos n lp) as P.
  assert (PN : (0 < norm)%R).
  { unfold norm. apply in_split in Hx. destruct Hx as (l1 & l2 & ->). rewrite Rsum_app, Rsum_cons.
    assert (Q : forall l, (0 <= Rsum (fun s => Cnorm2 (projected lp m s)) l)%R) by (intros l; apply Cplx.Rsum_nonneg; intros; apply Cnorm2_nonneg).
    pose proof (Q l1). pose proof (Q l2). assert (0 < Cnorm2 (projected lp m x))%R by (unfold projected; rewrite Ex, Z.eqb_refl; apply Cnorm2_exp_pos). lra. }
  split; [exact PN|].
  assert (WW : weight n (probability n lp) (fun s => (sumZ s =? m)%Z) = (norm / norm2 n lp)%R).
  { unfold weight, norm, Rdiv. rewrite Rmult_comm, <- Rsum_scal. apply Rsum_ext. intros s _. unfold projected, probability, born.
    destruct (sumZ s =? m)%Z; [unfold Rdiv; ring|]. unfold Cnorm2, C0. cbn [fst snd]. ring. }
  unfold braket. rewrite <- Csum_scale. apply Csum_ext. intros s Hs. unfold conditioned.
  destruct (Z.eqb_spec (sumZ s) m) as [Es|Ns].
  - assert (A : apply_matrix n H (projected lp m) s = apply_matrix n H (fun t => Cexp (lp t)) s).
    { unfold apply_matrix. apply Csum_ext. intros t Ht. unfold projected. destruct (Z.eqb_spec (sumZ t) m) as [Et|Nt]; [reflexivity|].
      rewrite (HC s t Hs Ht) by congruence. ring. }
    rewrite A. unfold projected at 1. rewrite Es, Z.eqb_refl, <- MonteCarloProofs.born_local. rewrite WW. unfold probability.
    unfold Cscale. cbn [fst snd]. f_equal; field; lra.
  - unfold projected. rewrite (proj2 (Z.eqb_neq _ _) Ns). unfold Cscale, Cmult, Cconj, C0. cbn [fst snd]. f_equal; ring.
Qed.
Print Assumptions C86_sector_energy.
Example C86_sector_energy_ex : (forall s t, In s (spin_configs (2 * 2)) -> In t (spin_configs (2 * 2)) -> sumZ s <> sumZ t -> j1j2_matrix 2 2 (1 / 2) false s t = C0) /\
  (exists s, In s (spin_configs (2 * 2)) /\ sumZ s = 0%Z).
Proof.
  split; [|exact (proj2 C86_j1j2_ex)]. intros s t Hs _ N. apply j1j2_conserves; [split; [lia|discriminate]|now apply spins_in|exact N].
Qed.
