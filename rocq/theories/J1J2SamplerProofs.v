(** The Hamiltonian sampler with the J1-J2 operator. *)
From Coq Require Import List ZArith Reals Bool Arith Lia Lra Permutation.
From Verif Require Import Base Cplx LatticeSpec IsingProofs HeisenbergProofs AutoregressiveSpec ObservableModel ObservableSpec ObservableProofs TopologyProofs ExactModel ExactSpec
  ExactProofs ExactOperatorProofs NetketModel NetketProofs MetropolisModel MetropolisSpec MetropolisProofs MetropolisOperatorProofs
  MixingSpec MixingProofs MixingSamplerProofs MixingExchangeProofs MixingHamiltonianProofs
  J1J2Model J1J2Spec J1J2Proofs J1J2OperatorModel J1J2OperatorProofs NetketSamplerModel NetketSamplerSpec NetketSamplerProofs.
Import ListNotations.
Local Open Scope nat_scope.

Definition edge_moves (j2 : R) (s : list Z) (e : edge) : list (list Z) :=
  let '(i, j, c) := e in if (spin s i =? spin s j)%Z then [] else if Req_EM_T (coupling j2 c) 0 then [] else [swapped s i j].

Lemma j1j2_moves L1 L2 j2 pbc s : j1j2_grid L1 L2 pbc -> spins (L1 * L2) s ->
  moves (j1j2_get_conn L1 L2 j2 pbc) s = s :: flat_map (edge_moves j2 s) (edge_colors L1 L2 pbc).
Proof.
  intros G Hs. destruct (j1j2_conns L1 L2 j2 pbc s G Hs) as (m & E). unfold moves. rewrite E. cbn [tl]. f_equal.
  generalize (edge_colors L1 L2 pbc). induction l as [|[[i j] c] l IH]; [reflexivity|]. cbn [flat_map]. rewrite filter_app, map_app, IH. f_equal.
  unfold edge_moves. destruct (spin s i =? spin s j)%Z; [reflexivity|]. destruct (Req_EM_T (coupling j2 c) 0) as [Z|N]; [reflexivity|].
  cbn [filter snd]. replace (nonzero (RtoC (2 * coupling j2 c))) with true; [reflexivity|]. symmetry. apply nonzero_spec. intros E0. unfold RtoC, C0 in E0.
  injection E0 as E0. lra.
Qed.

Lemma swapped_back n s i j : length s = n -> i < n -> j < n -> swapped (swapped s i j) i j = s.
Proof.
  intros L Hi Hj. change (swap (swap s i j) i j = s). apply (nth_ext _ _ 0%Z 0%Z); [now rewrite !swap_length|].
  intros k _. rewrite !nth_swap by (rewrite ?swap_length; lia).
  destruct (Nat.eqb_spec k j), (Nat.eqb_spec k i), (Nat.eqb_spec i j), (Nat.eqb_spec i i), (Nat.eqb_spec j j); subst; congruence.
Qed.
Lemma spin_swapped n s i j : length s = n -> i < n -> j < n -> spin (swapped s i j) i = spin s j /\ spin (swapped s i j) j = spin s i.
Proof.
  intros L Hi Hj. change (nth i (swap s i j) 0%Z = nth j s 0%Z /\ nth j (swap s i j) 0%Z = nth i s 0%Z). rewrite !nth_swap by lia.
  rewrite !Nat.eqb_refl. destruct (Nat.eqb_spec i j); subst; auto.
Qed.

Lemma edge_moves_sym n j2 s t i j c : length s = n -> length t = n -> i < n -> j < n ->
  occurrences t (edge_moves j2 s (i, j, c)) = occurrences s (edge_moves j2 t (i, j, c)).
Proof.
  intros Ls Lt Hi Hj. unfold edge_moves, occurrences.
  assert (D : forall x y, length x = n -> swapped x i j = y -> swapped y i j = x /\ (spin y i =? spin y j)%Z = (spin x i =? spin x j)%Z).
  { intros x y Lx <-. split; [now apply (swapped_back n)|]. destruct (spin_swapped n x i j Lx Hi Hj) as [-> ->]. apply Z.eqb_sym. }
  destruct (list_eq_dec Z.eq_dec (swapped s i j) t) as [E|N].
  - destruct (D s t Ls E) as [E' ES]. rewrite ES. destruct (spin s i =? spin s j)%Z; [reflexivity|]. destruct (Req_EM_T (coupling j2 c) 0); [reflexivity|].
    rewrite E, E'. cbn [count_occ]. destruct (list_eq_dec Z.eq_dec t t), (list_eq_dec Z.eq_dec s s); congruence.
  - assert (N' : swapped t i j <> s). { intros E. apply N. now apply (D t s). }
    assert (Z1 : forall x y, swapped x i j <> y -> count_occ (list_eq_dec Z.eq_dec) (if (spin x i =? spin x j)%Z then [] else if Req_EM_T (coupling j2 c) 0 then [] else [swapped x i j]) y = 0).
    { intros x y Nxy. destruct (spin x i =? spin x j)%Z; [reflexivity|]. destruct (Req_EM_T (coupling j2 c) 0); [reflexivity|]. cbn [count_occ].
      destruct (list_eq_dec Z.eq_dec (swapped x i j) y); congruence. }
    rewrite (Z1 s t N), (Z1 t s N'). reflexivity.
Qed.

Lemma j1j2_connects L1 L2 j2 pbc : j1j2_grid L1 L2 pbc -> connects_configurations (L1 * L2) (j1j2_get_conn L1 L2 j2 pbc).
Proof.
  intros G s Hs. split; [apply j1j2_reports|]. intros c m I. apply spins_in. apply spins_in in Hs. eapply j1j2_connected; eauto.
Qed.

Lemma j1j2_occurrences L1 L2 j2 pbc s t : j1j2_grid L1 L2 pbc -> In s (spin_configs (L1 * L2)) -> In t (spin_configs (L1 * L2)) -> s <> t ->
  occurrences t (moves (j1j2_get_conn L1 L2 j2 pbc) s) = occurrences s (moves (j1j2_get_conn L1 L2 j2 pbc) t).
Proof.
  intros G Hs Ht N. apply spins_in in Hs. apply spins_in in Ht. rewrite !j1j2_moves by auto. unfold occurrences. cbn [count_occ].
  destruct (list_eq_dec Z.eq_dec s t); [congruence|]. destruct (list_eq_dec Z.eq_dec t s); [congruence|].
  pose proof (edge_colors_ok L1 L2 pbc G) as F. induction F as [|[[i j] c] l (Hi & Hj & _) F IH]; [reflexivity|].
  cbn [flat_map]. rewrite !count_occ_app, IH. f_equal. exact (edge_moves_sym (L1 * L2) j2 s t i j c (proj1 Hs) (proj1 Ht) Hi Hj).
Qed.

Lemma j1j2_connectivity L1 L2 j2 pbc W d : j1j2_grid L1 L2 pbc -> should_calc_unused W = true ->
  symmetric_connectivity (L1 * L2) (netket_operator (j1j2_get_conn L1 L2 j2 pbc) W d) (moves (j1j2_get_conn L1 L2 j2 pbc)).
Proof.
  intros G SU. apply wrapper_connectivity; [exact SU|now apply j1j2_connects|]. intros s t. now apply j1j2_occurrences.
Qed.

(** Nearest neighbours are joined by a bond of the lattice. *)
Lemma neighbour_listed L1 L2 pbc a b : In (a, b) (grid_bonds L1 L2 false) -> exists c, In (a, b, c) (lattice_edges L1 L2 pbc) /\ c = 1.
Proof.
  intros I. exists 1. split; [|reflexivity]. unfold grid_bonds in I. apply in_app_or in I. destruct I as [I|I]; apply in_flat_map in I.
  - destruct I as (w & Hw & I). apply in_seq in Hw. apply in_map_iff in I. destruct I as ([x y] & E & I). unfold chain_bonds in I. cbn [andb] in I. rewrite app_nil_r in I.
    apply in_map_iff in I. destruct I as (h & Ek & I). apply in_seq in I. injection Ek as <- <-. cbn [fst snd] in E. injection E as <- <-.
    apply (bond_listed L1 L2 pbc h w (1%Z, 0%Z, 1)); try lia; [unfold directions; cbn; tauto|]. unfold bond_from, inside_grid, site_number.
    destruct (pbc || _) eqn:Ei.
    + left. rewrite !Z.mod_small by lia. f_equal. f_equal; nia.
    + exfalso. destruct pbc; [discriminate|]. cbn [orb] in Ei. repeat (apply andb_false_iff in Ei; destruct Ei as [Ei|Ei]); lia.
  - destruct I as (h & Hh & I). apply in_seq in Hh. apply in_map_iff in I. destruct I as ([x y] & E & I). unfold chain_bonds in I. cbn [andb] in I. rewrite app_nil_r in I.
    apply in_map_iff in I. destruct I as (w & Ek & I). apply in_seq in I. injection Ek as <- <-. cbn [fst snd] in E. injection E as <- <-.
    apply (bond_listed L1 L2 pbc h w (0%Z, 1%Z, 1)); try lia; [unfold directions; cbn; tauto|]. unfold bond_from, inside_grid, site_number.
    destruct (pbc || _) eqn:Ei.
    + left. rewrite !Z.mod_small by lia. f_equal. f_equal; nia.
    + exfalso. destruct pbc; [discriminate|]. cbn [orb] in Ei. repeat (apply andb_false_iff in Ei; destruct Ei as [Ei|Ei]); lia.
Qed.

Lemma j1j2_sectors L1 L2 j2 pbc W d m : j1j2_grid L1 L2 pbc -> should_calc_unused W = true ->
  let g := j1j2_get_conn L1 L2 j2 pbc in let P := fun s => (sumZ s =? m)%Z in
  (exists s, In s (spin_configs (L1 * L2)) /\ sumZ s = m) ->
  symmetric_connectivity (L1 * L2) (netket_operator g W d) (moves g) /\
  (forall s t, In s (spin_configs (L1 * L2)) -> In t (moves g s) -> P t = P s) /\
  (forall R : list Z -> Prop, (forall s t, In s (spin_configs (L1 * L2)) -> In t (moves g s) -> R s -> R t) ->
     forall s t, In s (spin_configs (L1 * L2)) -> In t (spin_configs (L1 * L2)) -> P s = true -> P t = true -> R s -> R t) /\
  (exists x, In x (spin_configs (L1 * L2)) /\ P x = true /\ In x (moves g x)).
Proof.
  intros G SU g P0 (x & Hx & Ex). pose proof (j1j2_connectivity L1 L2 j2 pbc W d G SU) as GC. fold g in GC. subst P0.
  pose proof (edge_colors_ok L1 L2 pbc G) as F. unfold edges_ok in F. rewrite Forall_forall in F.
  split; [exact GC|]. split; [|split].
  - intros s t Hs It. f_equal. apply spins_in in Hs. unfold g in It. rewrite j1j2_moves in It by auto. destruct It as [->|It]; [reflexivity|].
    apply in_flat_map in It. destruct It as ([[i j] c] & He & It). destruct (F _ He) as (Hi & Hj & N & _). unfold edge_moves in It.
    destruct (spin s i =? spin s j)%Z; [contradiction|]. destruct (Req_EM_T (coupling j2 c) 0); [contradiction|]. destruct It as [<-|[]].
    now apply (sumZ_swapped (L1 * L2)); [apply Hs| | |].
  - intros P HP s t Hs Ht Es Et. apply Z.eqb_eq in Es. apply Z.eqb_eq in Et.
    apply (same_sum_reached (L1 * L2) P); auto; [|congruence]. apply (grid_connected L1 L2 false P). intros a b Ib y Hy Py.
    destruct (neighbour_listed L1 L2 pbc a b Ib) as (c & Ic & ->). pose proof Hy as Hy'. apply spins_in in Hy'.
    destruct G as [GH GP]. destruct (grid_positive _ _ GH) as [H1 H2].
    apply (Permutation_in _ (Permutation_sym (edges_perm L1 L2 pbc H1 H2))) in Ic. destruct (F _ Ic) as (Hi & Hj & Nij & _).
    destruct (list_eq_dec Z.eq_dec y (swap y a b)) as [E|N]; [now rewrite <- E|]. apply (HP y); auto. unfold g. rewrite j1j2_moves; [|split; assumption|exact Hy'].
    right. apply in_flat_map. exists (a, b, 1). split; [exact Ic|]. unfold edge_moves.
    destruct (Z.eqb_spec (spin y a) (spin y b)) as [E|NE].
    + exfalso. apply N. unfold spin in E. destruct Hy' as [L _]. apply (nth_ext _ _ 0%Z 0%Z); [now rewrite swap_length|]. intros i _. rewrite nth_swap by lia.
      destruct (Nat.eqb_spec i b), (Nat.eqb_spec i a); subst; congruence.
    + destruct (Req_EM_T (coupling j2 1) 0) as [Z|_]; [exfalso; unfold coupling in Z; cbn in Z; lra|]. now left.
  - exists x. split; [exact Hx|]. split; [now apply Z.eqb_eq|]. now left.
Qed.

Lemma j1j2_converges L1 L2 j2 pbc W d lp K m : j1j2_grid L1 L2 pbc -> should_calc_unused W = true ->
  let g := j1j2_get_conn L1 L2 j2 pbc in
  kernel (L1 * L2) (fun s => range (length (moves g s))) (fun s x u => one_chain (hamiltonian_sweep (netket_operator g W d) lp) ([x], [u]) lp s) K ->
  (exists s, In s (spin_configs (L1 * L2)) /\ sumZ s = m) ->
  converges_within (L1 * L2) K (fun s => (sumZ s =? m)%Z) (conditioned (L1 * L2) (probability (L1 * L2) lp) (fun s => (sumZ s =? m)%Z)).
Proof.
  intros G SU g HK HX. destruct (j1j2_sectors L1 L2 j2 pbc W d m G SU HX) as (GC & A & B & X). fold g in GC, A, B, X.
  now apply (hamiltonian_converges _ _ (moves g) lp (fun s => (sumZ s =? m)%Z) GC K HK).
Qed.
