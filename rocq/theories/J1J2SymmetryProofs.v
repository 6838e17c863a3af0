(** Lemmas: the bonds of the J1-J2 grid as sums over chains, their symmetries, and the comparison with the Heisenberg operator. *)
From Coq Require Import List ZArith Reals Bool Arith Lia Lra Permutation.
From Verif Require Import Base OrderingSpec OrderingProofs Cplx LatticeSpec AutoregressiveSpec ObservableModel ObservableSpec ObservableProofs ExactModel ExactSpec
  ExactOperatorProofs SymmetryModel SymmetrySpec SymmetryProofs SymmetryEnsembleProofs SymmetricEvaluationModel SymmetricEvaluationSpec SymmetricEvaluationProofs SymmetricBondsProofs SymmetricLibraryProofs
  J1J2Model J1J2Spec J1J2Proofs J1J2OperatorProofs.
Import ListNotations.
Local Open Scope R_scope.

Definition edge_sum (f : nat -> nat -> nat -> R) (edges : list edge) : R := Rsum (fun e => let '(i, j, c) := e in f c i j) edges.
Definition up (n i : nat) : nat := ((i + 1) mod n)%nat.
Definition down (n i : nat) : nat := ((n + i - 1) mod n)%nat.

Lemma step_sum n pbc f : (0 < n)%nat -> (pbc = true -> (1 < n)%nat) ->
  Rsum (fun i => if (pbc || (i + 1 <? n))%bool then f i (up n i) else 0) (seq 0 n) = bond_sum f (chain_bonds n pbc).
Proof.
  intros Hn HP. destruct pbc.
  - rewrite ring_sum by auto. apply Rsum_ext. reflexivity.
  - unfold chain_bonds. cbn [andb]. rewrite app_nil_r. unfold bond_sum. rewrite Rsum_map. cbn [fst snd].
    replace (seq 0 n) with (seq 0 (n - 1) ++ [n - 1]%nat).
    2: { transitivity (seq 0 (n - 1 + 1)); [rewrite seq_app; reflexivity|f_equal; lia]. }
    rewrite Rsum_app, Rsum_cons, Rsum_nil. cbn [orb]. replace (n - 1 + 1 <? n)%nat with false by (symmetry; apply Nat.ltb_ge; lia).
    rewrite !Rplus_0_r. apply Rsum_ext. intros i Hi. apply in_seq in Hi. replace (i + 1 <? n)%nat with true by (symmetry; apply Nat.ltb_lt; lia).
    unfold up. rewrite Nat.mod_small by lia. f_equal. lia.
Qed.

Lemma down_up n i : (i < n)%nat -> down n (up n i) = i.
Proof.
  intros H. unfold down, up. destruct (Nat.eq_dec (i + 1) n) as [E|E].
  - rewrite E, Nat.mod_same by lia. replace (n + 0 - 1)%nat with i by lia. apply Nat.mod_small. lia.
  - rewrite (Nat.mod_small (i + 1)) by lia. replace (n + (i + 1) - 1)%nat with (i + 1 * n)%nat by lia. rewrite Nat.mod_add by lia. apply Nat.mod_small. lia.
Qed.

Lemma down_sum n pbc f : (0 < n)%nat -> (pbc = true -> (1 < n)%nat) ->
  Rsum (fun i => if (pbc || (0 <? i))%bool then f i (down n i) else 0) (seq 0 n) = bond_sum (fun a b => f b a) (chain_bonds n pbc).
Proof.
  intros Hn HP. rewrite <- (step_sum n pbc (fun a b => f b a)) by assumption.
  rewrite <- (Rsum_perm _ _ _ (permutes_shift n 1)), Rsum_map. apply Rsum_ext. intros i Hi. apply in_seq in Hi. fold (up n i). rewrite down_up by lia.
  destruct pbc; [reflexivity|]. cbn [orb]. unfold up. destruct (Nat.ltb_spec (i + 1) n) as [L|L].
  - rewrite Nat.mod_small by lia. replace (0 <? i + 1)%nat with true by (symmetry; apply Nat.ltb_lt; lia). reflexivity.
  - replace (i + 1)%nat with n by lia. rewrite Nat.mod_same by lia. reflexivity.
Qed.

Lemma mod_up n h : (0 < n)%nat -> ((Z.of_nat h + 1) mod Z.of_nat n = Z.of_nat (up n h))%Z.
Proof. intros Hn. unfold up. replace (Z.of_nat h + 1)%Z with (Z.of_nat (h + 1)) by lia. now rewrite <- Nat2Z.inj_mod. Qed.
Lemma mod_down n h : (0 < n)%nat -> ((Z.of_nat h + -1) mod Z.of_nat n = Z.of_nat (down n h))%Z.
Proof.
  intros Hn. unfold down. rewrite Nat2Z.inj_mod. replace (Z.of_nat (n + h - 1)) with (Z.of_nat h + -1 + 1 * Z.of_nat n)%Z by lia. symmetry. apply Z.mod_add. lia.
Qed.
Lemma mod_same n h : (h < n)%nat -> ((Z.of_nat h + 0) mod Z.of_nat n = Z.of_nat h)%Z.
Proof. intros Hn. rewrite Z.add_0_r. apply Z.mod_small. lia. Qed.
Lemma site_nat L2 h w : site_number L2 (Z.of_nat h) (Z.of_nat w) = (h * L2 + w)%nat.
Proof. unfold site_number. lia. Qed.

Lemma bonds_from_sum L1 L2 pbc f h w : (h < L1)%nat -> (w < L2)%nat ->
  edge_sum f (flat_map (bond_from L1 L2 pbc h w) directions) =
  (if (pbc || (w + 1 <? L2))%bool then f 1%nat (h * L2 + w)%nat (h * L2 + up L2 w)%nat else 0) +
  (if (pbc || (h + 1 <? L1))%bool then f 1%nat (h * L2 + w)%nat (up L1 h * L2 + w)%nat else 0) +
  (if (pbc || (h + 1 <? L1))%bool then if (pbc || (w + 1 <? L2))%bool then f 2%nat (h * L2 + w)%nat (up L1 h * L2 + up L2 w)%nat else 0 else 0) +
  (if (pbc || (0 <? h))%bool then if (pbc || (w + 1 <? L2))%bool then f 2%nat (h * L2 + w)%nat (down L1 h * L2 + up L2 w)%nat else 0 else 0).
Proof.
  intros Hh Hw. unfold edge_sum, directions, bond_from. cbn [flat_map]. rewrite !Rsum_app, Rsum_nil.
  rewrite !mod_up, !mod_down, !mod_same, !site_nat by lia.
  assert (I : forall a b, inside_grid L1 L2 a b = ((0 <=? a) && (a <? Z.of_nat L1) && (0 <=? b) && (b <? Z.of_nat L2))%Z%bool) by reflexivity.
  assert (B0 : forall x n, (x < n)%nat -> ((0 <=? Z.of_nat x + 0) = true /\ (Z.of_nat x + 0 <? Z.of_nat n) = true)%Z) by (intros; split; [apply Z.leb_le|apply Z.ltb_lt]; lia).
  assert (B1 : forall x n, (x < n)%nat -> ((0 <=? Z.of_nat x + 1) = true /\ (Z.of_nat x + 1 <? Z.of_nat n) = (x + 1 <? n)%nat)%Z).
  { intros x n H. split; [apply Z.leb_le; lia|]. destruct (Nat.ltb_spec (x + 1) n); [apply Z.ltb_lt; lia|apply Z.ltb_ge; lia]. }
  assert (B2 : forall x n, (x < n)%nat -> ((0 <=? Z.of_nat x + -1) = (0 <? x)%nat /\ (Z.of_nat x + -1 <? Z.of_nat n) = true)%Z).
  { intros x n H. split; [|apply Z.ltb_lt; lia]. destruct (Nat.ltb_spec 0 x); [apply Z.leb_le; lia|apply Z.leb_gt; lia]. }
  rewrite !I. destruct (B0 h L1 Hh) as [-> ->], (B0 w L2 Hw) as [-> ->], (B1 h L1 Hh) as [-> ->], (B1 w L2 Hw) as [-> ->], (B2 h L1 Hh) as [-> ->].
  destruct pbc, (w + 1 <? L2)%nat, (h + 1 <? L1)%nat, (0 <? h)%nat; cbn [orb andb]; rewrite ?Rsum_cons, ?Rsum_nil; ring.
Qed.

(** The bonds along the diagonals of the cells. *)
Definition diagonal_sum (n m : nat) (pbc : bool) (f : nat -> nat -> R) : R :=
  bond_sum (fun a a' => bond_sum (fun b b' => f (a * m + b)%nat (a' * m + b')%nat + f (a' * m + b)%nat (a * m + b')%nat) (chain_bonds m pbc)) (chain_bonds n pbc).

Lemma Rsum_if {A} (c : bool) (f : A -> R) l : Rsum (fun a => if c then f a else 0) l = if c then Rsum f l else 0.
Proof. destruct c; [reflexivity|apply Rsum_zero]. Qed.

Lemma bond_sum_plus f g l : bond_sum (fun a b => f a b + g a b) l = bond_sum f l + bond_sum g l.
Proof. unfold bond_sum. apply Rsum_plus. Qed.

Lemma diagonal_split n m pbc f : diagonal_sum n m pbc f =
  bond_sum (fun a a' => bond_sum (fun b b' => f (a * m + b)%nat (a' * m + b')%nat) (chain_bonds m pbc)) (chain_bonds n pbc) +
  bond_sum (fun a a' => bond_sum (fun b b' => f (a' * m + b)%nat (a * m + b')%nat) (chain_bonds m pbc)) (chain_bonds n pbc).
Proof. unfold diagonal_sum. rewrite <- bond_sum_plus. unfold bond_sum at 1 3. apply Rsum_ext. intros b _. apply bond_sum_plus. Qed.

Lemma lattice_sum n m pbc f : (0 < n)%nat -> (0 < m)%nat -> (pbc = true -> (1 < n /\ 1 < m)%nat) ->
  edge_sum f (lattice_edges n m pbc) = bond_sum (f 1%nat) (grid_bonds n m pbc) + diagonal_sum n m pbc (f 2%nat).
Proof.
  intros Hn Hm HP. unfold edge_sum, lattice_edges. rewrite Rsum_flat_map.
  rewrite (Rsum_ext _ (fun h => Rsum (fun w => edge_sum f (flat_map (bond_from n m pbc h w) directions)) (seq 0 m))) by (intros h _; apply Rsum_flat_map).
  rewrite (Rsum_ext _ (fun h => 
     Rsum (fun w => if (pbc || (w + 1 <? m))%bool then f 1%nat (h * m + w)%nat (h * m + up m w)%nat else 0) (seq 0 m) +
     Rsum (fun w => if (pbc || (h + 1 <? n))%bool then f 1%nat (h * m + w)%nat (up n h * m + w)%nat else 0) (seq 0 m) +
     Rsum (fun w => if (pbc || (h + 1 <? n))%bool then if (pbc || (w + 1 <? m))%bool then f 2%nat (h * m + w)%nat (up n h * m + up m w)%nat else 0 else 0) (seq 0 m) +
     Rsum (fun w => if (pbc || (0 <? h))%bool then if (pbc || (w + 1 <? m))%bool then f 2%nat (h * m + w)%nat (down n h * m + up m w)%nat else 0 else 0) (seq 0 m))).
  2: { intros h Hh. apply in_seq in Hh. rewrite <- !Rsum_plus. apply Rsum_ext. intros w Hw. apply in_seq in Hw. apply bonds_from_sum; lia. }
  rewrite !Rsum_plus.
  assert (T1 : Rsum (fun h => Rsum (fun w => if (pbc || (w + 1 <? m))%bool then f 1%nat (h * m + w)%nat (h * m + up m w)%nat else 0) (seq 0 m)) (seq 0 n) =
     Rsum (fun i => bond_sum (fun a b => f 1%nat (i * m + a)%nat (i * m + b)%nat) (chain_bonds m pbc)) (seq 0 n)).
  { apply Rsum_ext. intros h _. apply (step_sum m pbc (fun a b => f 1%nat (h * m + a)%nat (h * m + b)%nat)); [exact Hm|intros; now apply HP]. }
  assert (T2 : Rsum (fun h => Rsum (fun w => if (pbc || (h + 1 <? n))%bool then f 1%nat (h * m + w)%nat (up n h * m + w)%nat else 0) (seq 0 m)) (seq 0 n) =
     Rsum (fun j => bond_sum (fun a b => f 1%nat (a * m + j)%nat (b * m + j)%nat) (chain_bonds n pbc)) (seq 0 m)).
  { rewrite Rsum_exchange. apply Rsum_ext. intros w _. apply (step_sum n pbc (fun a b => f 1%nat (a * m + w)%nat (b * m + w)%nat)); [exact Hn|intros; now apply HP]. }
  assert (T3 : Rsum (fun h => Rsum (fun w => if (pbc || (h + 1 <? n))%bool then if (pbc || (w + 1 <? m))%bool then f 2%nat (h * m + w)%nat (up n h * m + up m w)%nat else 0 else 0) (seq 0 m)) (seq 0 n) =
     bond_sum (fun a a' => bond_sum (fun b b' => f 2%nat (a * m + b)%nat (a' * m + b')%nat) (chain_bonds m pbc)) (chain_bonds n pbc)).
  { rewrite <- (step_sum n pbc) by (auto; intros; now apply HP). apply Rsum_ext. intros h _. rewrite Rsum_if. destruct (pbc || (h + 1 <? n))%bool; [|reflexivity].
    apply (step_sum m pbc (fun b b' => f 2%nat (h * m + b)%nat (up n h * m + b')%nat)); [exact Hm|intros; now apply HP]. }
  assert (T4 : Rsum (fun h => Rsum (fun w => if (pbc || (0 <? h))%bool then if (pbc || (w + 1 <? m))%bool then f 2%nat (h * m + w)%nat (down n h * m + up m w)%nat else 0 else 0) (seq 0 m)) (seq 0 n) =
     bond_sum (fun a a' => bond_sum (fun b b' => f 2%nat (a' * m + b)%nat (a * m + b')%nat) (chain_bonds m pbc)) (chain_bonds n pbc)).
  { rewrite <- (down_sum n pbc (fun a a' => bond_sum (fun b b' => f 2%nat (a * m + b)%nat (a' * m + b')%nat) (chain_bonds m pbc))) by (auto; intros; now apply HP).
    apply Rsum_ext. intros h _. rewrite Rsum_if. destruct (pbc || (0 <? h))%bool; [|reflexivity].
    apply (step_sum m pbc (fun b b' => f 2%nat (h * m + b)%nat (down n h * m + b')%nat)); [exact Hm|intros; now apply HP]. }
  rewrite T1, T2, T3, T4, grid_sum, diagonal_split. ring.
Qed.

(** * Symmetries of the bonds *)
Definition preserves_edges (edges : list edge) (sigma : nat -> nat) : Prop :=
  forall f, (forall c, symmetric2 (f c)) -> edge_sum (fun c a b => f c (sigma a) (sigma b)) edges = edge_sum f edges.

Lemma bond_sum_ext f g n pbc : (forall a b, (a < n)%nat -> (b < n)%nat -> f a b = g a b) -> bond_sum f (chain_bonds n pbc) = bond_sum g (chain_bonds n pbc).
Proof. intros E. apply Rsum_ext. intros b Hb. destruct (chain_bonds_lt n pbc b Hb). now apply E. Qed.

Lemma diagonal_product n m pbc alpha beta f : symmetric2 f -> chain_symmetry n pbc alpha -> chain_symmetry m pbc beta ->
  diagonal_sum n m pbc (fun a b => f (product_map m alpha beta a) (product_map m alpha beta b)) = diagonal_sum n m pbc f.
Proof.
  intros F [PA BA] [PB BB]. unfold diagonal_sum.
  set (h := fun a a' b b' => f (a * m + b)%nat (a' * m + b')%nat + f (a' * m + b)%nat (a * m + b')%nat).
  transitivity (bond_sum (fun a a' => bond_sum (fun b b' => h (alpha a) (alpha a') (beta b) (beta b')) (chain_bonds m pbc)) (chain_bonds n pbc)).
  - apply bond_sum_ext. intros a a' Ha Ha'. apply bond_sum_ext. intros b b' Hb Hb'. now rewrite !product_site.
  - rewrite (BA (fun a a' => bond_sum (fun b b' => h a a' (beta b) (beta b')) (chain_bonds m pbc))).
    + apply bond_sum_ext. intros a a' _ _. apply (BB (h a a')). intros b b'. unfold h. rewrite (F (a' * m + b)%nat), Rplus_comm. f_equal. apply F.
    + intros a a'. apply bond_sum_ext. intros b b' _ _. unfold h. apply Rplus_comm.
Qed.

Lemma diagonal_turn N pbc f : symmetric2 f -> diagonal_sum N N pbc (fun a b => f (turn_map N a) (turn_map N b)) = diagonal_sum N N pbc f.
Proof.
  intros F. destruct (chain_reverse N pbc) as [_ BR]. unfold diagonal_sum.
  set (h := fun b b' a a' => f (b * N + a)%nat (b' * N + a')%nat + f (b * N + a')%nat (b' * N + a)%nat).
  transitivity (bond_sum (fun a a' => bond_sum (fun b b' => h b b' (N - 1 - a)%nat (N - 1 - a')%nat) (chain_bonds N pbc)) (chain_bonds N pbc)).
  - apply bond_sum_ext. intros a a' Ha Ha'. apply bond_sum_ext. intros b b' Hb Hb'. now rewrite !turn_site.
  - unfold bond_sum at 1 2. rewrite Rsum_exchange. apply Rsum_ext. intros [b b'] _. cbn [fst snd].
    transitivity (bond_sum (h b b') (chain_bonds N pbc)).
    + apply (BR (h b b')). intros a a'. apply Rplus_comm.
    + apply bond_sum_ext. intros a a' _ _. unfold h. f_equal. apply F.
Qed.

Lemma grid_lengths n m pbc : j1j2_grid n m pbc -> (0 < n)%nat /\ (0 < m)%nat /\ (pbc = true -> (1 < n)%nat /\ (1 < m)%nat).
Proof. intros [H HP]. destruct (grid_positive _ _ H). split; [assumption|]. split; [assumption|]. intros E. specialize (HP E). lia. Qed.

Lemma product_edges n m pbc alpha beta : j1j2_grid n m pbc -> chain_symmetry n pbc alpha -> chain_symmetry m pbc beta ->
  preserves_edges (lattice_edges n m pbc) (product_map m alpha beta).
Proof.
  intros G A B f F. destruct (grid_lengths n m pbc G) as (H1 & H2 & H3). rewrite !lattice_sum by assumption. f_equal.
  - now apply (grid_product n m pbc alpha beta A B).
  - now apply diagonal_product.
Qed.

Lemma turn_edges N pbc : j1j2_grid N N pbc -> preserves_edges (lattice_edges N N pbc) (turn_map N).
Proof.
  intros G f F. destruct (grid_lengths N N pbc G) as (H1 & H2 & H3). rewrite !lattice_sum by assumption. f_equal; [now apply turn_bonds|now apply diagonal_turn].
Qed.

(** * Symmetries of the Hamiltonian *)
Lemma element_moves n sigma i j s s' t t' : permutes_sites n sigma -> moves n sigma s s' -> moves n sigma t t' -> (i < n)%nat -> (j < n)%nat ->
  heisenberg_element 2 [(i, j)] s' t' = heisenberg_element 2 [(sigma i, sigma j)] s t.
Proof.
  intros P M1 M2 Hi Hj. assert (Q := moves_eq n sigma s s' t t' P M1 M2). unfold heisenberg_element. cbn [Zsum fold_right fst snd].
  rewrite (moves_exchanged n sigma i j s s' t t') by assumption. destruct M1 as (_ & _ & E1). rewrite !E1 by assumption.
  destruct (list_eq_dec Z.eq_dec s' t') as [A|A], (list_eq_dec Z.eq_dec s t) as [A'|A']; tauto.
Qed.

Lemma element_comm n i j s t : length s = n -> length t = n -> heisenberg_element 2 [(i, j)] s t = heisenberg_element 2 [(j, i)] s t.
Proof.
  intros L1 L2. unfold heisenberg_element. cbn [Zsum fold_right fst snd]. rewrite (exchanged_comm n i j) by assumption.
  rewrite (Z.eqb_sym (spin s i)), (Z.mul_comm (spin s i)). reflexivity.
Qed.

Lemma j1j2_moves L1 L2 j2 pbc sigma s s' t t' : j1j2_grid L1 L2 pbc -> permutes_sites (L1 * L2) sigma -> preserves_edges (lattice_edges L1 L2 pbc) sigma ->
  moves (L1 * L2) sigma s s' -> moves (L1 * L2) sigma t t' -> j1j2_matrix L1 L2 j2 pbc s' t' = j1j2_matrix L1 L2 j2 pbc s t.
Proof.
  intros G P B M1 M2. unfold j1j2_matrix. f_equal. set (f := fun c i j => coupling j2 c * IZR (heisenberg_element 2 [(i, j)] s t)).
  transitivity (edge_sum (fun c a b => f c (sigma a) (sigma b)) (lattice_edges L1 L2 pbc)).
  - apply Rsum_ext. intros [[i j] c] He. assert (O := grid_edges_ok L1 L2 pbc G). unfold edges_ok in O. rewrite Forall_forall in O.
    destruct (O _ He) as (Hi & Hj & _). unfold f. now rewrite (element_moves (L1 * L2) sigma i j s s' t t').
  - apply B. intros c a b. unfold f. now rewrite (element_comm (L1 * L2) a b s t) by (apply M1 || apply M2).
Qed.

Lemma j1j2_rotl N j2 pbc : j1j2_grid N N pbc -> symmetry (N * N) (rotl N) (j1j2_matrix N N j2 pbc).
Proof.
  intros G s t Hs Ht. apply spin_lengths in Hs. apply spin_lengths in Ht.
  apply (j1j2_moves N N j2 pbc (turn_map N)); auto using turn_permutes, turn_edges, rotl_moves.
Qed.

Lemma j1j2_mirl N j2 pbc : j1j2_grid N N pbc -> symmetry (N * N) (mirl N) (j1j2_matrix N N j2 pbc).
Proof.
  intros G s t Hs Ht. apply spin_lengths in Hs. apply spin_lengths in Ht.
  apply (j1j2_moves N N j2 pbc (product_map N (fun i => i) (fun j => N - 1 - j)%nat)); auto using mirl_moves.
  - apply product_permutes; [exact (proj1 (chain_id N pbc))|exact (proj1 (chain_reverse N pbc))].
  - apply product_edges; auto using chain_id, chain_reverse.
Qed.

Lemma j1j2_rolll L1 L2 j2 a : j1j2_grid L1 L2 true -> length a = 2%nat -> symmetry (L1 * L2) (rolll [L1; L2] a) (j1j2_matrix L1 L2 j2 true).
Proof.
  intros G La s t Hs Ht. apply spin_lengths in Hs. apply spin_lengths in Ht. destruct (grid_lengths L1 L2 true G) as (H1 & H2 & _). symmetry.
  assert (V : volume [L1; L2] = (L1 * L2)%nat) by (cbn; lia).
  assert (CG : chain_or_grid [L1; L2]) by (right; exists L1, L2; auto).
  apply (j1j2_moves L1 L2 j2 true (shift_map [L1; L2] a)); auto.
  - rewrite <- V. exact (proj1 (shift_symmetric [L1; L2] a CG La)).
  - destruct a as [|x [|y [|z a]]]; try discriminate. cbn [shift_map]. intros f F. apply (product_edges L1 L2 true (fun i => (i + x) mod L1)%nat (fun j => (j + y) mod L2)%nat G); auto using chain_shift.
  - rewrite <- V. apply rolll_moves; [exact CG|exact La|now rewrite V].
  - rewrite <- V. apply rolll_moves; [exact CG|exact La|now rewrite V].
Qed.

Lemma element_neg i j s t : heisenberg_element 2 [(i, j)] (neg s) (neg t) = heisenberg_element 2 [(i, j)] s t.
Proof.
  unfold heisenberg_element. cbn [Zsum fold_right fst snd]. rewrite exchanged_neg, !spin_neg, neg_eqb.
  destruct (list_eq_dec Z.eq_dec (neg s) (neg t)) as [E|E], (list_eq_dec Z.eq_dec s t) as [E'|E']; try lia.
  - exfalso. apply E'. rewrite <- (neg_neg s), <- (neg_neg t). fold (neg s) (neg t). now rewrite E.
  - exfalso. apply E. now rewrite E'.
Qed.

Lemma j1j2_flip L1 L2 j2 pbc s t : j1j2_matrix L1 L2 j2 pbc (neg s) (neg t) = j1j2_matrix L1 L2 j2 pbc s t.
Proof. unfold j1j2_matrix. f_equal. apply Rsum_ext. intros [[i j] c] _. now rewrite element_neg. Qed.

Lemma j1j2_eight N j2 pbc : j1j2_grid N N pbc -> Forall (fun T => symmetry (N * N) T (j1j2_matrix N N j2 pbc)) (eight_maps N).
Proof.
  intros G. assert (R := j1j2_rotl N j2 pbc G). assert (Q := j1j2_mirl N j2 pbc G).
  assert (PR := permutes_rotl N). assert (PR2 := permutes_compose _ _ _ PR PR). assert (PR3 := permutes_compose _ _ _ PR PR2).
  assert (R2 := symmetry_compose _ _ _ _ PR R R). assert (R3 := symmetry_compose _ _ _ _ PR2 R R2).
  unfold eight_maps. cbv zeta. repeat apply Forall_cons; try apply Forall_nil; try assumption; try (apply symmetry_id); now apply symmetry_compose.
Qed.

Lemma j1j2_flips L1 L2 j2 pbc n : Forall (fun T => symmetry n T (j1j2_matrix L1 L2 j2 pbc)) flip_maps.
Proof. repeat apply Forall_cons; [apply symmetry_id|intros s t _ _; apply j1j2_flip|constructor]. Qed.

Lemma j1j2_rolls L1 L2 j2 : j1j2_grid L1 L2 true -> Forall (fun T => symmetry (L1 * L2) T (j1j2_matrix L1 L2 j2 true)) (roll_maps [L1; L2]).
Proof.
  intros G. apply Forall_forall. intros T HT. apply in_map_iff in HT. destruct HT as (i & <- & Hi). apply j1j2_rolll; [exact G|].
  apply in_raster, in_shape_length in Hi. exact Hi.
Qed.

(** * Comparison with the Heisenberg operator *)
Lemma heisenberg_bonds off bonds s t : IZR (heisenberg_element off bonds s t) = bond_sum (fun a b => IZR (heisenberg_element off [(a, b)] s t)) bonds.
Proof.
  unfold heisenberg_element, bond_sum. rewrite plus_IZR.
  rewrite (Rsum_ext (fun b : nat * nat => _) (fun b => (if list_eq_dec Z.eq_dec s t then IZR (spin s (fst b) * spin s (snd b)) else 0) +
    IZR (if negb (spin s (fst b) =? spin s (snd b))%Z && exchanged (fst b) (snd b) s t then off else 0%Z))).
  - rewrite Rsum_plus. f_equal; [|apply IZR_Zsum]. destruct (list_eq_dec Z.eq_dec s t); [apply IZR_Zsum|]. now rewrite Rsum_zero.
  - intros b _. cbn [Zsum fold_right fst snd]. rewrite plus_IZR. f_equal; [|now rewrite Z.add_0_r]. destruct (list_eq_dec Z.eq_dec s t); [now rewrite Z.add_0_r|reflexivity].
Qed.

Lemma j1j2_zero L1 L2 pbc s t : j1j2_grid L1 L2 pbc -> j1j2_matrix L1 L2 0 pbc s t = heisenberg_matrix false pbc [L1; L2] s t.
Proof.
  intros G. destruct (grid_lengths L1 L2 pbc G) as (H1 & H2 & H3). unfold j1j2_matrix, heisenberg_matrix. f_equal.
  transitivity (edge_sum (fun c i j => coupling 0 c * IZR (heisenberg_element 2 [(i, j)] s t)) (lattice_edges L1 L2 pbc)); [reflexivity|].
  rewrite lattice_sum by assumption. rewrite heisenberg_bonds. unfold shape_bonds. unfold coupling. cbn [Nat.eqb].
  replace (diagonal_sum _ _ _ _) with 0.
  - rewrite Rplus_0_r. unfold bond_sum. apply Rsum_ext. intros b _. ring.
  - symmetry. unfold diagonal_sum, bond_sum. rewrite (Rsum_ext _ (fun _ => 0)); [apply Rsum_zero|]. intros b _.
    rewrite (Rsum_ext _ (fun _ => 0)); [apply Rsum_zero|]. intros b' _. ring.
Qed.
